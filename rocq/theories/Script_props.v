(** Properties C53 and C74: redefinition in scripts; what each command does. *)

Require Import List Arith.
From Verif Require Import Replaceable Graph Graph_spec Script Script_spec Script_proofs Script_proofs2.
Import ListNotations.

(** Full statement: for every script [l] and command [c] that redefines a
    measure, demand parameter, fragility, loss function or group, every pointer to
    the old object leads to the new one afterwards.  It is false: *)
Theorem C53_refuted : exists (l : list (@cmd nat nat)) c k n o,
  replaces k = true /\ redefines adding 0 l c k n o /\ ~ rewired adding 0 l c k n o.
Proof. exact refute_redefinition. Qed.
Print Assumptions C53_refuted.

(** It holds in careful scripts, and nothing else is redirected (other than in
    the new object itself); missing: scripts that refer to a redefined name when
    making further objects. *)
Theorem C53_partial : forall X V P (C : calcs X V P) p l c k n o,
  careful_script C p (l ++ [c]) -> replaces k = true -> redefines C p l c k n o ->
  rewired C p l c k n o /\
  (forall sl, ptr (graph (script C p l)) sl <> Some o ->
     names (script C p (l ++ [c])) k n <> Some (owner sl) ->
     ptr (graph (script C p (l ++ [c]))) sl = ptr (graph (script C p l)) sl).
Proof. exact @redefinition. Qed.
Print Assumptions C53_partial.

(** Two groups; the measure and the fragility are redefined, with queries in
    between, then the measure again. *)
Definition C53_script : list (@cmd nat nat) :=
  [DefDet 0 1; DefDet 1 2; DefProb 0 0 1 1; DefIm 0 0; DefEdp 0 0 0; DefCompound 1 0 0 0; DefFrag 0 1;
   DefLoss 0 1; DefGrp 0 1 0 0 (Some 0) None; DefGrp 1 1 1 0 (Some 0) (Some 0); DefStr 0; AddTo 0 0; AddTo 0 1;
   Look (QAnnual 9); DefIm 0 1; Look (QLambda 4 1); DefFrag 0 4].
Example C53_case :
  (careful_script adding 0 (C53_script ++ [DefIm 0 0]) /\ replaces TIm = true /\
   redefines adding 0 C53_script (DefIm 0 0) TIm 0 13) /\
  ptr (graph (script adding 0 C53_script)) (SBase 4) = Some 13 /\
  ptr (graph (script adding 0 C53_script)) (SBase 5) = Some 13 /\
  ptr (graph (script adding 0 (C53_script ++ [DefIm 0 0]))) (SBase 4) = Some 15.
Proof.
  split; [split; [apply scriptb_ok; vm_compute; reflexivity|]|vm_compute; auto].
  vm_compute. repeat split. discriminate.
Qed.

(** Figures in careful scripts are those of the objects as they are, with all
    redefinitions so far. *)
Theorem C53_figures_partial : forall X V P (C : calcs X V P) p l, careful_script C p l ->
  (forall e x, node_of (graph (script C p l)) e = Some NEdp \/ node_of (graph (script C p l)) e = Some NCompound ->
     exists v, snd (do_query C (QLambda e x) (graph (script C p l))) = Some v /\
               current C (graph (script C p l)) (QLambda e x) v) /\
  (forall g a q, node_of (graph (script C p l)) g = Some (NGrp a) ->
     exists v, snd (do_query C (QGrp g q) (graph (script C p l))) = Some v /\
               current C (graph (script C p l)) (QGrp g q) v).
Proof. exact @script_figures. Qed.
Print Assumptions C53_figures_partial.

Example C53_figures_case :
  careful_script adding 0 C53_script /\
  node_of (graph (script adding 0 C53_script)) 4 = Some NEdp /\
  node_of (graph (script adding 0 C53_script)) 8 = Some (NGrp 1) /\
  snd (do_query adding (QLambda 4 1) (graph (script adding 0 (firstn 13 C53_script)))) = Some 6 /\
  snd (do_query adding (QLambda 4 1) (graph (script adding 0 C53_script))) = Some 7.
Proof. split; [apply scriptb_ok; vm_compute; reflexivity|]. vm_compute. auto. Qed.

(** Full statement: a compound demand parameter follows the two it was made
    from: when one of them is redefined, the compound uses the function of the new
    definition.  False, in a careful script: the compound took the functions when
    it was made. *)
Theorem C53_compound_refuted : exists (l : list (@cmd nat nat)) c m i x y,
  careful_script adding 0 (l ++ [c]) /\ In (DefCompound m i x y) l /\
  defines c = Some (TEdp, x) /\ ~ follows adding 0 (l ++ [c]) m x.
Proof. exact refute_compound. Qed.
Print Assumptions C53_compound_refuted.

(** It does so as long as neither is redefined: at the time it is made. *)
Theorem C53_compound_partial : forall X V P (C : calcs X V P) p l m i x y,
  careful_script C p (l ++ [DefCompound m i x y]) -> m <> x ->
  call (names (script C p l)) (graph (script C p l)) (DefCompound m i x y) <> None ->
  follows C p (l ++ [DefCompound m i x y]) m x.
Proof. exact @compound_follows. Qed.
Print Assumptions C53_compound_partial.

Example C53_compound_case :
  let l := firstn 5 C53_script in
  careful_script adding 0 (l ++ [DefCompound 1 0 0 0]) /\
  call (names (script adding 0 l)) (graph (script adding 0 l)) (DefCompound 1 0 0 0) = Some (NewCompound 3 2 2).
Proof. split; [apply scriptb_ok; vm_compute; reflexivity|]. vm_compute. auto. Qed.

(** C74.  Full statement: in any script whatever (objects being freed only once no
    name leads to them), each command does to the objects behind the names it
    mentions what [does] says, and nothing to any other.  False: a group can be
    defined with a delay function that does not exist. *)
Theorem C74_delay_refuted : exists (l : list (@cmd nat nat)) c, tidy_script adding 0 (l ++ [c]) /\
  ~ does (script adding 0 l) c (script adding 0 (l ++ [c])).
Proof. exact refute_delay. Qed.
Print Assumptions C74_delay_refuted.

(** Such a definition makes a group without delays. *)
Theorem C74_delay_fails : forall X V P (C : calcs X V P) p l n a e f x d,
  let c := DefGrp n a e f x (Some d) in
  tidy_script C p (l ++ [c]) -> names (script C p l) TLoss d = None ->
  does (script C p l) (DefGrp n a e f x None) (script C p (l ++ [c])).
Proof. exact @delay_lost. Qed.
Print Assumptions C74_delay_fails.

Example C74_delay_case :
  tidy_script adding 0 (C53_script ++ [DefGrp 3 1 0 0 (Some 0) (Some 8)]) /\
  names (script adding 0 C53_script) TLoss 8 = None /\
  names (script adding 0 C53_script) TGrp 3 = None /\
  names (script adding 0 (C53_script ++ [DefGrp 3 1 0 0 (Some 0) (Some 8)])) TGrp 3 <> None.
Proof.
  split; [unfold tidy_script, C53_script; cbn [app tidy_cmds tidy_cmd]; repeat (split; [exact I|]); exact I|].
  vm_compute. repeat split; discriminate.
Qed.

(** Every other command does what [does] says. *)
Theorem C74_commands_partial : forall X V P (C : calcs X V P) p l c, tidy_script C p (l ++ [c]) ->
  ~ delay_unknown (script C p l) c -> does (script C p l) c (script C p (l ++ [c])).
Proof. exact @commands. Qed.
Print Assumptions C74_commands_partial.

(** A script that is not careful: measure and fragility are redefined and the new
    ones used for another group, the old fragility is collected, and the groups
    are exchanged. *)
Definition C74_script : list (@cmd nat nat) :=
  C53_script ++ [DefEdp 2 0 0; DefGrp 2 1 2 0 (Some 0) None; RemoveFrom 0 0; AddTo 0 2; AddTo 0 0; SetColl 0 (Some 4);
                 SetDemo 0 (Some 5); Rebuild 0 7; DemolitionCost 0 8; DefProb 1 3 0 1; Collect 6].
Example C74_case :
  tidy_script adding 0 (C74_script ++ [RemoveFrom 0 2]) /\
  let g := graph (script adding 0 C74_script) in
  groups g 10 = [Some 9; Some 16; Some 8] /\
  groups (graph (script adding 0 (C74_script ++ [RemoveFrom 0 2]))) 10 = [Some 9; Some 8].
Proof.
  cbv zeta. split; [|vm_compute; auto].
  unfold tidy_script, C74_script, C53_script. cbn [app tidy_cmds tidy_cmd].
  repeat (split; [exact I|]). split; [|split; exact I].
  intros k n. vm_compute. destruct k; repeat (discriminate || destruct n as [|n]).
Qed.
