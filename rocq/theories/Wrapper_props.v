(** Properties C87, C88: what Python objects say of each other. *)

Require Import List Arith.
From Verif Require Import Replaceable Graph Graph_spec Script Script_spec Script_proofs Target_spec.
From Verif Require Import Graph_claims_proofs Wrapper Wrapper_spec Wrapper_proofs.
Import ListNotations.

(** ** C87: what an object says of its inputs is what it uses *)

(** Full statement: the fragility function whose probabilities are recorded for a
    group is the one the group's other figures come from.  False, even in careful
    scripts: *)
Theorem C87_fragfn_refuted : exists (l : list (@cmd nat nat)) n g f a b,
  careful_script adding 0 l /\ means (pscript adding 0 l) TGrp n g /\ uses (pscript adding 0 l) (SFrag g) f /\
  node_of (graph (base (pscript adding 0 l))) f = Some (NFrag a) /\
  ds_shown (pscript adding 0 l) g = Some b /\ a <> b.
Proof. exact refute_fragfn. Qed.
Print Assumptions C87_fragfn_refuted.

(** Full statement: the measure whose name heads a group's figures is the one they
    are given for.  False, even in careful scripts: *)
Theorem C87_getIM_refuted : exists (l : list (@cmd nat nat)) n g i m x,
  careful_script adding 0 l /\ means (pscript adding 0 l) TGrp n g /\
  get_IM (wraps (pscript adding 0 l)) g = Some i /\ ids (pscript adding 0 l) i = Some m /\
  depends (pscript adding 0 l) g x /\ ~ means (pscript adding 0 l) TIm m x.
Proof. exact refute_getIM. Qed.
Print Assumptions C87_getIM_refuted.

(** Full statement: the function a measure names is the one it uses.  False, even
    in careful scripts: *)
Theorem C87_function_refuted : exists (l : list (@cmd nat nat)) n o f m x,
  careful_script adding 0 l /\ means (pscript adding 0 l) TIm n o /\
  wraps (pscript adding 0 l) o = Some (WIm f) /\ ids (pscript adding 0 l) f = Some m /\
  uses (pscript adding 0 l) (SF o) x /\ ~ means (pscript adding 0 l) TDet m x.
Proof. exact refute_function. Qed.
Print Assumptions C87_function_refuted.

(** In careful scripts, what an object uses is what the name of its input stands
    for now, if it is a measure, a demand parameter, a fragility or a loss
    function; and the very input, if it is a deterministic or probabilistic
    function. *)
Theorem C87_names_partial : forall X V P (C : calcs X V P) p l o w sl k v, careful_script C p l ->
  let s := pscript C p l in
  wraps s o = Some w -> exists_in s o -> says o w sl k v ->
  exists n, ids s v = Some n /\
    if replaces k then exists x, uses s sl x /\ means s k n x else uses s sl v.
Proof. exact @names_true. Qed.
Print Assumptions C87_names_partial.

(** An input an object was given by a definition is the one it uses as long as its
    name is not defined again, and not thereafter. *)
Theorem C87_inputs_partial : forall X V P (C : calcs X V P) p l c l' k0 n0 o w sl k v,
  careful_script C p (l ++ c :: l') ->
  defines c = Some (k0, n0) -> call (names (script C p l)) (graph (script C p l)) c <> None ->
  names (script C p (l ++ [c])) k0 n0 = Some o -> wraps (pscript C p (l ++ [c])) o = Some w ->
  exists_in (pscript C p (l ++ c :: l')) o ->
  says o w sl k v -> replaces k = true ->
  exists n, ids (pscript C p (l ++ c :: l')) v = Some n /\
    (uses (pscript C p (l ++ c :: l')) sl v <-> ~ redefined_in C p (l ++ [c]) l' k n).
Proof. exact @accessor_iff. Qed.
Print Assumptions C87_inputs_partial.

(** An object remembers for ever, for each part, exactly what the names in its
    definition stood for then, and the name it was given. *)
Theorem C87_given : forall X V P (C : calcs X V P) p l c l' k0 n0 o, careful_script C p (l ++ c :: l') ->
  defines c = Some (k0, n0) -> k0 <> TStr -> call (names (script C p l)) (graph (script C p l)) c <> None ->
  names (script C p (l ++ [c])) k0 n0 = Some o ->
  exists w, wraps (pscript C p (l ++ c :: l')) o = Some w /\ ids (pscript C p (l ++ c :: l')) o = Some n0 /\
    forall r v, shows w r v <-> exists k n, gives c r k n /\ names (script C p l) k n = Some v.
Proof. exact @given. Qed.
Print Assumptions C87_given.

Example C87_given_case : let l := firstn 8 start ++ [DefLoss 1 7; DefEdp 1 0 0; DefCompound 2 0 0 1] in
  let c := DefGrp 3 1 2 0 (Some 0) (Some 1) in
  careful_script adding 0 (l ++ c :: [DefLoss 1 9]) /\
  call (names (script adding 0 l)) (graph (script adding 0 l)) c <> None /\
  names (script adding 0 (l ++ [c])) TGrp 3 = Some 11 /\
  wraps (pscript adding 0 (l ++ c :: [DefLoss 1 9])) 11 = Some (WGrp 10 6 7 (Some 8)) /\
  wraps (pscript adding 0 l) 10 = Some (WEdp 3 5 (Some 9)).
Proof.
  split; [apply scriptb_ok; vm_compute; reflexivity|]. repeat split; vm_compute; try reflexivity. discriminate.
Qed.

(** In careful scripts, the name of the measure a demand parameter names stands for
    the one it uses. *)
Theorem C87_demand_partial : forall X V P (C : calcs X V P) p l n o, careful_script C p l ->
  let s := pscript C p l in means s TEdp n o ->
  exists i m x, get_IM (wraps s) o = Some i /\ ids s i = Some m /\ means s TIm m x /\ uses s (SBase o) x.
Proof. exact @demand_measure. Qed.
Print Assumptions C87_demand_partial.

(** In careful scripts that define no demand parameter again on another measure,
    the measure a group names is the one it depends on, *)
Theorem C87_group_partial : forall X V P (C : calcs X V P) p l n o, careful_script C p l -> steady l ->
  let s := pscript C p l in means s TGrp n o ->
  exists i m x, get_IM (wraps s) o = Some i /\ ids s i = Some m /\ means s TIm m x /\ depends s o x.
Proof. exact @group_measure. Qed.
Print Assumptions C87_group_partial.

(** and so is the one a structure names. *)
Theorem C87_structure_partial : forall X V P (C : calcs X V P) p l n o, careful_script C p l -> steady l ->
  let s := pscript C p l in means s TStr n o -> groups (graph (base s)) o <> [] ->
  exists i m x, get_IM (wraps s) o = Some i /\ ids s i = Some m /\ means s TIm m x /\ uses s (SIm o) x.
Proof. exact @structure_measure. Qed.
Print Assumptions C87_structure_partial.

(** ** C88: additions to structures *)

(** Full statement: adding a group to a structure succeeds if the structure is empty
    or has the group's measure; an addition that fails changes nothing.  False,
    even in careful scripts: *)
Theorem C88_moved_refuted : exists l t g, careful_script adding 0 (l ++ [AddTo t g]) /\ objects 0 l t g.
Proof. exact refute_moved. Qed.
Print Assumptions C88_moved_refuted.

(** Also without redefinitions, when a structure is emptied and filled again. *)
Theorem C88_refill_refuted : exists l t g, tidy_script adding 0 (l ++ [AddTo t g]) /\ steady l /\ objects 0 l t g.
Proof. exact refute_refill. Qed.
Print Assumptions C88_refill_refuted.

(** And when the measure of a structure is defined again, a demand parameter is defined on
    the new one, and a group of that is added. *)
Theorem C88_renewed_refuted : exists l t g, steady l /\ objects 0 l t g.
Proof. exact refute_renewed. Qed.
Print Assumptions C88_renewed_refuted.

(** In careful scripts that define no demand parameter again on another measure, an
    addition succeeds if the structure is empty or has the group's measure;
    otherwise the process ends, with nothing changed. *)
Theorem C88_add_partial : forall X V P (C : calcs X V P) p l t g ot og,
  careful_script C p (l ++ [AddTo t g]) -> steady l ->
  let s := pscript C p l in let s' := pscript C p (l ++ [AddTo t g]) in
  means s TStr t ot -> means s TGrp g og ->
  exists i, depends s og i /\
    ((groups (graph (base s)) ot = [] \/ uses s (SIm ot) i) /\ add_answer C s t g = AOk /\ added_to s s' ot og i \/
     (groups (graph (base s)) ot <> [] /\ ~ uses s (SIm ot) i) /\ add_answer C s t g = AEnd /\ unchanged s s').
Proof. exact @additions. Qed.
Print Assumptions C88_add_partial.

(** In any script, adding to or from an unknown name raises, with nothing
    changed. *)
Theorem C88_unknown : forall X V P (C : calcs X V P) p l t g,
  let s := pscript C p l in let s' := pscript C p (l ++ [AddTo t g]) in
  (forall o, ~ means s TStr t o) \/ (forall o, ~ means s TGrp g o) ->
  add_answer C s t g = ARaise /\ unchanged s s'.
Proof. exact @unknown. Qed.
Print Assumptions C88_unknown.

Example C88_unknown_case : let s := pscript adding 0 (start ++ [DefStr 0]) in
  means s TStr 0 9 /\ (forall o, ~ means s TGrp 5 o) /\ means s TGrp 0 8 /\ (forall o, ~ means s TStr 1 o).
Proof. repeat split; unfold means; vm_compute; try reflexivity; discriminate. Qed.

(** A script with a redefined measure and fragility function, and a structure. *)
Definition C87_script : list (@cmd nat nat) :=
  start ++ [DefStr 0; AddTo 0 0; DefEdp 1 1 0; DefGrp 1 1 1 0 (Some 0) None; DefIm 0 1; DefFrag 0 7].

Example C87_case :
  careful_script adding 0 C87_script /\ steady C87_script /\
  (let s := pscript adding 0 C87_script in
   (exists w, wraps s 8 = Some w /\ exists_in s 8 /\ says 8 w (SFrag 8) TFrag 6 /\ ~ uses s (SFrag 8) 6) /\
   means s TGrp 0 8 /\ means s TStr 0 9 /\ groups (graph (base s)) 9 <> []) /\
  (let l := firstn 8 start in let l' := skipn 9 C87_script in let c := DefGrp 0 1 0 0 (Some 0) None in
   C87_script = l ++ c :: l' /\ redefined_in adding 0 (l ++ [c]) l' TFrag 0 /\ ~ redefined_in adding 0 (l ++ [c]) l' TEdp 0).
Proof.
  split; [apply scriptb_ok; vm_compute; reflexivity|]. split.
  { intros c c' n i i' H H'. cbn in H, H'.
    repeat (destruct H as [<-|H]; [repeat (destruct H' as [<-|H']; [cbn; try discriminate; intros E1 E2; injection E1; injection E2; intros; congruence|]); destruct H'|]).
    destruct H. }
  split.
  - split.
    + eexists. split; [vm_compute; reflexivity|]. split; [vm_compute; discriminate|]. split; [constructor|vm_compute; discriminate].
    + split; [vm_compute; reflexivity|]. split; [vm_compute; reflexivity|]. vm_compute. discriminate.
  - split; [reflexivity|]. split.
    + exists [DefStr 0; AddTo 0 0; DefEdp 1 1 0; DefGrp 1 1 1 0 (Some 0) None; DefIm 0 1], (DefFrag 0 7), [].
      split; [reflexivity|]. split; [reflexivity|]. vm_compute. discriminate.
    + intros (a & c & b & E & H & _). cbn in E.
      do 6 (destruct a as [|? a]; [injection E as <- _; discriminate H|injection E as _ E]).
      destruct a; discriminate E.
Qed.

(** Both outcomes of an addition in such scripts. *)
Example C88_case :
  (careful_script adding 0 (start ++ [DefStr 0] ++ [AddTo 0 0]) /\ steady (start ++ [@DefStr nat nat 0]) /\
   add_answer adding (pscript adding 0 (start ++ [DefStr 0])) 0 0 = AOk) /\
  careful_script adding 0 (C87_script ++ [AddTo 0 1]) /\ steady C87_script /\
  add_answer adding (pscript adding 0 C87_script) 0 1 = AEnd.
Proof.
  split.
  - split; [apply scriptb_ok; vm_compute; reflexivity|]. split; [|vm_compute; reflexivity].
    intros c c' n i i' H H'. cbn in H, H'.
    repeat (destruct H as [<-|H]; [repeat (destruct H' as [<-|H']; [cbn; try discriminate; intros E1 E2; injection E1; injection E2; intros; congruence|]); destruct H'|]).
    destruct H.
  - split; [apply scriptb_ok; vm_compute; reflexivity|]. split; [apply C87_case|vm_compute; reflexivity].
Qed.
