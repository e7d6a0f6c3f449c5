(** * Every tree the grammar derives is the tree of an abstract command *)
From Coq Require Import ZArith Bool Ascii String List Lia.
From Verif Require Import Interp Interp_spec.
Import ListNotations.
Open Scope string_scope.
Open Scope list_scope.

Lemma inv_eps : forall l, matches Eps l -> l = [].
Proof. inversion 1; auto. Qed.

Lemma inv_tok : forall k l, matches (T k) l -> exists s, l = [Leaf k s] /\ lexeme k s = true.
Proof. inversion 1; eauto. Qed.

Lemma inv_rule : forall r l, matches (R r) l -> exists c, l = [Node r c].
Proof. inversion 1; eauto. Qed.

Lemma inv_seq : forall a b l, matches (Seq a b) l -> exists x y, l = x ++ y /\ matches a x /\ matches b y.
Proof. inversion 1; eauto. Qed.

Lemma inv_alt : forall a b l, matches (Alt a b) l -> matches a l \/ matches b l.
Proof. inversion 1; auto. Qed.

Lemma inv_star : forall a l, matches (Star a) l -> exists ls, l = concat ls /\ Forall (matches a) ls.
Proof.
  intros a l H. remember (Star a) as r. induction H; try discriminate.
  - exists []. auto.
  - injection Heqr as ->. destruct IHmatches2 as (ls & -> & F); auto. exists (l :: ls). cbn. auto.
Qed.

Lemma lexeme_kw : forall k s t, fixed_text k = Some t -> lexeme k s = true -> Leaf k s = kw k.
Proof.
  intros k s t F. unfold lexeme, kw. rewrite F. intros E. apply String.eqb_eq in E. now subst.
Qed.

Lemma derives_inv : forall r l, derives (Node r l) -> matches (grammar r) l /\ Forall derives l.
Proof. inversion 1; auto. Qed.

Ltac inv_matches :=
  repeat match goal with
  | H : matches Eps _ |- _ => apply inv_eps in H; subst
  | H : matches (T ?k) _ |- _ =>
      let s := fresh "s" in let L := fresh "L" in
      apply inv_tok in H; destruct H as (s & -> & L);
      try (let F := fresh in
           pose proof (lexeme_kw k s _ eq_refl L) as F;
           rewrite F in *; clear F L s)
  | H : matches (R _) _ |- _ => let c := fresh "c" in apply inv_rule in H; destruct H as (c & ->)
  | H : matches (Seq _ _) _ |- _ =>
      let x := fresh "x" in let y := fresh "y" in let A := fresh in let B := fresh in
      apply inv_seq in H; destruct H as (x & y & -> & A & B)
  | H : matches (Opt _) _ |- _ => unfold Opt in H
  | H : matches (Star _) _ |- _ =>
      let ls := fresh "ls" in let F := fresh "F" in apply inv_star in H; destruct H as (ls & -> & F)
  | H : matches (Alt _ _) _ |- _ => apply inv_alt in H; destruct H as [H | H]
  end.

Ltac start H :=
  let D := fresh "D" in
  apply derives_inv in H; destruct H as [H D]; cbn [grammar seq alts map] in H; inv_matches;
  cbn [app] in *.

Ltac split_forall :=
  repeat match goal with
  | H : Forall derives (_ :: _) |- _ => inversion H; clear H; subst
  | H : Forall derives [] |- _ => clear H
  | H : Forall derives (_ ++ _) |- _ => apply Forall_app in H; destruct H
  end.

Lemma lists_of : forall {A} (a : rhs) (f : A -> list tree) ls,
  Forall (matches a) ls -> Forall derives (concat ls) ->
  (forall l, In l ls -> matches a l -> Forall derives l -> exists x, l = f x) ->
  exists xs, concat ls = flat_map f xs.
Proof.
  intros A a f ls M D H. induction M as [| l ls M Ms IH].
  - exists []. auto.
  - cbn in D. apply Forall_app in D. destruct D as [D Ds].
    destruct (IH Ds) as (xs & E); [intros; apply H; cbn; auto |].
    destruct (H l (or_introl eq_refl) M D) as (x & ->).
    exists (x :: xs). cbn. now rewrite E.
Qed.

Lemma p_script : forall l, derives (Node python_script l) -> exists e, Node python_script l = t_script e.
Proof.
  intros l H. start H. split_forall.
  match goal with H : derives (Node python_expression _) |- _ => rename H into P end.
  start P.
  destruct (lists_of _ (fun p => [t_piece p]) ls F ltac:(assumption)) as (xs & E).
  { intros l _ M _. inv_matches; [exists (Other s) | exists Paren | exists (NestedOther s) | exists NestedParen
                                | exists NestedClose]; reflexivity. }
  exists xs. unfold t_script. rewrite E. rewrite flat_map_concat_map.
  clear. repeat f_equal. induction xs; cbn; congruence.
Qed.

Lemma p_var : forall l, derives (Node var_ref l) -> exists x, Node var_ref l = t_var x.
Proof. intros l H. start H. exists s. reflexivity. Qed.

Lemma p_number : forall l, derives (Node numerical_scalar l) -> exists n, Node numerical_scalar l = t_number n.
Proof.
  intros l H. start H.
  - exists (NInt s). reflexivity.
  - exists (NFloat s). reflexivity.
  - split_forall. destruct (p_script _ H1) as (e & E). rewrite E. exists (NScript e). reflexivity.
  - split_forall. destruct (p_var _ H1) as (e & E). rewrite E. exists (NVar e). reflexivity.
Qed.

Ltac sub lem :=
  match goal with
  | H : derives (Node _ _) |- _ =>
      let n := fresh "n" in let E := fresh "E" in
      apply lem in H; destruct H as (n & E); rewrite E; clear E
  end.

Lemma p_limit : forall l, matches (alts [T INTEGER; R var_ref; R python_script]) l -> Forall derives l ->
  exists n, l = [t_limit n].
Proof.
  intros l H D. cbn in H. inv_matches; split_forall.
  - exists (LInt s). reflexivity.
  - sub p_var. exists (LVar n). reflexivity.
  - sub p_script. exists (LScript n). reflexivity.
Qed.

Lemma p_sc : forall l, derives (Node scalar l) -> exists n, Node scalar l = t_sc n.
Proof.
  intros l H. start H; split_forall.
  - exists (SString s). reflexivity.
  - sub p_number. exists (SNumber n). reflexivity.
Qed.

Lemma p_sc2 : forall l, derives (Node scalar2 l) -> exists n, Node scalar2 l = t_pair n.
Proof.
  intros l H. start H; split_forall. sub p_sc. sub p_sc. eexists (_, _). reflexivity.
Qed.

Lemma p_sc3 : forall l, derives (Node scalar3 l) -> exists a b c, Node scalar3 l = t_sc3 a b c.
Proof.
  intros l H. start H; split_forall. sub p_sc2. sub p_sc. destruct n as [a b]. exists a, b, n0. reflexivity.
Qed.

Lemma p_param : forall l, derives (Node parameter l) -> exists n, Node parameter l = t_param n.
Proof.
  intros l H. start H; split_forall;
    [exists (PName s) | exists (PString s) | exists (PInt s) | exists (PFloat s)]; reflexivity.
Qed.

(** Size of a tree. *)
Fixpoint size (t : tree) : nat :=
  match t with Leaf _ _ => 1 | Node _ l => S (fold_right (fun t n => size t + n) 0 l) end.

Lemma size_pos : forall t, 1 <= size t.
Proof. destruct t; cbn; lia. Qed.

Lemma size_in : forall t l, In t l -> size t <= fold_right (fun t n => size t + n) 0 l.
Proof.
  induction l as [| a l IH]; cbn; [tauto |]. intros [-> | I]; [lia | apply IH in I; lia].
Qed.

Lemma p_params : forall n l, size (Node parameters l) <= n -> derives (Node parameters l) ->
  exists p, Node parameters l = t_params p.
Proof.
  induction n as [| n IH]; [intros l S; pose proof (size_pos (Node parameters l)); lia |].
  intros l S H.
  assert (entry : forall m, In (Node dictionary_entry m) l \/
      (exists c, In (Node parameter_dictionary c) l /\ In (Node dictionary_entry m) c) ->
      derives (Node dictionary_entry m) ->
      exists k p, Node dictionary_entry m = Node dictionary_entry [t_dkey k; kw COLON; t_params p]).
  { intros m I D.
    assert (Sm : size (Node dictionary_entry m) <= n).
    { destruct I as [I | (c & I & J)].
      - apply size_in in I. cbn in S. cbn. cbn in I. lia.
      - apply size_in in I, J. cbn in S, I, J. cbn. lia. }
    start D; split_forall.
    - destruct (IH c) as (p & E); [cbn in Sm; cbn; lia | auto |]. rewrite E. exists (DName s), p. reflexivity.
    - destruct (IH c) as (p & E); [cbn in Sm; cbn; lia | auto |]. rewrite E. exists (DString s), p. reflexivity. }
  start H; split_forall.
  - sub p_param. exists (POne n0). reflexivity.
  - clear entry. rename H1 into P. start P.
    split_forall.
    sub p_param.
    destruct (lists_of _ (fun p => [kw COMMA; t_param p]) ls F ltac:(assumption)) as (xs & E).
    { intros l _ M D. cbn in M. inv_matches; split_forall. cbn [app] in *. split_forall. sub p_param.
      exists n1. reflexivity. }
    rewrite E. exists (PArray n0 xs). reflexivity.
  - rename H1 into P. start P.
    split_forall.
    destruct (entry c) as (k & p & E0); [right; eexists; split; [left; reflexivity | cbn; auto] | auto |].
    rewrite E0.
    destruct (lists_of (seq [T COMMA; R dictionary_entry])
                (fun e => [kw COMMA; Node dictionary_entry [t_dkey (fst e); kw COLON; t_params (snd e)]]) ls F
                ltac:(assumption)) as (xs & E).
    { intros m I M D. cbn in M. inv_matches. cbn [app] in *. split_forall.
      destruct (entry c0) as (k' & p' & E1); [| assumption |].
      - right. eexists. split; [left; reflexivity |].
        right. right. apply in_or_app. left. apply in_concat. eexists. split; [exact I | cbn; auto].
      - rewrite E1. exists (k', p'). reflexivity. }
    rewrite E. exists (PDict k p xs). reflexivity.
Qed.

Lemma p_setting : forall l, matches (alts [R python_script; R var_ref; R parameters]) l -> Forall derives l ->
  exists v, l = [match v with SetScript e => t_script e | SetVar x => t_var x | SetParams p => t_params p end].
Proof.
  intros l H D. cbn in H. inv_matches; split_forall.
  - sub p_script. exists (SetScript n). reflexivity.
  - sub p_var. exists (SetVar n). reflexivity.
  - destruct (p_params _ c (le_n _) ltac:(assumption)) as (p & E). rewrite E. exists (SetParams p). reflexivity.
Qed.

Lemma p_mu : forall l, derives (Node mu_option l) -> exists m, Node mu_option l = t_mu_option m.
Proof.
  intros l H. start H; [exists MuMeanLn | exists MuMedian | exists MuMean]; reflexivity.
Qed.

Lemma p_sd : forall l, derives (Node sd_option l) -> exists m, Node sd_option l = t_sd_option m.
Proof. intros l H. start H; [exists SdLn | exists SdX]; reflexivity. Qed.

Lemma p_opts : forall l, derives (Node lognormal_options l) -> exists o, Node lognormal_options l = t_opts o.
Proof.
  intros l H. start H; split_forall.
  all: repeat sub p_sd; repeat sub p_mu.
  all: first [exists (MuSd None None); reflexivity | exists (MuSd None (Some n)); reflexivity
             | exists (MuSd (Some n) None); reflexivity | exists (MuSd (Some n0) (Some n)); reflexivity
             | exists (SdMu n n0); reflexivity].
Qed.

Lemma p_fref : forall l, derives (Node function_ref l) -> exists f, Node function_ref l = t_fref f.
Proof.
  intros l H. start H; split_forall.
  - exists (FName s). reflexivity.
  - sub p_var. exists (FVar n). reflexivity.
Qed.

Lemma p_file : forall l, derives (Node file_spec l) -> exists f, Node file_spec l = t_file f.
Proof. intros l H. start H; split_forall; [exists (FileName s) | exists (FileId s)]; reflexivity. Qed.

Lemma p_key : forall l, derives (Node db_key l) -> exists f, Node db_key l = t_key f.
Proof. intros l H. start H; split_forall. exists s; reflexivity. Qed.

Lemma p_db : forall l, derives (Node fragfn_db_params l) -> exists d, Node fragfn_db_params l = t_db d.
Proof.
  intros l H. start H; split_forall.
  - sub p_key. exists (DbFirst None n). reflexivity.
  - sub p_key. sub p_file. exists (DbFirst (Some n0) n). reflexivity.
  - sub p_key. sub p_file. exists (DbLast n n0). reflexivity.
Qed.

Lemma p_popts : forall l, derives (Node print_options l) -> exists o, Node print_options l = t_popts o.
Proof.
  intros l H. start H; split_forall; sub p_file;
    [exists (POpts n None) | exists (POpts n (Some Append)) | exists (POpts n (Some New))]; reflexivity.
Qed.

Lemma comma_lists : forall {A} (a : rhs) (f : A -> list tree) ls,
  Forall (matches (Seq (T COMMA) a)) ls -> Forall derives (concat ls) ->
  (forall l, matches a l -> Forall derives l -> exists x, l = f x) ->
  exists xs, concat ls = comma_list f xs.
Proof.
  intros A a f ls F D H. unfold comma_list.
  apply (lists_of (Seq (T COMMA) a)); auto.
  intros l _ M Dl. inv_matches. cbn [app] in *. split_forall.
  destruct (H _ H1 H4) as (x & ->). exists x. reflexivity.
Qed.

Lemma p_place : forall l, derives (Node recorder_at l) -> exists p, Node recorder_at l = t_place p.
Proof.
  intros l H. start H; split_forall.
  - rename H1 into P. start P. split_forall.
    destruct (comma_lists _ (fun x => [Leaf FLOAT_VAL x]) ls F ltac:(assumption)) as (xs & E).
    { intros l M _. inv_matches. eexists. reflexivity. }
    rewrite E. exists (AtList s xs). reflexivity.
  - exists (AtStep s s0 s1). reflexivity.
  - sub p_script. exists (AtScript n). reflexivity.
  - sub p_var. exists (AtVar n). reflexivity.
  - rename H1 into P. start P;
    [exists (AtCount s s0 true s1) | exists (AtCount s s0 false s1)]; reflexivity.
Qed.

Lemma p_col : forall l, derives (Node col_spec l) -> exists p, Node col_spec l = t_col p.
Proof.
  intros l H. start H; split_forall.
  - start H1; [exists (CMu MuMeanLn) | exists (CMu MuMedian) | exists (CMu MuMean)]; reflexivity.
  - start H1; [exists (CSd SdLn) | exists (CSd SdX)]; reflexivity.
  - sub p_sc. exists (CScalar n). reflexivity.
Qed.

Lemma p_cols : forall l, derives (Node recorder_cols l) -> exists p, Node recorder_cols l = t_cols p.
Proof.
  intros l H. start H; split_forall. sub p_col.
  destruct (comma_lists _ (fun c => [t_col c]) ls F ltac:(assumption)) as (xs & E).
  { intros l M D. inv_matches. split_forall. sub p_col. eexists. reflexivity. }
  rewrite E. exists (n, xs). reflexivity.
Qed.

Lemma p_rtype : forall l, derives (Node recorder_type l) -> exists t, Node recorder_type l = Node recorder_type [kw (k_rtype t)].
Proof.
  intros l H. start H;
  [exists RtDetfn | exists RtProbfn | exists RtImrate | exists RtEdpim | exists RtEdprate | exists RtDsedp
  | exists RtDsim | exists RtLossds | exists RtCostedp | exists RtCostim | exists RtDelayim | exists RtDelayedp];
  reflexivity.
Qed.

Lemma p_by : forall l, derives (Node structcost_type l) -> exists b, Node structcost_type l =
  Node structcost_type [kw (match b with ByFate => BY_FATE_FLAG | ByEdp => BY_EDP_FLAG
                                         | ByFrag => BY_FRAG_FLAG end)].
Proof. intros l H. start H; [exists ByFate | exists ByEdp | exists ByFrag]; reflexivity. Qed.

Lemma p_opt_cols : forall l, matches (Opt (R recorder_cols)) l -> Forall derives l -> exists c, l = opt t_cols c.
Proof.
  intros l H D. inv_matches; split_forall.
  - exists None. reflexivity.
  - sub p_cols. exists (Some n). reflexivity.
Qed.

Lemma p_opt_popts : forall l, matches (Opt (R print_options)) l -> Forall derives l -> exists c, l = opt t_popts c.
Proof.
  intros l H D. inv_matches; split_forall.
  - exists None. reflexivity.
  - sub p_popts. exists (Some n). reflexivity.
Qed.

Definition rec_rhs : rhs :=
  alts [seq [R recorder_type; T ID; R recorder_at; Opt (R recorder_cols)];
        seq [Alt (T DSRATE) (T COLLRATE); T ID];
        seq [alts (map T [COSTRATE; COLLAPSE; DEAGG; TOTALCOST]); T ID; R recorder_at];
        seq [T PDF; T ID; R recorder_at; Opt (T NORMALISE_FLAG)];
        seq [T STRUCTCOST; T ID;
             Alt (seq [T NPV_FLAG; T INTEGER; T COLON; T INTEGER; T COLON; T INTEGER; T FLOAT_VAL])
                 (Seq (Alt (seq [R structcost_type; R recorder_at])
                           (seq [T ANNUAL_FLAG; R lognormal_options]))
                      (Opt (R recorder_cols)))]].

Lemma p_rec : forall l, matches rec_rhs l -> Forall derives l -> exists r, l = t_rec r.
Proof.
  intros l H D. unfold rec_rhs in H. cbn [seq alts map] in H.
  inv_matches; cbn [app] in *; split_forall; repeat sub p_rtype; repeat sub p_place; repeat sub p_cols;
    repeat sub p_by; repeat sub p_opts.
  all: first
    [ eexists (RecType _ _ _ None); reflexivity | eexists (RecType _ _ _ (Some _)); reflexivity
    | eexists (RecRate RrDsrate _); reflexivity | eexists (RecRate RrCollrate _); reflexivity
    | eexists (RecAt RaCostrate _ _); reflexivity | eexists (RecAt RaCollapse _ _); reflexivity
    | eexists (RecAt RaDeagg _ _); reflexivity | eexists (RecAt RaTotalcost _ _); reflexivity
    | eexists (RecPdf _ _ false); reflexivity | eexists (RecPdf _ _ true); reflexivity
    | eexists (RecNpv _ _ _ _ _); reflexivity
    | eexists (RecBy _ _ _ None); reflexivity | eexists (RecBy _ _ _ (Some _)); reflexivity
    | eexists (RecAnnual _ _ None); reflexivity | eexists (RecAnnual _ _ (Some _)); reflexivity ].
Qed.

Lemma p_pairs : forall ls, Forall (matches (seq [T COMMA; T LBRACKET; R scalar2; T RBRACKET])) ls ->
  Forall derives (concat ls) -> exists ps, concat ls = comma_list bracketed ps.
Proof.
  intros ls F D. apply (comma_lists (seq [T LBRACKET; R scalar2; T RBRACKET])); auto.
  intros l M Dl. cbn [seq] in M. inv_matches. cbn [app] in *. split_forall. sub p_sc2. eexists. reflexivity.
Qed.

Lemma p_shape : forall l,
  matches (alts (map R [hyperbolic_args; powerlaw_args; loglog_args; linear_args])) l -> Forall derives l ->
  exists s, l = [t_shape s].
Proof.
  intros l H D. cbn in H. inv_matches; split_forall.
  - start H1. split_forall.
    match goal with H : derives (Node scalar3 _) |- _ => apply p_sc3 in H; destruct H as (a & b & d & E) end.
    rewrite E. exists (Hyperbolic a b d). reflexivity.
  - start H1. split_forall. sub p_sc2. destruct n as [a b]. exists (Powerlaw a b). reflexivity.
  - start H1. split_forall. sub p_sc2.
    destruct (p_pairs ls F ltac:(assumption)) as (ps & E). rewrite E. exists (Loglog n ps). reflexivity.
  - start H1. split_forall. sub p_sc2.
    destruct (p_pairs ls F ltac:(assumption)) as (ps & E). rewrite E. exists (Linear n ps). reflexivity.
Qed.

Lemma p_sequence : forall l, derives (Node scalar2_sequence l) -> exists p, Node scalar2_sequence l =
  Node scalar2_sequence (t_pairs (fst p) (snd p)).
Proof.
  intros l H. start H. split_forall. sub p_sc2.
  destruct (p_pairs ls F ltac:(assumption)) as (ps & E). rewrite E. exists (n, ps). reflexivity.
Qed.

Lemma p_spec5 : forall l, derives (Node bilevel_spec l) -> exists p, Node bilevel_spec l = t_spec5 p.
Proof.
  intros l H. start H. split_forall. do 5 sub p_number. eexists (_, _, _, _, _). reflexivity.
Qed.

Lemma p_printed : forall l, matches (alts (map R [print_message; print_function; print_title])) l ->
  Forall derives l -> exists p, l = [t_printed p].
Proof.
  intros l H D. cbn in H. inv_matches; split_forall.
  - start H1; split_forall.
    + exists (PrMessage MsgNone). reflexivity.
    + exists (PrMessage (MsgString s)). reflexivity.
    + sub p_script. exists (PrMessage (MsgScript n)). reflexivity.
    + sub p_var. exists (PrMessage (MsgVar n)). reflexivity.
  - start H1;
      [exists (PrFunction RegDetfn s) | exists (PrFunction RegProbfn s) | exists (PrFunction RegIm s)
      | exists (PrFunction RegEdp s) | exists (PrFunction RegFragfn s) | exists (PrFunction RegLossfn s)
      | exists (PrFunction RegCompgroup s)]; reflexivity.
  - start H1. exists PrTitle. reflexivity.
Qed.

Lemma p_search : forall l, derives (Node integration_search_option l) ->
  exists s, Node integration_search_option l = t_search s.
Proof.
  intros l H. apply derives_inv in H. destruct H as [H D].
  cbn [grammar seq map] in H. apply inv_seq in H. destruct H as (x & y & -> & A & B).
  apply Forall_app in D. destruct D as [_ D].
  destruct (p_limit y B D) as (n & ->). cbn in A. inv_matches;
  [exists (Binary, n) | exists (Revbin, n) | exists (Lowrev, n) | exists (Scattered, n) | exists (Directed, n)];
  reflexivity.
Qed.

Lemma p_dist : forall l, derives (Node lognormal_dist l) -> exists d, Node lognormal_dist l =
  t_dist (fst (fst d)) (snd (fst d)) (snd d).
Proof.
  intros l H. start H. split_forall. sub p_sc2. sub p_opts. exists (n, n0). reflexivity.
Qed.

Lemma p_recorder : forall l, derives (Node recorder_command l) -> exists id r o, Node recorder_command l =
  t_body (Recorder id r o).
Proof.
  intros l H. apply derives_inv in H. destruct H as [H D].
  change (matches (Seq (T RECORDER) (Seq (R recorder_id) (Seq rec_rhs (Opt (R print_options))))) l) in H.
  apply inv_seq in H. destruct H as (x & y & -> & A & H).
  apply inv_seq in H. destruct H as (x1 & y1 & -> & B & H).
  apply inv_seq in H. destruct H as (x2 & y2 & -> & C & H).
  split_forall.
  apply p_rec in C; auto. destruct C as (r & ->).
  apply p_opt_popts in H; auto. destruct H as (o & ->).
  inv_matches. split_forall.
  match goal with H : derives (Node recorder_id _) |- _ => rename H into P end.
  start P. exists s, r, o. reflexivity.
Qed.


Lemma p_body : forall r l, matches (alts (map R [title_command; detfn_command; probfn_command; im_command;
      edp_command; fragfn_command; lossfn_command; compgroup_command; print_command;
      integration_command; recorder_command; analyze_command; set_command; importprobfn_command;
      collapse_command; demolition_command; structure_command; importimfn_command;
      rebuildcost_command; demolitioncost_command; log_command; intstats_command;
      inputdir_command; outputdir_command])) [Node r l] -> derives (Node r l) ->
  exists c, Node r l = t_body c.
Proof.
  intros r l H D. cbn [alts map] in H.
  repeat (apply inv_alt in H; destruct H as [H | H]);
    apply inv_rule in H; destruct H as (c & E); injection E as -> <-.
  - start D. eexists (Title _). reflexivity.
  - apply derives_inv in D. destruct D as [H D].
    change (matches (Seq (T DETFN) (Seq (T ID) (alts (map R [hyperbolic_args; powerlaw_args; loglog_args;
      linear_args])))) l) in H.
    apply inv_seq in H. destruct H as (x & y & -> & A & H).
    apply inv_seq in H. destruct H as (x1 & y1 & -> & B & H). split_forall.
    apply p_shape in H; auto. destruct H as (s & ->). inv_matches. eexists (Detfn _ _). reflexivity.
  - start D. split_forall. do 2 sub p_fref. sub p_opts. eexists (Probfn _ _ _ _). reflexivity.
  - start D. eexists (Im _ _). reflexivity.
  - start D. eexists (Edp _ _ _). reflexivity.
  - start D; split_forall.
    + sub p_db. eexists (FragDb _ _). reflexivity.
    + match goal with H : derives (Node _ _) |- _ => start H end.
      split_forall. sub p_sequence. sub p_opts. eexists (FragUser _ _ _ _). reflexivity.
  - start D; split_forall.
    + match goal with H : derives (Node _ _) |- _ => start H end.
      split_forall. sub p_sequence. sub p_opts. eexists (LossSimple _ _ _ _). reflexivity.
    + match goal with H : derives (Node _ _) |- _ => start H end. split_forall.
      match goal with H : derives (Node bilevel_spec_sequence _) |- _ => rename H into P end.
      start P. split_forall. sub p_spec5.
      destruct (comma_lists _ (fun p => [t_spec5 p]) ls F ltac:(assumption)) as (xs & E).
      { intros l M Dl. inv_matches. split_forall. sub p_spec5. eexists. reflexivity. }
      rewrite E. eexists (LossBilevel _ _ _). reflexivity.
  - start D; split_forall;
      repeat match goal with H : derives (Node _ _) |- _ => start H end.
    all: first [ eexists (Compgroup _ _ _ _ None _ None None); reflexivity
               | eexists (Compgroup _ _ _ _ None _ None (Some _)); reflexivity
               | eexists (Compgroup _ _ _ _ None _ (Some _) None); reflexivity
               | eexists (Compgroup _ _ _ _ None _ (Some _) (Some _)); reflexivity
               | eexists (Compgroup _ _ _ _ (Some _) _ None None); reflexivity
               | eexists (Compgroup _ _ _ _ (Some _) _ None (Some _)); reflexivity
               | eexists (Compgroup _ _ _ _ (Some _) _ (Some _) None); reflexivity
               | eexists (Compgroup _ _ _ _ (Some _) _ (Some _) (Some _)); reflexivity ].
  - apply derives_inv in D. destruct D as [H D].
    change (matches (Seq (alts (map R [print_message; print_function; print_title]))
                         (Opt (R print_options))) l) in H.
    apply inv_seq in H. destruct H as (x & y & -> & A & H). split_forall.
    apply p_printed in A; auto. destruct A as (p & ->).
    apply p_opt_popts in H; auto. destruct H as (o & ->). eexists (Print _ _). reflexivity.
  - apply derives_inv in D. destruct D as [H D].
    change (matches (Seq (T INTEGRATION) (Seq (R integration_method) (Seq (R numerical_scalar)
      (Seq (alts [T INTEGER; R var_ref; R python_script]) (Opt (R integration_search_option)))))) l) in H.
    apply inv_seq in H. destruct H as (x & y & -> & A & H).
    apply inv_seq in H. destruct H as (x1 & y1 & -> & B & H).
    apply inv_seq in H. destruct H as (x2 & y2 & -> & C & H).
    apply inv_seq in H. destruct H as (x3 & y3 & -> & I & H). split_forall.
    apply p_limit in I; auto. destruct I as (i & ->).
    inv_matches; split_forall; sub p_number;
      match goal with H : derives (Node integration_method _) |- _ => start H end.
    + eexists (Integration _ _ None). reflexivity.
    + sub p_search. eexists (Integration _ _ (Some _)). reflexivity.
  - destruct (p_recorder l D) as (id & r & o & ->). eexists. reflexivity.
  - start D. exists Analyze. reflexivity.
  - apply derives_inv in D. destruct D as [H D].
    change (matches (Seq (T SET) (Seq (T ID) (alts [R python_script; R var_ref; R parameters]))) l) in H.
    apply inv_seq in H. destruct H as (x & y & -> & A & H).
    apply inv_seq in H. destruct H as (x1 & y1 & -> & B & H). split_forall.
    apply p_setting in H; auto. destruct H as (v & ->). inv_matches. eexists (Set_ _ _). reflexivity.
  - start D. split_forall. sub p_file. eexists (ImportProbfn _ _). reflexivity.
  - start D. split_forall. sub p_dist. eexists (Collapse _ _ _ _). reflexivity.
  - start D. split_forall. sub p_dist. eexists (Demolition _ _ _ _). reflexivity.
  - start D. split_forall.
    match goal with H : derives (Node id_list _) |- _ => rename H into P end.
    start P. split_forall.
    destruct (comma_lists _ (fun g => [Leaf ID g]) ls F ltac:(assumption)) as (xs & E).
    { intros l M Dl. inv_matches. eexists. reflexivity. }
    rewrite E. eexists (Structure _ _ _). reflexivity.
  - start D. split_forall. sub p_file. eexists (ImportIm _ _). reflexivity.
  - start D. split_forall. sub p_dist. eexists (Rebuildcost _ _ _ _). reflexivity.
  - start D. split_forall. sub p_dist. eexists (Demolitioncost _ _ _ _). reflexivity.
  - start D; split_forall; repeat sub p_file.
    all: first [ eexists (Log None None); reflexivity | eexists (Log None (Some _)); reflexivity
               | eexists (Log (Some true) None); reflexivity | eexists (Log (Some true) (Some _)); reflexivity
               | eexists (Log (Some false) None); reflexivity | eexists (Log (Some false) (Some _)); reflexivity ].
  - start D; [exists (Intstats true) | exists (Intstats false)]; reflexivity.
  - start D. split_forall. sub p_file. eexists (Inputdir _). reflexivity.
  - start D. split_forall. sub p_file. eexists (Outputdir _). reflexivity.
Qed.

Lemma p_cmd : forall l, derives (Node command l) -> exists c, Node command l = t_cmd c.
Proof.
  intros l H. apply derives_inv in H. destruct H as [H D].
  apply inv_seq in H. destruct H as (x & y & -> & A & B). split_forall.
  assert (exists r m, x = [Node r m]) as (r & m & ->).
  { clear - A. cbn [alts map] in A.
    repeat (apply inv_alt in A; destruct A as [A | A]); apply inv_rule in A; destruct A as (c & ->); eauto. }
  split_forall. apply p_body in A; auto. destruct A as (c & ->).
  inv_matches. exists c. reflexivity.
Qed.

Lemma parsed : forall l, derives (Node script l) -> exists is, Node script l = t_items is.
Proof.
  intros l H. apply derives_inv in H. destruct H as [H D]. cbn [grammar] in H.
  apply inv_star in H. destruct H as (ls & -> & F).
  destruct (lists_of _ (fun i => [match i with Space s => Leaf WS s | Command c => t_cmd c end]) ls F D)
    as (is & E).
  { intros l _ M Dl. inv_matches; split_forall.
    - exists (Space s). reflexivity.
    - sub p_cmd. exists (Command n). reflexivity. }
  rewrite E. exists is. unfold t_items. f_equal.
Qed.
