(** * The interpreter does what sound commands spell out: recorders, commands, scripts *)
From Coq Require Import ZArith Bool Ascii String List Lia.
From Verif Require Import Interp Interp_spec Interp_proofs Interp_proofs2 Interp_proofs3.
Import ListNotations.
Open Scope string_scope.
Open Scope list_scope.

Arguments Interp.walk : simpl never.
Arguments Interp.api : simpl never.
Arguments Interp_spec.call : simpl never.
Arguments texts : simpl never.
Arguments preprocess_string : simpl never.
Arguments int_of : simpl never.
Arguments strip_quotes : simpl never.
Arguments walks : simpl never.
Arguments Interp_spec.sc_value : simpl never.
Arguments Interp_spec.number_value : simpl never.
Arguments Interp_spec.pair_value : simpl never.
Arguments Interp_spec.run_script : simpl never.
Arguments Interp_spec.variable : simpl never.
Arguments Interp_spec.place_value : simpl never.
Arguments Interp_spec.cols_value : simpl never.
Arguments Interp_spec.all_of : simpl never.
Arguments py_range : simpl never.
Arguments for_each : simpl never.
Arguments t_pairs : simpl never.
Arguments comma_list : simpl never.
Arguments years : simpl never.

Lemma matches_lexemes : forall r l, matches r l ->
  Forall (fun t => match t with Leaf k s => lexeme k s = true | Node _ _ => True end) l.
Proof.
  induction 1; auto.
  - now apply Forall_app.
  - now apply Forall_app.
Qed.

Lemma derives_lexeme : forall r l k s, derives (Node r l) -> In (Leaf k s) l -> lexeme k s = true.
Proof.
  intros r l k s D I. apply derives_inv in D. destruct D as [D _]. apply matches_lexemes in D.
  rewrite Forall_forall in D. exact (D _ I).
Qed.

Section Simulation.
Variable world : Type.
Variable ask : string -> list value -> world -> (value + exn) * world.
Notation core := (core world).
Notation St := (St world).
Notation Ok := (Ok world _).
Notation Raise := (Raise world _).
Notation walk := (walk world ask).
Notation walks := (walks world ask).
Notation call := (call world ask).
Notation meaning := (meaning world ask).
Notation does := (does world ask).

Ltac binds := unfold Interp.bind, Interp.ret, Interp.the, andthen, pure, Interp.raise, failing.
Ltac split_e :=
  unfold decimal, literal;
  match goal with
  | |- context [match ?e ?b with Returned _ _ => _ | Raised _ _ => _ end] =>
      match e with
      | context [match _ with Returned _ _ => _ | Raised _ _ => _ end] => fail 1
      | _ => destruct (e b); [| reflexivity]
      end
  end.
Lemma cols_none : forall b, cols_value world ask None b = Returned VNone b.
Proof. reflexivity. Qed.

Ltac go1 := first
  [ rewrite cols_none | rewrite walks_cons | rewrite walks_nil | rewrite walk_kw | rewrite walk_leaf | rewrite api_call
  | rewrite walk_script | rewrite walk_var | rewrite walk_number | rewrite walk_sc2 | rewrite walk_sc
  | rewrite walk_opts | rewrite walk_file | rewrite walk_popts
  | rewrite walk_place | rewrite walk_cols | split_e ].
Ltac go := repeat (go1; cbn).
Ltac body := unfold t_body; rewrite walk_node; cbn.
Ltac start := body; rewrite walks_cons, walk_kw, walks_cons, walk_leaf_node by reflexivity; cbn;
  unfold make_recorder, do; binds.
Ltac finish := unfold exit_recorder; binds; cbn; rewrite ?texts_leaf; cbn; binds; go; reflexivity.

Lemma does_rec_type : forall id t n p c o,
  does (t_body (Recorder id (RecType t n p c) o)) (meaning (Recorder id (RecType t n p c) o)).
Proof.
  intros id t n p c o b stk stks. start.
  rewrite walks_cons. unfold kw. rewrite walk_leaf_node by reflexivity. go.
  destruct c as [c |], o as [o |]; cbn [opt app]; go; try destruct o as [f m];
    destruct t; finish.
Qed.

Lemma does_rec_rate : forall id t n o,
  does (t_body (Recorder id (RecRate t n) o)) (meaning (Recorder id (RecRate t n) o)).
Proof.
  intros id t n o b stk stks. start. destruct o as [o |]; cbn [opt app]; go; try destruct o as [f m]; destruct t; finish.
Qed.

Lemma does_rec_at : forall id t n p o,
  does (t_body (Recorder id (RecAt t n p) o)) (meaning (Recorder id (RecAt t n p) o)).
Proof.
  intros id t n p o b stk stks. start. go. destruct o as [o |]; cbn [opt app]; go; try destruct o as [f m]; destruct t; finish.
Qed.

Lemma does_rec_pdf : forall id n p q o,
  does (t_body (Recorder id (RecPdf n p q) o)) (meaning (Recorder id (RecPdf n p q) o)).
Proof.
  intros id n p q o b stk stks. start. go.
  destruct q, o as [o |]; cbn [opt app]; go; try destruct o as [f m]; finish.
Qed.

Lemma range_years : forall first step last s, (0 < step)%Z ->
  py_range world first last step s = Ok (years first step last) s.
Proof.
  intros first step last s P. unfold py_range.
  rewrite (proj2 (Z.eqb_neq step 0)) by lia. rewrite (proj2 (Z.ltb_lt 0 step)) by lia.
  unfold Interp.ret. now rewrite years_range.
Qed.

Lemma does_rec_npv : forall id n x y z r o, derives (t_body (Recorder id (RecNpv n x y z r) o)) ->
  does (t_body (Recorder id (RecNpv n x y z r) o)) (meaning (Recorder id (RecNpv n x y z r) o)).
Proof.
  intros id n x y z r o D b stk stks.
  assert (P : (0 <= int_of y)%Z).
  { apply lexeme_integer. apply (derives_lexeme _ _ _ _ D). cbn. auto 12. }
  start. go. unfold decimal.
  destruct (Z.eqb_spec (int_of y) 0) as [Z | Z].
  - destruct o as [o |]; cbn [opt app]; go; try destruct o as [f m];
      unfold exit_recorder; binds; cbn; rewrite ?texts_leaf; cbn; binds;
      unfold py_range; rewrite (proj2 (Z.eqb_eq _ _) Z); reflexivity.
  - destruct o as [o |]; cbn [opt app]; go; try destruct o as [f m];
      unfold exit_recorder; binds; cbn; rewrite ?texts_leaf; cbn; binds;
      rewrite range_years by lia; cbn; go; reflexivity.
Qed.

Lemma does_rec_by : forall id n d p c o,
  does (t_body (Recorder id (RecBy n d p c) o)) (meaning (Recorder id (RecBy n d p c) o)).
Proof.
  intros id n d p c o b stk stks. start. go. unfold kw. rewrite walk_leaf_node by reflexivity. go.
  destruct c as [c |], o as [o |]; cbn [opt app]; go; try destruct o as [f m];
    destruct d; finish.
Qed.

Lemma does_rec_annual : forall id n q c o, sound_cmd (Recorder id (RecAnnual n q c) o) = true ->
  does (t_body (Recorder id (RecAnnual n q c) o)) (meaning (Recorder id (RecAnnual n q c) o)).
Proof.
  intros id n q c o S b stk stks. start. go.
  destruct c as [c |]; [cbn in S; destruct (opts_mu q), (opts_sd q); discriminate |].
  destruct o as [o |]; cbn [opt app]; go; try destruct o as [f m];
  destruct q as [[[] |] [[] |] | [] []]; try discriminate; finish.
Qed.

Lemma does_body : forall c, sound_cmd c = true -> derives (t_body c) -> does (t_body c) (meaning c).
Proof.
  assert (F : forall r k id f, derives (Node r [kw k; Leaf ID id; t_file f]) -> derives (t_file f))
    by (intros r k id f D; apply (derives_child _ _ _ D); cbn; auto).
  assert (G : forall r k f, derives (Node r [kw k; t_file f]) -> derives (t_file f))
    by (intros r k f D; apply (derives_child _ _ _ D); cbn; auto).
  intros c S D. destruct c.
  - apply does_title.
  - destruct s; try discriminate; [apply does_hyperbolic | apply does_powerlaw].
  - destruct f; [| discriminate]. destruct g; [| discriminate]. apply does_probfn.
  - apply does_im.
  - apply does_edp.
  - now apply does_frag_db.
  - apply does_frag_user.
  - apply does_loss_simple.
  - apply does_loss_bilevel.
  - apply does_compgroup.
  - apply does_print.
  - destruct iterations; try discriminate. apply does_integration.
  - destruct r.
    + apply does_rec_type.
    + apply does_rec_rate.
    + apply does_rec_at.
    + apply does_rec_pdf.
    + now apply does_rec_npv.
    + apply does_rec_by.
    + now apply does_rec_annual.
  - apply does_analyze.
  - now apply does_set.
  - apply does_import; eauto; try reflexivity; discriminate.
  - apply does_im_dist; try reflexivity; discriminate.
  - apply does_im_dist; try reflexivity; discriminate.
  - apply does_structure.
  - apply does_import; eauto; try reflexivity; discriminate.
  - apply does_structure_dist; try reflexivity; discriminate.
  - apply does_structure_dist; try reflexivity; discriminate.
  - apply does_log.
  - apply does_intstats.
  - apply does_dir; eauto; reflexivity.
  - apply does_dir; eauto; reflexivity.
Qed.

Lemma does_cmd : forall c, sound_cmd c = true -> derives (t_cmd c) ->
  forall b stk, walk (t_cmd c) (St b stk []) =
  match meaning c b with Returned _ b' => Ok tt (St b' [] []) | Raised x b' => Raise x b' end.
Proof.
  intros c S D b stk. unfold t_cmd. rewrite walk_node. cbn.
  rewrite walks_cons. rewrite (does_body c S) by (apply (derives_child _ _ _ D); cbn; auto).
  destruct (meaning c b); reflexivity.
Qed.

Definition t_item (i : item) : tree := match i with Space s => Leaf WS s | Command c => t_cmd c end.
Definition item_meaning (i : item) : E world unit :=
  match i with Space _ => pure world tt | Command c => meaning c end.

Lemma does_items : forall l, Forall (fun i => sound_item i = true) l -> Forall (fun i => derives (t_item i)) l ->
  forall b, walks (map t_item l) (St b [] []) =
  match all_of world item_meaning l b with Returned _ b' => Ok tt (St b' [] []) | Raised x b' => Raise x b' end.
Proof.
  induction 1 as [| i l S _ IH]; intros D b; [reflexivity |].
  inversion D as [| ? ? Di Dl]; subst. cbn [map]. rewrite walks_cons.
  unfold all_of; fold (@all_of world item unit). unfold andthen, pure. destruct i as [s | c]; cbn [t_item item_meaning].
  - rewrite walk_leaf. unfold pure. rewrite (IH Dl). destruct (all_of world item_meaning l b); reflexivity.
  - rewrite (does_cmd c S Di). destruct (meaning c b) as [[] b' |]; [| reflexivity].
    rewrite (IH Dl). destruct (all_of world item_meaning l b'); reflexivity.
Qed.

Lemma does_script : forall l, Forall (fun i => sound_item i = true) l -> derives (t_items l) ->
  forall w, run world ask (t_items l) w =
  match script_meaning world ask l (Core world [] [] w) with
  | Returned _ b' => Ok tt (St b' [] []) | Raised x b' => Raise x b' end.
Proof.
  intros l S D w. unfold run, t_items. rewrite walk_node. cbn [enter]. unfold Interp.ret.
  change (map _ l) with (map t_item l). rewrite does_items; auto.
  - unfold script_meaning. unfold andthen, pure.
    change (fun i => match i with Space _ => _ | Command c => meaning c end) with item_meaning.
    destruct (all_of world item_meaning l _); reflexivity.
  - apply derives_inv in D. destruct D as [_ D]. change (map _ l) with (map t_item l) in D.
    rewrite Forall_forall in D |- *. intros i I. apply D. now apply in_map.
Qed.

End Simulation.

Lemma script_done : forall world ask l, Forall (fun i => sound_item i = true) l -> derives (t_items l) ->
  forall w, as_spelt (run world ask (t_items l) w) (script_meaning world ask l (Core world [] [] w)).
Proof.
  intros world ask l S D w. unfold as_spelt. rewrite (does_script world ask l S D w).
  destruct (script_meaning world ask l (Core world [] [] w)) as [[] c |]; reflexivity.
Qed.
