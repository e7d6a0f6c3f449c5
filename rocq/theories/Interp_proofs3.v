(** * The interpreter does what sound commands spell out: commands and scripts *)
From Coq Require Import ZArith Bool Ascii String List Lia.
From Verif Require Import Interp Interp_spec Interp_proofs Interp_proofs2.
Import ListNotations.
Open Scope string_scope.
Open Scope list_scope.

Arguments Interp.walk : simpl never.
Arguments Interp.api : simpl never.
Arguments Interp_spec.call : simpl never.
Arguments texts : simpl never.
Arguments preprocess_string : simpl never.
Arguments int_of : simpl never.
Arguments strip_quotes : simpl never.
Arguments walks : simpl never.

Lemma append_assoc : forall a b c, append (append a b) c = append a (append b c).
Proof. induction a; intros; cbn; congruence. Qed.

Lemma append_empty : forall a, append a "" = a.
Proof. induction a; cbn; congruence. Qed.

Lemma title_text_spec : forall l,
  title_text l = fold_right append "" (map (String (ascii_of_nat 10)) l).
Proof.
  intros l. unfold title_text.
  assert (H : forall l a, fold_left (fun s t => append s (append (String (ascii_of_nat 10) "") t)) l a
              = append a (fold_right append "" (map (String (ascii_of_nat 10)) l))).
  { clear. induction l as [| t l IH]; intros a; cbn [fold_left map fold_right].
    - now rewrite append_empty.
    - rewrite IH, append_assoc. reflexivity. }
  rewrite H. reflexivity.
Qed.

Lemma texts_leaf : forall k s, texts [Leaf k s] = s.
Proof. intros. unfold texts. cbn. apply append_empty. Qed.

Lemma filter_map : forall {A B} (f : A -> B) p l, filter p (map f l) = map f (filter (fun x => p (f x)) l).
Proof.
  induction l as [| a l IH]; [reflexivity |]. cbn. destruct (p (f a)); cbn; now rewrite IH.
Qed.

Lemma filter_seq_step : forall step n m, (0 < step)%nat -> (m * step < n + step)%nat -> (n <= m * step)%nat ->
  forall base, filter (fun k => Nat.eqb (Nat.modulo (k - base) step) 0) (List.seq base n) =
  map (fun k => base + k * step)%nat (List.seq 0 m).
Proof.
  intros step n m P U L base.
  (* both are the increasing multiples below [n] *)
  assert (H : forall m n, (m * step < n + step)%nat -> (n <= m * step)%nat ->
     filter (fun k => Nat.eqb (Nat.modulo (k - base) step) 0) (List.seq base n) =
     map (fun k => base + k * step)%nat (List.seq 0 m)).
  { clear m n U L. induction m as [| m IH]; intros n U L.
    - assert (n = 0)%nat as -> by lia. reflexivity.
    - assert (exists d, n = m * step + S d /\ d < step)%nat as (d & -> & D).
      { exists (n - m * step - 1)%nat. cbn in U, L. lia. }
      rewrite seq_app, filter_app, IH by lia. rewrite (seq_S m 0), map_app. f_equal. cbn [map].
      cbn [List.seq filter]. replace (base + m * step - base)%nat with (m * step)%nat by lia.
      rewrite Nat.mod_mul by lia. cbn [Nat.eqb]. f_equal.
      assert (F : filter (fun k => Nat.eqb (Nat.modulo (k - base) step) 0) (List.seq (S (base + m * step)) d) = []).
      { assert (G : forall k, In k (List.seq (S (base + m * step)) d) -> Nat.eqb (Nat.modulo (k - base) step) 0 = false).
        { intros k I. apply in_seq in I. apply Nat.eqb_neq.
          replace (k - base)%nat with ((k - base - m * step) + m * step)%nat by lia.
          rewrite Nat.mod_add by lia. rewrite Nat.mod_small by lia. lia. }
        clear - G. induction (List.seq (S (base + m * step)) d) as [| a l IH]; [reflexivity |].
        cbn. rewrite (G a) by (cbn; auto). apply IH. intros. apply G. cbn. auto. }
      rewrite F. reflexivity. }
  now apply H.
Qed.

Lemma years_range : forall first step last, (0 < step)%Z ->
  map (fun k => VInt (first + Z.of_nat k * step))
      (List.seq 0 (Z.to_nat ((last - first + step - 1) / step))) = years first step last.
Proof.
  intros first step last P. unfold years. rewrite filter_map, map_map.
  assert (E : filter (fun x => Z.eqb ((first + Z.of_nat x - first) mod step) 0)
                (List.seq 0 (Z.to_nat (last - first)))
          = map (fun k => k * Z.to_nat step)%nat (List.seq 0 (Z.to_nat ((last - first + step - 1) / step)))).
  { rewrite (filter_ext _ (fun k => Nat.eqb (Nat.modulo (k - 0) (Z.to_nat step)) 0)).
    - apply (filter_seq_step (Z.to_nat step)).
      + lia.
      + destruct (Z_le_gt_dec last first).
        * replace (Z.to_nat (last - first)) with 0%nat by lia.
          enough ((last - first + step - 1) / step <= 0)%Z by nia.
          apply Z.lt_succ_r. apply Z.div_lt_upper_bound; lia.
        * pose proof (Z.mul_div_le (last - first + step - 1) step P).
          assert (0 <= (last - first + step - 1) / step)%Z by (apply Z.div_pos; lia). nia.
      + destruct (Z_le_gt_dec last first).
        * replace (Z.to_nat (last - first)) with 0%nat by lia. lia.
        * pose proof (Z.mul_succ_div_gt (last - first + step - 1) step P).
          assert (0 <= (last - first + step - 1) / step)%Z by (apply Z.div_pos; lia). nia.
    - intros k. replace (first + Z.of_nat k - first)%Z with (Z.of_nat k) by lia.
      rewrite Nat.sub_0_r. rewrite <- (Z2Nat.id step) at 1 by lia.
      rewrite <- Nat2Z.inj_mod.
      destruct (Nat.eqb_spec (k mod Z.to_nat step) 0) as [-> | N]; [reflexivity |].
      apply Z.eqb_neq. lia. }
  rewrite E, map_map. apply map_ext. intros k. f_equal. lia.
Qed.

Lemma int_of_nonneg : forall s, all_chars digit s = true -> (0 <= int_of s)%Z.
Proof.
  intros s H. unfold int_of. rewrite all_chars_forallb in H.
  assert (G : forall l n, forallb digit l = true -> (0 <= n)%Z ->
    (0 <= fold_left (fun n c => 10 * n + (Z.of_nat (nat_of_ascii c) - 48)) l n)%Z).
  { clear. induction l as [| c l IH]; intros n F P; [exact P |]. cbn in F. apply andb_prop in F.
    destruct F as [D F]. cbn [fold_left]. apply IH; auto.
    unfold digit in D. apply andb_prop in D. destruct D as [D _]. apply Nat.leb_le in D. lia. }
  apply G; auto. lia.
Qed.

Lemma lexeme_integer : forall s, lexeme INTEGER s = true -> (0 <= int_of s)%Z.
Proof. intros s H. cbn in H. apply andb_prop in H. now apply int_of_nonneg. Qed.

Section Simulation.
Variable world : Type.
Variable ask : string -> list value -> world -> (value + exn) * world.
Notation core := (core world).
Notation St := (St world).
Notation Ok := (Ok world _).
Notation Raise := (Raise world _).
Notation walk := (walk world ask).
Notation walks := (walks world ask).
Notation call := (call world ask).
Notation meaning := (meaning world ask).

Ltac binds := unfold Interp.bind, Interp.ret, Interp.the, andthen, pure, Interp.raise, failing.
Ltac split_e :=
  unfold decimal, literal;
  match goal with
  | |- context [match ?e ?b with Returned _ _ => _ | Raised _ _ => _ end] =>
      match e with
      | context [match _ with Returned _ _ => _ | Raised _ _ => _ end] => fail 1
      | _ => destruct (e b); [| reflexivity]
      end
  end.
Ltac hop :=
  first [ rewrite walks_cons | rewrite walks_nil | rewrite walk_kw | rewrite walk_leaf | rewrite api_call
        | rewrite walk_script | rewrite walk_var | rewrite walk_number | rewrite walk_sc2 | rewrite walk_sc
        | rewrite walk_pairs | rewrite walk_spec5s | rewrite walk_opts | rewrite walk_file | rewrite walk_popts
        | rewrite walk_place | rewrite walk_cols | rewrite walk_node ].

Definition does (t : tree) (e : E world unit) : Prop :=
  forall b stk stks, walk t (St b stk stks) =
  match e b with Returned _ b' => Ok tt (St b' stk stks) | Raised x b' => Raise x b' end.


Arguments Interp_spec.sc_value : simpl never.
Arguments Interp_spec.number_value : simpl never.
Arguments Interp_spec.pair_value : simpl never.
Arguments Interp_spec.run_script : simpl never.
Arguments Interp_spec.variable : simpl never.
Arguments Interp_spec.place_value : simpl never.
Arguments Interp_spec.cols_value : simpl never.
Arguments Interp_spec.all_of : simpl never.
Arguments py_range : simpl never.
Arguments for_each : simpl never.
Arguments t_pairs : simpl never.
Arguments comma_list : simpl never.

Ltac go1 := first
  [ rewrite walks_cons | rewrite walks_nil | rewrite walk_kw | rewrite walk_leaf | rewrite api_call
  | rewrite walk_script | rewrite walk_var | rewrite walk_number | rewrite walk_sc2 | rewrite walk_sc
  | rewrite walk_pairs | rewrite walk_spec5s | rewrite walk_opts | rewrite walk_file | rewrite walk_popts
  | rewrite walk_place | rewrite walk_cols | split_e ].
Ltac go := repeat (go1; cbn).
Ltac body := unfold t_body; rewrite walk_node; cbn.

Lemma does_title : forall s, does (t_body (Title s)) (meaning (Title s)).
Proof. intros s ? ? ?. reflexivity. Qed.

Lemma does_hyperbolic : forall id x y z,
  does (t_body (Detfn id (Hyperbolic x y z))) (meaning (Detfn id (Hyperbolic x y z))).
Proof.
  intros id x y z b stk stks. body.
  rewrite walks_cons, walk_kw, walks_cons, walk_leaf, walks_one. cbn [t_shape]. rewrite walk_node. cbn.
  rewrite walks_cons, walk_kw, walks_one. unfold t_sc3. rewrite walk_node. cbn. unfold pair_value. binds. go.
  unfold pair_value. binds. cbn. go. unfold exit_detfn. binds. cbn. unfold do. binds. go. reflexivity.
Qed.

Lemma does_powerlaw : forall id x y,
  does (t_body (Detfn id (Powerlaw x y))) (meaning (Detfn id (Powerlaw x y))).
Proof.
  intros id x y b stk stks. body.
  rewrite walks_cons, walk_kw, walks_cons, walk_leaf, walks_one. cbn [t_shape]. rewrite walk_node. cbn.
  rewrite walks_cons, walk_kw, walks_one, walk_sc2. unfold pair_value. binds. cbn. go.
  unfold exit_detfn. binds. cbn. unfold do. binds. go. reflexivity.
Qed.

Lemma walk_fref : forall f s, walk (t_fref (FName f)) s = Ok tt s.
Proof. reflexivity. Qed.

Lemma does_probfn : forall id f g o,
  does (t_body (Probfn id (FName f) (FName g) o)) (meaning (Probfn id (FName f) (FName g) o)).
Proof.
  intros id f g o b stk stks. body. go. rewrite walk_fref. go. rewrite walk_fref. go.
  unfold exit_probfn, do. binds. cbn. unfold key, opts_value. cbn. binds. go. reflexivity.
Qed.

Lemma does_im : forall id f, does (t_body (Im id f)) (meaning (Im id f)).
Proof. intros id f b stk stks. body. go. unfold exit_im, do. binds. cbn. go. reflexivity. Qed.

Lemma does_edp : forall id im f, does (t_body (Edp id im f)) (meaning (Edp id im f)).
Proof. intros id im f b stk stks. body. go. unfold exit_edp, do. binds. cbn. go. reflexivity. Qed.

Lemma walk_key : forall k s, walk (t_key k) s = Ok tt s.
Proof. reflexivity. Qed.

Lemma derives_child : forall r l t, derives (Node r l) -> In t l -> derives t.
Proof.
  intros r l t D I. apply derives_inv in D. destruct D as [_ D]. rewrite Forall_forall in D. auto.
Qed.

Lemma does_frag_db : forall id d, derives (t_body (FragDb id d)) -> does (t_body (FragDb id d)) (meaning (FragDb id d)).
Proof.
  intros id d D b stk stks.
  assert (D' : derives (t_db d)) by (apply (derives_child _ _ _ D); cbn; auto). clear D.
  body. go. destruct d as [[f |] k | k f]; unfold t_db; rewrite walk_node; cbn.
  - assert (F : derives (t_file f)) by (apply (derives_child _ _ _ D'); cbn; auto).
    assert (K : derives (t_key k)) by (apply (derives_child _ _ _ D'); cbn; auto).
    go. rewrite walk_key. go. unfold exit_db_params, exit_fragfn, do. binds. cbn. binds. unfold file_text. binds.
    apply (file_stripped world ask) in F. apply (key_stripped world ask) in K. rewrite K.
    destruct f; cbn in F |- *; rewrite F; go; reflexivity.
  - assert (K : derives (t_key k)) by (apply (derives_child _ _ _ D'); cbn; auto).
    go. rewrite walk_key. go. unfold exit_db_params, exit_fragfn, do. binds. cbn. binds.
    apply (key_stripped world ask) in K. rewrite K. go. reflexivity.
  - assert (F : derives (t_file f)) by (apply (derives_child _ _ _ D'); cbn; auto).
    assert (K : derives (t_key k)) by (apply (derives_child _ _ _ D'); cbn; auto).
    go. rewrite walk_key. go. unfold exit_db_params, exit_fragfn, do. binds. cbn. binds. unfold file_text. binds.
    apply (file_stripped world ask) in F. apply (key_stripped world ask) in K. rewrite K.
    destruct f; cbn in F |- *; rewrite F; go; reflexivity.
Qed.

Lemma does_frag_user : forall id p ps o, does (t_body (FragUser id p ps o)) (meaning (FragUser id p ps o)).
Proof.
  intros id p ps o b stk stks. body. go. rewrite walk_node. cbn. unfold do. binds. go.
  unfold exit_fragfn. binds. cbn. go. reflexivity.
Qed.

Lemma does_loss_simple : forall id p ps o, does (t_body (LossSimple id p ps o)) (meaning (LossSimple id p ps o)).
Proof.
  intros id p ps o b stk stks. body. go. rewrite walk_node. cbn. unfold do. binds. go.
  unfold exit_lossfn. binds. cbn. go. reflexivity.
Qed.

Lemma does_loss_bilevel : forall id p ps, does (t_body (LossBilevel id p ps)) (meaning (LossBilevel id p ps)).
Proof.
  intros id p ps b stk stks. body. go. rewrite walk_node. cbn. unfold do. binds. go.
  unfold exit_lossfn. binds. cbn. go. reflexivity.
Qed.

Lemma walk_leaf_node : forall r k s x, enter world r x = Ok tt x -> exit world ask r [Leaf k s] x = Ok tt x ->
  walk (Node r [Leaf k s]) x = Ok tt x.
Proof. intros r k s x E F. rewrite walk_node, E, walks_one, walk_leaf. exact F. Qed.

Lemma does_compgroup : forall id e f c d n x y,
  does (t_body (Compgroup id e f c d n x y)) (meaning (Compgroup id e f c d n x y)).
Proof.
  intros id e f c d n x y b stk stks. body. go. rewrite !walk_leaf_node by reflexivity. go.
  rewrite !walk_leaf_node by reflexivity. go. rewrite !walk_leaf_node by reflexivity. go.
  rewrite !walk_leaf_node by reflexivity.
  destruct d as [d |]; cbn; go; [rewrite walk_leaf_node by reflexivity; go |];
    destruct x as [x |], y as [y |]; cbn; go; unfold exit_compgroup, do; binds; cbn; rewrite ?texts_leaf;
    go; reflexivity.
Qed.

Lemma walk_function : forall r id s, walk (t_printed (PrFunction r id)) s = Ok tt s.
Proof. intros [] id s; reflexivity. Qed.


Lemma walk_message : forall m b stk stks, walk (t_printed (PrMessage m)) (St b stk stks) =
  match (match m with
         | MsgNone => pure _ (VStr "") | MsgString s => pure _ (VStr (literal s))
         | MsgScript e => run_script world ask e | MsgVar x => variable world x end) b with
  | Returned v b' => Ok tt (St b' (v :: stk) stks) | Raised x b' => Raise x b' end.
Proof.
  intros m b stk stks. cbn [t_printed]. rewrite walk_node. cbn.
  destruct m; cbn; go; reflexivity.
Qed.

Lemma does_print : forall p o, does (t_body (Print p o)) (meaning (Print p o)).
Proof.
  intros p o b stk stks. body. unfold do. binds.
  destruct p as [m | r id |].
  - rewrite walks_cons, walk_message. destruct m; cbn; binds; try split_e;
      (destruct o as [o |]; cbn; go; [destruct o as [f m] | idtac]); unfold exit_print; binds; cbn; binds; unfold key; cbn; binds; go; reflexivity.
  - rewrite walks_cons, walk_function. (destruct o as [o |]; cbn; go; [destruct o as [f m] | idtac]);
      unfold exit_print; binds; cbn; binds; unfold key; cbn; destruct r; cbn; binds; go; reflexivity.
  - rewrite walks_cons. change (walk (t_printed PrTitle) (St b stk stks)) with (Ok tt (St b stk stks)). cbn.
    unfold all_titles. rewrite <- title_text_spec.
    (destruct o as [o |]; cbn; go; [destruct o as [f m] | idtac]); unfold exit_print; binds; cbn; binds; unfold key; cbn; binds; go; reflexivity.
Qed.

Lemma does_integration : forall p i s, does (t_body (Integration p (LInt i) s)) (meaning (Integration p (LInt i) s)).
Proof.
  intros p i s b stk stks. body. go. rewrite walk_node. cbn. unfold do. binds. go.
  destruct s as [[s l] |].
  - cbn. rewrite walks_one. unfold t_search. rewrite walk_node. cbn. go.
    destruct l; cbn [t_limit]; go; unfold exit_integration; binds; destruct s; cbn; binds; go; reflexivity.
  - cbn. go. unfold exit_integration. binds. cbn. binds. go. reflexivity.
Qed.

Lemma for_each_all : forall {A} (f : A -> Interp.M world unit) (g : A -> E world unit) l,
  (forall a b stk stks, f a (St b stk stks) =
     match g a b with Returned _ b' => Ok tt (St b' stk stks) | Raised x b' => Raise x b' end) ->
  forall b stk stks, for_each world l f (St b stk stks) =
  match all_of world g l b with Returned _ b' => Ok tt (St b' stk stks) | Raised x b' => Raise x b' end.
Proof.
  intros A f g l H. induction l as [| a l IH]; intros b stk stks; [reflexivity |].
  unfold for_each; fold (@for_each world A). unfold all_of; fold (@all_of world A unit). binds. rewrite H.
  destruct (g a b) as [[] b' |]; [| reflexivity]. rewrite IH. destruct (all_of world g l b'); reflexivity.
Qed.

Lemma attr_method : forall v b stk stks, Interp.attr world v (St b stk stks) =
  match method world v b with Returned _ b' => Ok tt (St b' stk stks) | Raised x b' => Raise x b' end.
Proof. intros [] *; reflexivity. Qed.

Lemma does_analyze : does (t_body Analyze) (meaning Analyze).
Proof.
  intros b stk stks. body. go. unfold exit_analyze. binds. go.
  destruct a; try reflexivity.
  erewrite for_each_all.
  2: { intros r b' stk' stks'. rewrite attr_method. instantiate (1 := fun r => andthen _ (method world r) (fun _ => do world ask "recorder.run" [r])).
       cbn. unfold do. binds. destruct (method world r b'); [| reflexivity]. rewrite api_call.
       destruct (call "recorder.run" [r] c0); reflexivity. }
  unfold andthen, pure. match goal with |- match ?x with _ => _ end = _ => destruct x end; reflexivity.
Qed.

Lemma toks_ids : forall gs, toks ID (comma_list (fun g => [Leaf ID g]) gs) = gs.
Proof.
  intros. unfold comma_list. induction gs; cbn; [reflexivity |]. now f_equal.
Qed.

Lemma does_structure : forall id g gs, does (t_body (Structure id g gs)) (meaning (Structure id g gs)).
Proof.
  intros id g gs b stk stks. body. go.
  assert (W : walk (Node id_list (Leaf ID g :: comma_list (fun g => [Leaf ID g]) gs)) (St b stk stks) = Ok tt (St b stk stks)).
  { rewrite walk_node. cbn. rewrite walks_cons, walk_leaf. unfold comma_list.
    assert (H : walks (flat_map (fun a => [kw COMMA; Leaf ID a]) gs) (St b stk stks) = Ok tt (St b stk stks))
      by (induction gs; [reflexivity | exact IHgs]).
    rewrite H. reflexivity. }
  rewrite W. rewrite walks_nil. unfold exit_structure. binds. cbn. go. binds.
  rewrite toks_ids.
  erewrite for_each_all.
  2: { intros r b' stk' stks'. rewrite attr_method.
       instantiate (1 := fun g => andthen _ (method world a) (fun _ =>
          andthen _ (call "compgroup.lookup" [VStr g]) (fun c => do world ask "structure.AddCompGroup" [a; c]))).
       cbn. unfold do. binds. destruct (method world a b'); [| reflexivity]. rewrite api_call.
       destruct (call "compgroup.lookup" [VStr r] c0); [| reflexivity]. rewrite api_call.
       destruct (call "structure.AddCompGroup" [a; a1] c1); reflexivity. }
  unfold andthen, pure. match goal with |- match ?x with _ => _ end = _ => destruct x end; reflexivity.
Qed.

Lemma walk_dist : forall x y o b stk stks, walk (t_dist x y o) (St b stk stks) =
  match sc_value world ask x b with
  | Returned v b' =>
      match sc_value world ask y b' with
      | Returned w b'' => Ok tt (St b'' (opts_value o :: VList [v; w] :: stk) stks)
      | Raised e b'' => Raise e b'' end
  | Raised e b' => Raise e b' end.
Proof.
  intros. unfold t_dist. rewrite walk_node. cbn. go. unfold pair_value. binds. cbn. go. reflexivity.
Qed.

Lemma does_im_dist : forall r k m id x y o, exit world ask r [kw k; Leaf ID id; t_dist x y o] = exit_im_dist world ask m [kw k; Leaf ID id; t_dist x y o] ->
  enter world r = Interp.ret world tt -> k <> ID ->
  does (Node r [kw k; Leaf ID id; t_dist x y o]) (im_dist world ask m id x y o).
Proof.
  intros r k m id x y o X N K b stk stks. rewrite walk_node, N. cbn. go. rewrite walk_dist. unfold im_dist. binds. go.
  rewrite X. unfold exit_im_dist. binds.
  assert (T : tok ID [kw k; Leaf ID id; t_dist x y o] = Some id) by (destruct k; try reflexivity; congruence).
  rewrite T. unfold make_dist. binds. cbn. unfold key. cbn. unfold do. binds. go. rewrite attr_method. go. reflexivity.
Qed.

Lemma does_structure_dist : forall r k m id x y o, exit world ask r [kw k; Leaf ID id; t_dist x y o] = exit_structure_dist world ask m [kw k; Leaf ID id; t_dist x y o] ->
  enter world r = Interp.ret world tt -> k <> ID ->
  does (Node r [kw k; Leaf ID id; t_dist x y o]) (structure_dist world ask m id x y o).
Proof.
  intros r k m id x y o X N K b stk stks. rewrite walk_node, N. cbn. go. rewrite walk_dist. unfold structure_dist. binds. go.
  rewrite X. unfold exit_structure_dist. binds.
  assert (T : tok ID [kw k; Leaf ID id; t_dist x y o] = Some id) by (destruct k; try reflexivity; congruence).
  rewrite T. cbn. go. rewrite attr_method. go. unfold key. cbn. unfold do. binds. go. reflexivity.
Qed.

Lemma does_log : forall f n, does (t_body (Log f n)) (meaning (Log f n)).
Proof.
  intros f n b stk stks. body. go.
  destruct f as [[] |], n as [n |]; cbn; go; unfold exit_log, do; binds; cbn; binds; go;
    try (destruct n; cbn; rewrite texts_leaf; go); reflexivity.
Qed.

Lemma does_intstats : forall p, does (t_body (Intstats p)) (meaning (Intstats p)).
Proof. intros [] b stk stks; body; go; unfold exit_intstats, do; binds; cbn; go; reflexivity. Qed.

Lemma does_import : forall r k m id f, exit world ask r [kw k; Leaf ID id; t_file f] = exit_import world ask m [kw k; Leaf ID id; t_file f] ->
  enter world r = Interp.ret world tt -> k <> ID -> derives (t_file f) ->
  does (Node r [kw k; Leaf ID id; t_file f]) (do world ask m [VStr id; VStr (file_value f)]).
Proof.
  intros r k m id f X N K F b stk stks. rewrite walk_node, N. cbn. go.
  rewrite X. unfold exit_import. binds.
  assert (T : tok ID [kw k; Leaf ID id; t_file f] = Some id) by (destruct k; try reflexivity; congruence).
  rewrite T. unfold file_text, do. binds. apply (file_stripped world ask) in F.
  destruct f; cbn in F |- *; rewrite F; go; reflexivity.
Qed.

Lemma does_dir : forall r k m f, exit world ask r [kw k; t_file f] = exit_dir world ask m [kw k; t_file f] ->
  enter world r = Interp.ret world tt -> derives (t_file f) ->
  does (Node r [kw k; t_file f]) (do world ask m [VStr (file_value f)]).
Proof.
  intros r k m f X N F b stk stks. rewrite walk_node, N. cbn. go.
  rewrite X. unfold exit_dir, file_text, do. binds. apply (file_stripped world ask) in F.
  destruct f; cbn in F |- *; rewrite F; go; reflexivity.
Qed.

Lemma walk_param : forall p b stk stks, walk (t_param p) (St b stk stks) = Ok tt (St b (param_value p :: stk) stks).
Proof. intros [] *; reflexivity. Qed.

Lemma all_of_pure : forall {A B} (f : A -> B) l b, all_of world (fun a => pure world (f a)) l b = Returned (map f l) b.
Proof.
  induction l as [| a l IH]; intros b; [reflexivity |]. unfold all_of; fold (@all_of world A B).
  unfold andthen, pure. unfold pure in IH. rewrite IH. reflexivity.
Qed.

Lemma walk_params : forall p b stk stks, no_dictionary p = true ->
  walk (t_params p) (St b stk stks) = Ok tt (St b (params_value p :: stk) stks).
Proof.
  intros [p | p ps |] b stk stks N; [| | discriminate]; cbn [t_params params_value]; rewrite walk_node; cbn.
  - rewrite walks_one, walk_param. reflexivity.
  - rewrite walks_one, walk_node. cbn [enter]. unfold push_stack. cbn [body stack stacks].
    rewrite walks_cons, walk_kw.
    change (t_param p :: comma_list (fun p => [t_param p]) ps ++ [kw RBRACKET])
      with (([t_param p] ++ comma_list (fun p => [t_param p]) ps) ++ [kw RBRACKET]).
    rewrite walks_app.
    rewrite (walks_comma world ask (fun p => [t_param p]) (fun p => pure world (param_value p)) p ps);
      [| intros ? ? ? ?; rewrite walks_one, walk_param; reflexivity].
    rewrite all_of_pure. rewrite walks_one, walk_kw. cbn. rewrite app_nil_r, rev_app_distr, rev_involutive. reflexivity.
Qed.

Lemma does_set : forall id v, sound_cmd (Set_ id v) = true -> does (t_body (Set_ id v)) (meaning (Set_ id v)).
Proof.
  intros id [e | x | p] S b stk stks; body; go; unfold exit_set; binds; cbn.
  - go. reflexivity.
  - go. reflexivity.
  - rewrite walk_params by exact S. rewrite walks_nil. reflexivity.
Qed.

End Simulation.
