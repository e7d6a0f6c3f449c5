(** * The interpreter does what sound commands spell out *)
From Coq Require Import ZArith Bool Ascii String List Lia.
From Verif Require Import Interp Interp_spec Interp_proofs.
Import ListNotations.
Open Scope string_scope.
Open Scope list_scope.

Arguments Interp.walk : simpl never.
Arguments Interp.api : simpl never.
Arguments Interp_spec.call : simpl never.
Arguments texts : simpl never.
Arguments preprocess_string : simpl never.
Arguments int_of : simpl never.
Arguments strip_quotes : simpl never.

Section Simulation.
Variable world : Type.
Variable ask : string -> list value -> world -> (value + exn) * world.
Notation core := (core world).
Notation St := (St world).
Notation Ok := (Ok world _).
Notation Raise := (Raise world _).
Notation walk := (walk world ask).
Notation M := (M world).
Notation bind := (bind world).
Notation ret := (ret world).
Notation push := (push world).
Notation api := (api world ask).
Notation call := (call world ask).
Notation sc_value := (sc_value world ask).
Notation number_value := (number_value world ask).
Notation pair_value := (pair_value world ask).
Notation limit_value := (limit_value world ask).
Notation variable := (variable world).
Notation run_script := (run_script world ask).

Fixpoint walks (l : list tree) : M unit :=
  match l with [] => ret tt | t :: l => bind (walk t) (fun _ => walks l) end.

Arguments walks : simpl never.

Lemma walk_node : forall r l s,
  walk (Node r l) s =
  match enter world r s with
  | Interp.Ok _ _ _ s1 =>
      match walks l s1 with Interp.Ok _ _ _ s2 => exit world ask r l s2 | Interp.Raise _ _ e c => Raise e c end
  | Interp.Raise _ _ e c => Raise e c
  end.
Proof. reflexivity. Qed.

Lemma walks_cons : forall t l s,
  walks (t :: l) s = match walk t s with Interp.Ok _ _ _ s' => walks l s' | Interp.Raise _ _ e c => Raise e c end.
Proof. reflexivity. Qed.

Lemma walks_nil : forall s, walks [] s = Ok tt s.
Proof. reflexivity. Qed.

Lemma walk_kw : forall k s, walk (kw k) s = Ok tt s.
Proof. reflexivity. Qed.

Lemma walk_leaf : forall k s x, walk (Leaf k s) x = Ok tt x.
Proof. reflexivity. Qed.

Lemma walks_app : forall l m s,
  walks (l ++ m) s =
  match walks l s with Interp.Ok _ _ _ s' => walks m s' | Interp.Raise _ _ e c => Raise e c end.
Proof.
  induction l as [| t l IH]; intros m s; [reflexivity |].
  cbn [app]. rewrite !walks_cons. destruct (walk t s) as [[] s' |]; [apply IH | reflexivity].
Qed.

Lemma walks_one : forall t s, walks [t] s = walk t s.
Proof. intros. rewrite walks_cons. destruct (walk t s) as [[] |]; reflexivity. Qed.

Lemma api_call : forall f args b stk stks,
  api f args (St b stk stks) =
  match call f args b with Returned v b' => Ok v (St b' stk stks) | Raised x b' => Raise x b' end.
Proof.
  intros. unfold Interp.api, Interp_spec.call. cbn.
  destruct (ask f args (outside world b)) as [[v | x] w]; reflexivity.
Qed.

Lemma walks_leaves : forall {A} (f : A -> tree) l s, (forall a, exists k t, f a = Leaf k t) ->
  walks (map f l) s = Ok tt s.
Proof.
  intros A f l s H. induction l as [| a l IH]; [reflexivity |].
  cbn [map]. rewrite walks_cons. destruct (H a) as (k & t & ->). apply IH.
Qed.

Lemma texts_pieces : forall e, texts (map t_piece e) = expression e.
Proof.
  induction e as [| p e IH]; [reflexivity |].
  unfold texts, expression in *. cbn. rewrite IH. destruct p; reflexivity.
Qed.

(** Symbolic execution. *)
Ltac binds := unfold Interp.bind, Interp.ret, Interp.the, andthen, pure, Interp.raise, failing.
Ltac split_e :=
  unfold decimal, literal;
  match goal with
  | |- context [match ?e ?b with Returned _ _ => _ | Raised _ _ => _ end] =>
      match e with
      | context [match _ with Returned _ _ => _ | Raised _ _ => _ end] => fail 1
      | _ => destruct (e b); [| reflexivity]
      end
  end.
Lemma walk_script : forall e b stk stks,
  walk (t_script e) (St b stk stks) =
  match run_script e b with Returned v b' => Ok tt (St b' (v :: stk) stks) | Raised x b' => Raise x b' end.
Proof.
  intros. unfold t_script. rewrite walk_node. cbn.
  rewrite walks_cons, walk_kw, walks_cons, walk_node. cbn.
  rewrite (walks_leaves t_piece) by (intros []; eexists _, _; reflexivity). cbn.
  rewrite walks_cons, walk_kw, walks_nil. unfold exit_script, Interp.bind. cbn.
  rewrite api_call, texts_pieces. unfold Interp_spec.run_script.
  destruct (call "eval" [VStr (expression e)] b); reflexivity.
Qed.

Lemma walk_var : forall x b stk stks,
  walk (t_var x) (St b stk stks) =
  match variable x b with Returned v b' => Ok tt (St b' (v :: stk) stks) | Raised e b' => Raise e b' end.
Proof. reflexivity. Qed.

Lemma walk_number : forall n b stk stks,
  walk (t_number n) (St b stk stks) =
  match number_value n b with Returned v b' => Ok tt (St b' (v :: stk) stks) | Raised x b' => Raise x b' end.
Proof.
  intros. unfold t_number. rewrite walk_node. destruct n.
  - reflexivity.
  - reflexivity.
  - cbn. rewrite walks_one, walk_script. destruct (run_script e b); reflexivity.
  - cbn. rewrite walks_one, walk_var. reflexivity.
Qed.

Lemma walk_sc : forall n b stk stks,
  walk (t_sc n) (St b stk stks) =
  match sc_value n b with Returned v b' => Ok tt (St b' (v :: stk) stks) | Raised x b' => Raise x b' end.
Proof.
  intros. unfold t_sc. rewrite walk_node. destruct n.
  - reflexivity.
  - cbn. rewrite walks_one, walk_number. destruct (number_value n b); reflexivity.
Qed.

Lemma walk_sc2 : forall p q b stk stks,
  walk (t_sc2 p q) (St b stk stks) =
  match pair_value (p, q) b with Returned v b' => Ok tt (St b' (v :: stk) stks) | Raised x b' => Raise x b' end.
Proof.
  intros. unfold t_sc2. rewrite walk_node. unfold pair_value. cbn. binds.
  rewrite walks_cons, walk_sc. cbn [fst snd]. destruct (sc_value p b) as [v b' |]; [| reflexivity].
  rewrite walks_cons, walk_kw, walks_one, walk_sc. destruct (sc_value q b'); reflexivity.
Qed.

Lemma walk_pair : forall p b stk stks,
  walk (t_pair p) (St b stk stks) =
  match pair_value p b with Returned v b' => Ok tt (St b' (v :: stk) stks) | Raised x b' => Raise x b' end.
Proof. intros [p q]. apply walk_sc2. Qed.

Lemma walk_limit : forall n b stk stks,
  walk (t_limit n) (St b stk stks) =
  match n with
  | LInt _ => Ok tt (St b stk stks)
  | _ => match limit_value n b with Returned v b' => Ok tt (St b' (v :: stk) stks) | Raised x b' => Raise x b' end
  end.
Proof. intros [] *; [reflexivity | apply walk_var | apply walk_script]. Qed.

(** A list of things, each of which leaves a value. *)
Definition leaves (t : list tree) (g : E world value) : Prop :=
  forall b stk stks, walks t (St b stk stks) =
     match g b with Returned v b' => Ok tt (St b' (v :: stk) stks) | Raised x b' => Raise x b' end.

Lemma walks_values : forall {A} (f : A -> list tree) (g : A -> E world value) l,
  (forall a, leaves (f a) (g a)) ->
  forall b stk stks,
  walks (flat_map f l) (St b stk stks) =
  match all_of world g l b with
  | Returned vs b' => Ok tt (St b' (rev vs ++ stk) stks) | Raised x b' => Raise x b' end.
Proof.
  intros A f g l H. induction l as [| a l IH]; intros b stk stks; [reflexivity |].
  cbn [flat_map all_of]. rewrite walks_app. binds. rewrite H.
  destruct (g a b) as [v b' |]; [| reflexivity]. rewrite IH.
  destruct (all_of world g l b') as [vs b'' |]; [| reflexivity].
  cbn. rewrite <- app_assoc. reflexivity.
Qed.

Lemma walks_comma : forall {A} (f : A -> list tree) (g : A -> E world value) a l,
  (forall a, leaves (f a) (g a)) ->
  forall b stk stks,
  walks (f a ++ comma_list f l) (St b stk stks) =
  match all_of world g (a :: l) b with
  | Returned vs b' => Ok tt (St b' (rev vs ++ stk) stks) | Raised x b' => Raise x b' end.
Proof.
  intros A f g a l H b stk stks. cbn [all_of]. rewrite walks_app. binds. rewrite H.
  destruct (g a b) as [v b' |]; [| reflexivity]. unfold comma_list.
  rewrite (walks_values (fun a => kw COMMA :: f a) g l).
  - destruct (all_of world g l b') as [vs b'' |]; [| reflexivity].
    cbn. rewrite <- app_assoc. reflexivity.
  - intros x ? ? ?. rewrite walks_cons, walk_kw. apply H.
Qed.

Lemma leaves_bracketed : forall p, leaves (bracketed p) (pair_value p).
Proof.
  intros p ? ? ?. unfold bracketed. rewrite walks_cons, walk_kw, walks_cons, walk_pair.
  destruct (pair_value p b); reflexivity.
Qed.

Lemma walk_pairs : forall p ps b stk stks, walk (Node scalar2_sequence (t_pairs p ps)) (St b stk stks) =
  match all_of world pair_value (p :: ps) b with
  | Returned vs b' => Ok tt (St b' (VList vs :: stk) stks) | Raised x b' => Raise x b' end.
Proof.
  intros. rewrite walk_node. unfold t_pairs, push_stack. cbn [enter exit]. unfold push_stack. cbn [body stack stacks].
  rewrite (walks_comma _ pair_value); [| apply leaves_bracketed].
  destruct (all_of world pair_value (p :: ps) b) as [vs b' |]; [| reflexivity].
  cbn. rewrite app_nil_r, rev_involutive. reflexivity.
Qed.

Lemma walk_spec5 : forall p b stk stks, walk (t_spec5 p) (St b stk stks) =
  match spec5_value world ask p b with
  | Returned v b' => Ok tt (St b' (v :: stk) stks) | Raised x b' => Raise x b' end.
Proof.
  intros [[[[p q] r] t] u] *. unfold t_spec5. rewrite walk_node. unfold spec5_value. binds.
  cbn. unfold push_stack. cbn.
  rewrite walks_cons, walk_kw, walks_cons, walk_number. destruct (number_value p b) as [v1 b1 |]; [| reflexivity].
  rewrite walks_cons, walk_kw, walks_cons, walk_number. destruct (number_value q b1) as [v2 b2 |]; [| reflexivity].
  rewrite walks_cons, walk_kw, walks_cons, walk_number. destruct (number_value r b2) as [v3 b3 |]; [| reflexivity].
  rewrite walks_cons, walk_kw, walks_cons, walk_number. destruct (number_value t b3) as [v4 b4 |]; [| reflexivity].
  rewrite walks_cons, walk_kw, walks_cons, walk_number. destruct (number_value u b4) as [v5 b5 |]; reflexivity.
Qed.

Lemma walk_spec5s : forall p ps b stk stks,
  walk (Node bilevel_spec_sequence (t_spec5 p :: comma_list (fun p => [t_spec5 p]) ps)) (St b stk stks) =
  match all_of world (spec5_value world ask) (p :: ps) b with
  | Returned vs b' => Ok tt (St b' (VList vs :: stk) stks) | Raised x b' => Raise x b' end.
Proof.
  intros. rewrite walk_node. cbn [enter exit]. unfold push_stack. cbn [body stack stacks].
  change (t_spec5 p :: comma_list (fun p => [t_spec5 p]) ps)
    with ((fun p => [t_spec5 p]) p ++ comma_list (fun p => [t_spec5 p]) ps).
  rewrite (walks_comma _ (spec5_value world ask));
    [| intros ? ? ? ?; rewrite walks_one; apply walk_spec5].
  destruct (all_of world (spec5_value world ask) (p :: ps) b) as [vs b' |]; [| reflexivity].
  cbn. rewrite app_nil_r, rev_involutive. reflexivity.
Qed.

Lemma walk_opts : forall o b stk stks,
  walk (t_opts o) (St b stk stks) = Ok tt (St b (opts_value o :: stk) stks).
Proof. intros [[[]|] [[]|] | [] []] *; reflexivity. Qed.

Lemma walk_file : forall f s, walk (t_file f) s = Ok tt s.
Proof. intros [] *; reflexivity. Qed.

Lemma walk_popts : forall p b stk stks,
  walk (t_popts p) (St b stk stks) = Ok tt (St b (VDict (popts_entries (Some p)) :: stk) stks).
Proof. intros [[] [[]|]] *; reflexivity. Qed.

(** Names of files and keys have no quotes. *)
Lemma file_char_not_quote : forall c, file_char c = true -> is_quote c = false.
Proof.
  intros [[] [] [] [] [] [] [] []]; vm_compute; congruence.
Qed.

Lemma lstrip_plain : forall s, forallb file_char s = true -> lstrip s = s.
Proof.
  intros [| c s] H; [reflexivity |]. cbn in *. apply andb_prop in H. destruct H as [H _].
  now rewrite (file_char_not_quote c H).
Qed.

Lemma all_chars_forallb : forall p s, all_chars p s = forallb p (list_ascii_of_string s).
Proof. induction s; cbn; congruence. Qed.

Lemma strip_quotes_plain : forall s, all_chars file_char s = true -> strip_quotes s = s.
Proof.
  intros s H. rewrite all_chars_forallb in H. unfold strip_quotes, strip.
  rewrite (lstrip_plain _ H).
  rewrite (lstrip_plain (rev _)).
  - rewrite rev_involutive. apply string_of_list_ascii_of_string.
  - rewrite forallb_forall in *. intros c I. apply H. now apply in_rev.
Qed.

Lemma lexeme_name : forall k s, k = ID \/ k = FILE_NAME -> lexeme k s = true -> strip_quotes s = s.
Proof.
  intros k s [-> | ->] H; apply strip_quotes_plain; unfold lexeme in H; cbn in H;
    apply andb_prop in H; tauto.
Qed.

Lemma file_stripped : forall f, derives (t_file f) -> strip_quotes (file_value f) = file_value f.
Proof.
  intros [s | s] D; apply derives_inv in D; destruct D as [D _]; cbn in D;
    apply inv_alt in D; destruct D as [D | D]; apply inv_tok in D; destruct D as (t & E & L);
    try discriminate; injection E as <-; eapply lexeme_name; eauto.
Qed.

Lemma key_stripped : forall k, derives (t_key k) -> strip_quotes k = k.
Proof.
  intros k D. apply derives_inv in D. destruct D as [D _]. cbn in D. apply inv_tok in D.
  destruct D as (t & E & L). injection E as <-. eapply lexeme_name; eauto.
Qed.

Lemma walk_place : forall p b stk stks, walk (t_place p) (St b stk stks) =
  match place_value world ask p b with
  | Returned v b' => Ok tt (St b' (v :: stk) stks) | Raised x b' => Raise x b' end.
Proof.
  intros [x xs | p q r | e | x | p q lin n] *; unfold t_place; rewrite walk_node.
  - cbn [place_value]. unfold pure. cbn [enter]. unfold Interp.ret. rewrite walks_one, walk_node.
    cbn [enter]. unfold Interp.ret.
    assert (W : walks (Leaf FLOAT_VAL x :: comma_list (fun x => [Leaf FLOAT_VAL x]) xs) (St b stk stks)
                = Ok tt (St b stk stks)).
    { rewrite walks_cons, walk_leaf. unfold comma_list. induction xs; [reflexivity | exact IHxs]. }
    rewrite W. cbn [exit]. unfold exit_floats.
    assert (T : toks FLOAT_VAL (Leaf FLOAT_VAL x :: comma_list (fun x => [Leaf FLOAT_VAL x]) xs) = x :: xs).
    { clear. cbn. f_equal. unfold comma_list. induction xs; cbn; [reflexivity |]. now f_equal. }
    rewrite T. reflexivity.
  - cbn. unfold Interp.ret. rewrite ?walks_cons, ?walk_kw, ?walk_leaf. rewrite ?walks_cons, ?walk_kw, ?walk_leaf.
    repeat rewrite ?walks_cons, ?walk_kw, ?walk_leaf. rewrite walks_nil. unfold exit_at. cbn.
    unfold Interp.bind. rewrite api_call. split_e. reflexivity.
  - cbn. rewrite walks_one, walk_script. cbn. split_e. reflexivity.
  - cbn. rewrite walks_one, walk_var. reflexivity.
  - cbn. rewrite walks_one, walk_node. cbn.
    repeat rewrite ?walks_cons, ?walk_kw, ?walk_leaf. rewrite walks_nil. unfold exit_counted, Interp.bind. cbn.
    destruct lin; cbn; rewrite api_call; split_e; reflexivity.
Qed.

Lemma walk_col : forall c b stk stks, walk (t_col c) (St b stk stks) =
  match col_value world ask c b with
  | Returned v b' => Ok tt (St b' (v :: stk) stks) | Raised x b' => Raise x b' end.
Proof.
  intros [[] | [] | s] *; try reflexivity. unfold t_col. rewrite walk_node. cbn.
  rewrite walks_one, walk_sc. cbn. split_e. reflexivity.
Qed.

Lemma walk_cols : forall c b stk stks, walk (t_cols c) (St b stk stks) =
  match cols_value world ask (Some c) b with
  | Returned v b' => Ok tt (St b' (v :: stk) stks) | Raised x b' => Raise x b' end.
Proof.
  intros [c cs] *. unfold t_cols. rewrite walk_node. cbn [enter exit fst snd]. unfold push_stack. cbn [body stack stacks].
  rewrite walks_cons, walk_kw.
  change (t_col c :: comma_list (fun p => [t_col p]) cs)
    with ((fun p => [t_col p]) c ++ comma_list (fun p => [t_col p]) cs).
  rewrite (walks_comma _ (col_value world ask));
    [| intros ? ? ? ?; rewrite walks_one; apply walk_col].
  cbn [cols_value]. unfold andthen, pure.
  destruct (all_of world (col_value world ask) (c :: cs) b) as [vs b' |]; [| reflexivity].
  cbn. rewrite app_nil_r, rev_involutive. reflexivity.
Qed.

End Simulation.
