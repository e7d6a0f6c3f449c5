(** * Proofs about lists of arguments *)
From Coq Require Import List Bool Arith Lia Permutation.
From Verif Require Import Bulk Bulk_spec.
Import ListNotations.

Section P.
  Context {T : Type}.
  Variable zero : T.

  Lemma store_length : forall i (y : T) l, length (store i y l) = length l.
  Proof. intros i y l. revert i. induction l as [|z l IH]; intros [|i]; cbn; auto. Qed.

  Lemma store_nth : forall i (y : T) l j, nth_error (store i y l) j =
    if i =? j then match nth_error l j with Some _ => Some y | None => None end else nth_error l j.
  Proof.
    intros i y l. revert i. induction l as [|z l IH]; intros i j.
    - replace (store i y []) with (@nil T) by (destruct i; reflexivity).
      destruct j; cbn [nth_error]; destruct (i =? _); reflexivity.
    - destruct i as [|i]; cbn [store]; destruct j as [|j]; cbn [nth_error Nat.eqb]; try reflexivity. apply IH.
  Qed.

  Lemma loop_nth : forall (g : T -> T) (xs : list T) order (acc : list T) j,
    nth_error (fold_left (fun acc i => store i (g (nth i xs zero)) acc) order acc) j =
    if existsb (Nat.eqb j) order then match nth_error acc j with Some _ => Some (g (nth j xs zero)) | None => None end
    else nth_error acc j.
  Proof.
    intros g xs order. induction order as [|i order IH]; intros acc j; cbn [fold_left existsb]; [reflexivity|].
    rewrite IH, store_nth. destruct (Nat.eqb_spec i j) as [->|Hne].
    - rewrite Nat.eqb_refl. cbn [orb]. destruct (nth_error acc j); destruct (existsb (Nat.eqb j) order); reflexivity.
    - replace (j =? i) with false by (symmetry; apply Nat.eqb_neq; congruence). reflexivity.
  Qed.

  Lemma nth_error_ext' : forall (l l' : list T), (forall j, nth_error l j = nth_error l' j) -> l = l'.
  Proof.
    induction l as [|x l IH]; intros [|y l'] H; [reflexivity|specialize (H 0); discriminate|specialize (H 0); discriminate|].
    f_equal; [specialize (H 0); injection H; auto|]. apply IH. intros j. exact (H (S j)).
  Qed.

  Lemma loop_map : forall order g (xs : list T), complete order (length xs) -> loop zero order g xs = map g xs.
  Proof.
    intros order g xs Hc. apply nth_error_ext'. intros j. unfold loop. rewrite loop_nth, nth_error_map.
    destruct (nth_error xs j) as [x|] eqn:E; cbn [option_map].
    - assert (Hj : j < length xs) by (apply nth_error_Some; congruence).
      replace (existsb (Nat.eqb j) order) with true.
      2:{ symmetry. apply existsb_exists. exists j. split; [|apply Nat.eqb_refl].
          apply (Permutation_in j (Permutation_sym Hc)). apply in_seq. lia. }
      destruct (nth_error (repeat zero (length xs)) j) eqn:Er.
      + f_equal. f_equal. apply nth_error_nth. exact E.
      + apply nth_error_None in Er. rewrite repeat_length in Er. lia.
    - apply nth_error_None in E.
      replace (nth_error (repeat zero (length xs)) j) with (@None T).
      2:{ symmetry. apply nth_error_None. rewrite repeat_length. exact E. }
      destruct (existsb (Nat.eqb j) order); reflexivity.
  Qed.

  Variable value : quantity -> T -> T.

  Lemma ask_number : forall order m x, ask zero value order m (Num x) = Ok (Num (value (meant m) x)).
  Proof. intros order m x. destruct m; reflexivity. Qed.

  Lemma ask_list : forall order m xs, m <> EdpMeanLn -> m <> EdpMedian -> m <> EdpSD ->
    complete order (length xs) -> ask zero value order m (PyList xs) = Ok (PyList (map (value (meant m)) xs)).
  Proof.
    intros order m xs H1 H2 H3 Hc. destruct m; try congruence; cbn; rewrite loop_map by exact Hc; reflexivity.
  Qed.

  Lemma ask_list_fails : forall order m xs, m = EdpMeanLn \/ m = EdpMedian \/ m = EdpSD ->
    ask zero value order m (PyList xs) = TypeError.
  Proof. intros order m xs [-> |[-> | ->]]; reflexivity. Qed.

  Lemma ask_tuple : forall order m xs, complete order (length xs) ->
    ask zero value order m (PyTuple xs) =
    match m with
    | ImLambda | ImRepair | ImCollapse | ImDemolition | EdpLambda => Ok (PyTuple (map (value (meant m)) xs))
    | _ => TypeError
    end.
  Proof.
    intros order m xs Hc. destruct m; cbn; try rewrite loop_map by exact Hc; reflexivity.
  Qed.
End P.

Lemma refute_lists : exists (m : method) (xs : list nat), forall value order,
  complete order (length xs) -> ask 0 value order m (PyList xs) <> Ok (PyList (map (value (meant m)) xs)).
Proof. exists EdpMedian, [1]. intros value order _. discriminate. Qed.
