(** * C84: lists of arguments
    Property theorems only; model in [Bulk.v], specification in [Bulk_spec.v]; for caches
    asked by many iterations see [C84_loop] in [Nested_props.v]. *)
From Coq Require Import List Arith Lia Permutation.
From Verif Require Import Bulk Bulk_spec Bulk_proofs.
Import ListNotations.

(** A number gives what the method is documented to return. *)
Theorem C84_number : forall {T} (zero : T) value order m x,
  ask zero value order m (Num x) = Ok (Num (value (meant m) x)).
Proof. exact @ask_number. Qed.
Print Assumptions C84_number.

(** Full statement: a list gives the list of what its members give.
    False: [edp.Median([1.0])] raises an exception. *)
Theorem C84_lists_refuted : exists (m : method) (xs : list nat), forall value order,
  complete order (length xs) -> ask 0 value order m (PyList xs) <> Ok (PyList (map (value (meant m)) xs)).
Proof. exact refute_lists. Qed.
Print Assumptions C84_lists_refuted.

(** It does for [getlambda], [pRepair], [pCollapse] and [pDemolition] of intensity measures,
    and for [Mean], [SD_ln] and [getlambda] of demands, in whatever order the iterations of
    the parallel loop store their results. *)
Theorem C84_lists_partial : forall {T} (zero : T) value order m xs,
  m <> EdpMeanLn -> m <> EdpMedian -> m <> EdpSD -> complete order (length xs) ->
  ask zero value order m (PyList xs) = Ok (PyList (map (value (meant m)) xs)).
Proof. exact @ask_list. Qed.
Print Assumptions C84_lists_partial.

(** [MeanLn], [Median] and [SD] raise an exception for every list, although functions for
    lists exist for them as well. *)
Theorem C84_lists_fails : forall {T} (zero : T) value order m xs,
  m = EdpMeanLn \/ m = EdpMedian \/ m = EdpSD -> ask zero value order m (PyList xs) = TypeError.
Proof. exact @ask_list_fails. Qed.
Print Assumptions C84_lists_fails.

(** Tuples: given back as tuples by five methods, refused by the others. *)
Theorem C84_tuples : forall {T} (zero : T) value order m xs, complete order (length xs) ->
  ask zero value order m (PyTuple xs) =
  match m with
  | ImLambda | ImRepair | ImCollapse | ImDemolition | EdpLambda => Ok (PyTuple (map (value (meant m)) xs))
  | _ => TypeError
  end.
Proof. exact @ask_tuple. Qed.
Print Assumptions C84_tuples.

Example C84_case : complete [2; 0; 1] 3 /\
  ask 0 (fun q x => match q with QMean => 10 * x | _ => 0 end) [2; 0; 1] EdpMean (PyList [5; 7; 5]) = Ok (PyList [50; 70; 50]).
Proof.
  split; [|reflexivity]. unfold complete. cbn. eapply perm_trans; [apply perm_swap|]. apply perm_skip. apply perm_swap.
Qed.
