(** * What a list of arguments should give *)
From Coq Require Import List Arith Permutation.
From Verif Require Import Bulk.
Import ListNotations.

(** What each method is documented to return (pyslat.py:620-668, 768-816). *)
Definition meant (m : method) : quantity :=
  match m with
  | ImLambda => QImLambda | ImRepair => QRepair | ImCollapse => QCollapse | ImDemolition => QDemolition
  | EdpMean => QMean | EdpMeanLn => QMeanLn | EdpMedian => QMedian | EdpSDln => QSDln | EdpSD => QSD
  | EdpLambda => QEdpLambda
  end.

(** Every iteration happens once, in some order. *)
Definition complete (order : list nat) (n : nat) : Prop := Permutation order (seq 0 n).
