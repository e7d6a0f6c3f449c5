(** * Properties of the integrator: exactly which limits are safe (C55) *)
From Coq Require Import ZArith List Bool.
From Coq Require Import Floats.SpecFloat.
From Verif Require Import Num Maq Maq_spec Maq_return_proofs Maq_return_proofs2.
Import ListNotations.
Local Open Scope Z_scope.

(** ** C55: in double precision, and for all limits the settings API accepts, every
    integration returns if and only if the search limit is safe for the search method and
    the evaluation limit is below 2^32 - 1.  The scattered and the directed search are safe
    with every search limit; the two binary subdivisions up to 2^30; the low-first
    subdivision up to 2^30 and again from 2^30 + 4 to 2^30 + 2^29. *)
Theorem C55_exactly_partial : forall s : settings F64,
  1 <= set_search_limit s < 2 ^ 32 -> 1 <= set_eval_limit s < 2 ^ 32 ->
  ((forall f, exists r n, forall fuel, (n <= fuel)%nat -> MAQ F64 f fuel s = Done r) <->
   search_safe (set_method s) (set_search_limit s) /\ set_eval_limit s < 2 ^ 32 - 1).
Proof. exact returns_exactly. Qed.
Print Assumptions C55_exactly_partial.

(** With every other search limit the integration of zero overflows an [int]. *)
Theorem C55_unsafe_fails : forall fuel (s : settings F64), (40 <= fuel)%nat ->
  1 <= set_search_limit s < 4294967296 -> ~ search_safe (set_method s) (set_search_limit s) ->
  MAQ F64 (fun _ => S754_zero false) fuel s = Ub.
Proof. exact unsafe_overflows. Qed.
Print Assumptions C55_unsafe_fails.

(** With the largest evaluation limit the integration of infinity never returns, whatever
    the search method and its limit. *)
Theorem C55_unlimited_fails : forall fuel (s : settings F64), set_eval_limit s = 4294967295 ->
  MAQ F64 (fun _ => S754_infinity false) fuel s = OutOfFuel.
Proof. exact never_returns. Qed.
Print Assumptions C55_unlimited_fails.

(** A search limit of -1 is 2^32 - 1: safe with the default method, not with a binary
    subdivision; the low-first search has both kinds above 2^30. *)
Example C55_exactly_case :
  let s := settings_run F64 [OpSetSearchLimit F64 (-1)] in
  let b := settings_run F64 [OpSetSearchLimit F64 (-1); OpSetMethod F64 BINARY_SUBDIVISION] in
  (search_safe (set_method s) (set_search_limit s) /\ set_eval_limit s < 2 ^ 32 - 1 /\ set_search_limit s = 2 ^ 32 - 1) /\
  ~ search_safe (set_method b) (set_search_limit b) /\
  search_safe LOW_FIRST_REVERSE_BINARY_SUBDIVISION (2 ^ 30 + 2 ^ 29) /\
  ~ search_safe LOW_FIRST_REVERSE_BINARY_SUBDIVISION (2 ^ 30 + 3) /\
  set_eval_limit (settings_run F64 [OpSetEvalLimit F64 (-1)]) = 4294967295.
Proof.
  vm_compute. repeat split.
  - intros H. apply H. reflexivity.
  - right. split; discriminate.
  - intros [H|[H _]]; apply H; reflexivity.
Qed.
