(** * Specifications used in the statements about integration *)
From Coq Require Import ZArith List Bool Permutation.
From Verif Require Import Num Maq.
Import ListNotations.

(** [tiles a b l]: the intervals in [l], in this order, start at [a], end at [b], and each
    begins where the one before ends. *)
Inductive tiles {A : Type} : A -> A -> list (A * A) -> Prop :=
| tiles_one : forall a b, tiles a b [(a, b)]
| tiles_cons : forall a c b l, tiles c b l -> tiles a b ((a, c) :: l).

(** Some ordering of [l] tiles [a],[b]. *)
Definition covers {A : Type} (a b : A) (l : list (A * A)) : Prop :=
  exists l', Permutation l l' /\ tiles a b l'.

Section Rule.
  Context (N : Num).

  (** Simpson's rule from three values. *)
  Definition simpson (a b ga gc gb : N) : N :=
    nmul N (ndiv N (nsub N b a) (nofZ N 6)) (nadd N (nadd N ga (nmul N (nofZ N 4) gc)) gb).

  (** [c] is the computed mid point of [a] and [b] (nothing is assumed about [nadd], so
      the order of the addition is left open). *)
  Definition midpoint (a b c : N) : Prop :=
    c = ndiv N (nadd N a b) (nofZ N 2) \/ c = ndiv N (nadd N b a) (nofZ N 2).

  (** [transformed f t g]: [g] is the integrand after the substitution x = 1/t - 1, at
      [t]; at t = 0 the Jacobian 1/t^2 may be left out. *)
  Definition transformed (f : N -> N) (t g : N) : Prop :=
    let x := if neqb N t (nofZ N 0) then ninf N
             else nsub N (ndiv N (nofZ N 1) t) (nofZ N 1) in
    g = ndiv N (f x) (nmul N t t) \/
    (neqb N t (nofZ N 0) = true /\ g = ndiv N (f x) (nofZ N 1)).

  (** [good_estimate T tol before a b q2 corr], where [T t g] says that [g] is the value
      of the transformed integrand at [t]: [q2] is the composite Simpson estimate of
      the transformed integrand over [a],[b] with two panels, [corr] is a fifteenth of
      its difference from the one-panel estimate, and that difference is within [tol] of
      [q2] or of [before]. *)
  Definition good_estimate (T : N -> N -> Prop) (tol before a b q2 corr : N) : Prop :=
    exists c d e ga gb gc gd ge,
      midpoint a b c /\ midpoint a c d /\ midpoint c b e /\
      T a ga /\ T b gb /\ T c gc /\ T d gd /\ T e ge /\
      let q1 := simpson a b ga gc gb in
      q2 = nadd N (simpson a c ga gd gc) (simpson c b gc ge gb) /\
      corr = ndiv N (nsub N q2 q1) (nofZ N 15) /\
      let err := nabs N (nsub N q2 q1) in
      (nleb N err (nabs N (nmul N tol q2)) = true \/
       nleb N err (nabs N (nmul N tol before)) = true).

  (** Adding up the accepted terms from the oldest (last) on, starting with 0. *)
  Fixpoint running_sum (l : list (accepted N)) : N :=
    match l with
    | [] => nofZ N 0
    | x :: rest => nadd N (nadd N (running_sum rest) (ac_q2 x)) (ac_corr x)
    end.

  (** Each entry records the sum of the older ones. *)
  Fixpoint sums_recorded (l : list (accepted N)) : Prop :=
    match l with
    | [] => True
    | x :: rest => ac_before x = running_sum rest /\ sums_recorded rest
    end.
End Rule.

Definition acc_interval {N : Num} (x : accepted N) : N * N :=
  (rg_a (ac_region x), rg_b (ac_region x)).

(** ** Settings *)

(** The last [Some] produced by [g] along a history, or a default. *)
Fixpoint last_event {A B} (g : A -> option B) (d : B) (l : list A) : B :=
  match l with
  | [] => d
  | x :: rest => last_event g (match g x with Some v => v | None => d end) rest
  end.

Section SettingsSpec.
  Context (N : Num).
  Local Open Scope Z_scope.

  (** What each call does to each of the four settings, if anything.  [n] as an unsigned
      32-bit value is [n mod 2^32]. *)
  Definition tolerance_event (op : settings_op N) : option N :=
    match op with
    | OpSetTolerance _ t => if nltb N (nofZ N 0) t then Some t else None
    | OpUseDefaultTolerance _ | OpReset _ => Some (ndiv N (nofZ N 1) (nofZ N 1000))
    | _ => None
    end.
  Definition eval_limit_event (op : settings_op N) : option Z :=
    match op with
    | OpSetEvalLimit _ n => if n mod 2 ^ 32 =? 0 then None else Some (n mod 2 ^ 32)
    | OpUseDefaultEvalLimit _ | OpReset _ => Some 2048
    | _ => None
    end.
  Definition search_limit_event (op : settings_op N) : option Z :=
    match op with
    | OpSetSearchLimit _ n => if n mod 2 ^ 32 =? 0 then None else Some (n mod 2 ^ 32)
    | OpReset _ => Some 2048
    | _ => None
    end.
  Definition method_event (op : settings_op N) : option method :=
    match op with
    | OpSetMethod _ m => Some m
    | OpReset _ => Some DIRECTED
    | _ => None
    end.
End SettingsSpec.

(** ** Statistics *)
Section StatsSpec.
  Context (N : Num).
  Local Open Scope Z_scope.

  (** The results of the integrations made since the last statistics reset, oldest first,
      as a relation between a history, its final settings, and the results.  The history
      is given newest first. *)
  Inductive results_since : list (session_op N) -> settings N -> list (maq_result N) -> Prop :=
  | rs_start : results_since [] (default_settings N) []
  | rs_integrate : forall h s rs f fuel r,
      results_since h s rs -> MAQ N f fuel s = Done r ->
      results_since (SIntegrate N f :: h) s (rs ++ [r])
  | rs_setting : forall h s rs o,
      results_since h s rs -> results_since (SSetting N o :: h) (settings_step N s o) rs
  | rs_reset : forall h s rs,
      results_since h s rs -> results_since (SResetStats N :: h) s [].

  Definition count (p : maq_result N -> bool) (l : list (maq_result N)) : Z :=
    Z.of_nat (length (filter p l)).
  Definition total (g : maq_result N -> Z) (l : list (maq_result N)) : Z :=
    fold_right (fun r acc => g r + acc) 0 l.
  Definition maximum (g : maq_result N -> Z) (l : list (maq_result N)) : Z :=
    fold_right (fun r acc => Z.max (g r) acc) 0 l.

  Definition ok (r : maq_result N) : bool :=
    match mr_exit r with ExOk => true | _ => false end.
  Definition out_of_evals (r : maq_result N) : bool :=
    match mr_exit r with ExLimit => true | _ => false end.
  Definition nothing_found (r : maq_result N) : bool :=
    match mr_exit r with ExSearchFail => true | _ => false end.
  Definition met_nan (r : maq_result N) : bool :=
    match mr_exit r with ExNan => true | _ => false end.

  (** Values the counters must have after results [rs]. *)
  Record stats_are (st : stats) (rs : list (maq_result N)) : Prop := mkSA {
    sa_calls : st_calls st = Z.of_nat (length rs) mod 2 ^ 32;
    sa_successes : st_successes st = count ok rs mod 2 ^ 32;
    sa_fails : st_integration_fails st = count out_of_evals rs mod 2 ^ 32;
    sa_search_fails : st_search_fails st = count nothing_found rs mod 2 ^ 32;
    sa_nans : st_nans st = count met_nan rs mod 2 ^ 32;
    sa_search_evals : st_search_evals st = total (fun r => mr_search_evals r) rs mod 2 ^ 64;
    sa_evals : st_integration_evals st =
      total (fun r => mr_evaluations r) (filter (fun r => negb (nothing_found r)) rs) mod 2 ^ 64;
    sa_max_search : st_max_search st = maximum (fun r => mr_search_evals r) rs;
    sa_max_int : st_max_integration st =
      maximum (fun r => mr_evaluations r) (filter (fun r => ok r || out_of_evals r) rs)
  }.
End StatsSpec.

(** The one law about the arithmetic needed by the searches (true of binary64 and of the
    extended reals): [x < y] excludes [y <= x]. *)
Definition order_ok (N : Num) : Prop :=
  forall x y : N, nltb N x y = true -> nleb N y x = false.

(** ** Limits *)
Local Open Scope Z_scope.

(** Largest number of calls a search makes with a given limit. *)
Definition search_bound (m : method) (limit : Z) : Z :=
  match m with
  | BINARY_SUBDIVISION | REVERSE_BINARY_SUBDIVISION
  | LOW_FIRST_REVERSE_BINARY_SUBDIVISION => Z.max 2 (2 * (limit - 1))
  | SCATTERED => Z.max 2 limit
  | DIRECTED => Z.max 2 (limit + 1)
  end.

(** The search limits with which a search method never overflows.  In the low-first
    search the larger first phase leaves less for the second. *)
Definition search_safe (m : method) (limit : Z) : Prop :=
  match m with
  | BINARY_SUBDIVISION | REVERSE_BINARY_SUBDIVISION => limit <= 1073741824
  | LOW_FIRST_REVERSE_BINARY_SUBDIVISION =>
      limit <= 1073741824 \/ 1073741828 <= limit <= 1610612736
  | SCATTERED | DIRECTED => True
  end.

(** Limits for which the counters of the code do not overflow. *)
Definition limits_ok {N : Num} (s : settings N) : Prop :=
  1 <= set_search_limit s <= 1073741824 /\ 1 <= set_eval_limit s < 4294967295.

