(** * Combining costs in double precision (src/structure.cpp 95-148, 187-231;
    src/lognormaldist.cpp 22-39, 56-62, 142-233; src/relationships.h 88-126)

    The model of [Group.v] has these with real numbers, but for mean and variance in
    [TotalCost]; here they are as the processor calculates them, rounding after each
    operation.

    Simplifications: a cost is given by the mean and the standard deviation that
    [get_mean_X] and [get_sigma_X] return for it (lognormaldist.cpp 142-165), and a curve by the
    probability that [p_at_most] returns at the intensity in question (lognormaldist.cpp
    103-119), each any double; [log] is a parameter; no operations are contracted or
    reordered by the compiler, and intermediate results have double precision (as on x86-64
    without options that allow otherwise). *)
From Coq Require Import List ZArith Bool Floats.SpecFloat.
From Verif Require Import Num Group.
Import ListNotations.

(** [sqrt] of [double] (structure.cpp 146, 228; lognormaldist.cpp 36, 188, 230). *)
Definition root (x : F64) : F64 := SFsqrt f64_prec f64_emax x.

(** What [get_mean_X] and [get_sigma_X] give for a distribution (lognormaldist.cpp
    142-165). *)
Record cost := Cost { c_mean : F64; c_sd : F64 }.

(** What [p_at_most] gives for the curves of a measure; [None] if there is no curve
    (relationships.h 88-126). *)
Record chances := Chances { ch_collapse : option F64; ch_demolition : option F64 }.

(** [pCollapse] (relationships.h 88-94). *)
Definition p_collapse (c : chances) : F64 :=
  match ch_collapse c with Some p => p | None => nofZ F64 0 end.

(** [pDemolition] (relationships.h 120-126). *)
Definition p_demolition (c : chances) : F64 :=
  match ch_demolition c with Some p => nsub F64 p (p_collapse c) | None => nofZ F64 0 end.

(** [pRepair] (relationships.h 100-102). *)
Definition p_repair (c : chances) : F64 := nsub F64 (nofZ F64 1) (nadd F64 (p_demolition c) (p_collapse c)).

(** The expected square of a cost (lognormaldist.cpp 184). *)
Definition square (x : cost) : F64 := second_moment F64 (c_mean x) (c_sd x).

(** Mean and deviation handed on by [TotalCost] (structure.cpp 120-147). *)
Definition total (c : chances) (repair demolition collapse : cost) : cost :=
  let '(e, var) := total_mean_var F64 (c_mean repair) (c_sd repair) (c_mean demolition) (c_sd demolition)
                     (c_mean collapse) (c_sd collapse) (p_repair c) (p_demolition c) (p_collapse c) in
  Cost e (root var).

(** The loop of [AddWeightedDistributions] (lognormaldist.cpp 176-185). *)
Fixpoint weigh (l : list (cost * F64)) (mean square_ : F64) : F64 * F64 :=
  match l with
  | [] => (mean, square_)
  | (x, w) :: r =>
      weigh r (nadd F64 mean (nmul F64 (c_mean x) w)) (nadd F64 square_ (nmul F64 (square x) w))
  end.

(** [AddWeightedDistributions] (lognormaldist.cpp 168-189), for as many weights as
    distributions. *)
Definition weighted (l : list (cost * F64)) : cost :=
  let '(m, q) := weigh l (nofZ F64 0) (nofZ F64 0) in
  Cost m (root (nabs F64 (nsub F64 q (nmul F64 m m)))).

(** The inner loop of [AddDistributions] after its first round (lognormaldist.cpp
    219-227). *)
Fixpoint nothing (sd : F64) (l : list cost) (var : F64) : F64 :=
  match l with
  | [] => var
  | y :: r => nothing sd r (nadd F64 var (nmul F64 (nmul F64 (nofZ F64 0) sd) (c_sd y)))
  end.

(** The loop of [AddDistributions] (lognormaldist.cpp 213-228). *)
Fixpoint gather (l : list cost) (mean var : F64) : F64 * F64 :=
  match l with
  | [] => (mean, var)
  | x :: r =>
      gather r (nadd F64 mean (c_mean x)) (nothing (c_sd x) r (nadd F64 var (nmul F64 (c_sd x) (c_sd x))))
  end.

(** [AddDistributions] (lognormaldist.cpp 208-231). *)
Definition added (l : list cost) : cost :=
  let '(m, v) := gather l (nofZ F64 0) (nofZ F64 0) in Cost m (root v).

(** [Cost] with collapse (structure.cpp 95-112), where there is a measure. *)
Definition with_collapse (c : chances) (repair collapse : cost) : cost :=
  weighted [(repair, nsub F64 (nofZ F64 1) (p_collapse c)); (collapse, p_collapse c)].

(** What [calc_AnnualCost] makes of its two integrals (structure.cpp 228-230). *)
Definition annual (mu beta : F64) : cost := Cost mu (root (nabs F64 (nsub F64 beta (nmul F64 mu mu)))).

(** The distribution made from a mean and a deviation: [mu_lnX] and [sigma_lnX]
    (lognormaldist.cpp 26-38, 58-64). *)
Definition made (log : F64 -> F64) (x : cost) : F64 * F64 :=
  let m := c_mean x in
  let s := c_sd x in
  let sigma :=
    if neqb F64 m (nofZ F64 0) then nofZ F64 0
    else root (log (nadd F64 (nofZ F64 1) (ndiv F64 (nmul F64 s s) (nmul F64 m m)))) in
  (nsub F64 (log m) (ndiv F64 (nmul F64 sigma sigma) (nofZ F64 2)), sigma).
