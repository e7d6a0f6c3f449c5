(** * Numerical derivatives

    Source: /repo/src/functions.cpp 106-138 ([DeterministicFn::DerivativeAt]),
    relationships.cpp 123-151 ([IM::DerivativeAt]), 208-234 ([EDP::DerivativeAt]), the
    same code at comp_group.cpp 301-307, 349-355, 454-460, 502-508, 586-592, and what
    it calls: [gsl_deriv_central], [_forward] and [_backward] of the GSL (deriv/deriv.c,
    which is not in /repo).  Written for any arithmetic, with [pow] of the C library as a
    parameter.  The error estimate handed back is ignored by SLAT and left out. *)
From Coq Require Import ZArith Bool Reals.
From Coq Require Import Floats.SpecFloat.
From Verif Require Import Num ER ERmath Functions Group.

Section Deriv.
  Variable A : Num.
  (** [pow]. Called by GSL deriv/deriv.c, for /repo/src/functions.cpp 133-135. *)
  Variable power : A -> A -> A.

  (** Integer constants as doubles, e.g. the [2.0] of GSL deriv/deriv.c, for
      functions.cpp 133-135. *)
  Definition num_of (z : Z) : A := nofZ A z.
  (** Quotients of constants, e.g. [4.0 / 3.0], [0.5], [20.67]. GSL deriv/deriv.c, for
      functions.cpp 133-135. *)
  Definition ratio (a b : Z) : A := ndiv A (num_of a) (num_of b).
  (** [GSL_MAX]. GSL deriv/deriv.c, for functions.cpp 133-135. *)
  Definition larger (a b : A) : A := if nltb A b a then a else b.

  (** [central_deriv] (GSL deriv/deriv.c, for functions.cpp 133): result, rounding and
      truncation error. *)
  Definition central_deriv (f : A -> A) (x h : A) : A * A * A :=
    let fm1 := f (nsub A x h) in
    let fp1 := f (nadd A x h) in
    let fmh := f (nsub A x (ndiv A h (num_of 2))) in
    let fph := f (nadd A x (ndiv A h (num_of 2))) in
    let r3 := nmul A (ratio 1 2) (nsub A fp1 fm1) in
    let r5 := nsub A (nmul A (ratio 4 3) (nsub A fph fmh)) (nmul A (ratio 1 3) r3) in
    let e3 := nmul A (nadd A (nabs A fp1) (nabs A fm1)) (neps A) in
    let e5 := nadd A (nmul A (nmul A (num_of 2) (nadd A (nabs A fph) (nabs A fmh))) (neps A)) e3 in
    let dy := nmul A (nmul A (larger (nabs A (ndiv A r3 h)) (nabs A (ndiv A r5 h)))
                              (ndiv A (nabs A x) h)) (neps A) in
    (ndiv A r5 h, nadd A (nabs A (ndiv A e5 h)) dy, nabs A (ndiv A (nsub A r5 r3) h)).

  (** The choice between the result with the given step and the one with the step thought
      best, which both rules make (GSL deriv/deriv.c, for functions.cpp 133-135). *)
  Definition better (rule : A -> A * A * A) (h : A) (best : A -> A -> A) : A :=
    let '(r, round, trunc) := rule h in
    let error := nadd A round trunc in
    if nltb A round trunc && (nltb A (num_of 0) round && nltb A (num_of 0) trunc) then
      let '(r_opt, round_opt, trunc_opt) := rule (nmul A h (best round trunc)) in
      if nltb A (nadd A round_opt trunc_opt) error &&
         nltb A (nabs A (nsub A r_opt r)) (nmul A (num_of 4) error)
      then r_opt else r
    else r.

  (** [gsl_deriv_central] (GSL deriv/deriv.c; called at functions.cpp 133). *)
  Definition gsl_central (h : A) (f : A -> A) (x : A) : A :=
    better (central_deriv f x) h
      (fun round trunc => power (ndiv A round (nmul A (num_of 2) trunc)) (ratio 1 3)).

  (** [forward_deriv] (GSL deriv/deriv.c, for functions.cpp 134). *)
  Definition forward_deriv (f : A -> A) (x h : A) : A * A * A :=
    let f1 := f (nadd A x (ndiv A h (num_of 4))) in
    let f2 := f (nadd A x (ndiv A h (num_of 2))) in
    let f3 := f (nadd A x (nmul A (ratio 3 4) h)) in
    let f4 := f (nadd A x h) in
    let r2 := nmul A (num_of 2) (nsub A f4 f2) in
    let r4 := nadd A (nsub A (nmul A (ratio 22 3) (nsub A f4 f3)) (nmul A (ratio 62 3) (nsub A f3 f2)))
                     (nmul A (ratio 52 3) (nsub A f2 f1)) in
    let e4 := nmul A (nmul A (nmul A (num_of 2) (ratio 2067 100))
                (nadd A (nadd A (nadd A (nabs A f4) (nabs A f3)) (nabs A f2)) (nabs A f1))) (neps A) in
    let dy := nmul A (nmul A (larger (nabs A (ndiv A r2 h)) (nabs A (ndiv A r4 h)))
                              (nabs A (ndiv A x h))) (neps A) in
    (ndiv A r4 h, nadd A (nabs A (ndiv A e4 h)) dy, nabs A (ndiv A (nsub A r4 r2) h)).

  (** [gsl_deriv_forward] (GSL deriv/deriv.c; called at functions.cpp 134). *)
  Definition gsl_forward (h : A) (f : A -> A) (x : A) : A :=
    better (forward_deriv f x) h (fun round trunc => power (ndiv A round trunc) (ratio 1 2)).

  (** [gsl_deriv_backward]: forward with the opposite step (GSL deriv/deriv.c; called at
      functions.cpp 135). *)
  Definition gsl_backward (h : A) (f : A -> A) (x : A) : A :=
    gsl_forward (nsub A (num_of 0) h) f x.

  (** [DerivativeAt] (functions.cpp 133-135; relationships.cpp 147-149). *)
  Definition derivative_at (h : A) (f : A -> A) (x : A) : A :=
    let d := gsl_central h f x in
    let d := if nisnan A d then gsl_forward h f x else d in
    if nisnan A d then gsl_backward h f x else d.
End Deriv.

(** The step [1E-8] in binary64 (functions.cpp 133). *)
Definition step64 : F64 := S754_finite false 6044629098073146 (-79).

(** Without rounding (functions.cpp 133-135). *)
Definition gsl_derivs (h : er) : derivs :=
  Derivs (gsl_central ER er_pow h) (gsl_forward ER er_pow h) (gsl_backward ER er_pow h).

(** [EDP::DerivativeAt] (relationships.cpp 208-234), of the rate at which each demand is
    exceeded. *)
Definition edp_derivative (h : er) (rate : er -> er) (x : er) : er := gsl_forward ER er_pow h rate x.
