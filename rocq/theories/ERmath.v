(** * Elementary functions on the extended reals

    What the C library and the GSL compute, without rounding, on the values of
    [ER.v].  As there: no overflow or underflow, one zero. *)
From Coq Require Import Reals Bool.
From Verif Require Import Num ER.
Local Open Scope R_scope.

(** [exp] (used in /repo/src/lognormaldist.cpp 23, 141, 150, 163,
    structure.cpp 160, functions.cpp 151-168). *)
Definition er_exp (a : er) : er :=
  match a with NaN => NaN | PInf => PInf | MInf => Fin 0 | Fin x => Fin (exp x) end.

(** [log] (used in /repo/src/lognormaldist.cpp 28, 36, 69, functions.cpp
    151-158, 234-278). *)
Definition er_log (a : er) : er :=
  match a with
  | NaN | MInf => NaN
  | PInf => PInf
  | Fin x => if Rltb x 0 then NaN else if Reqb x 0 then MInf else Fin (ln x)
  end.

(** [sqrt] (used in /repo/src/lognormaldist.cpp 36, 163, 188, 230). *)
Definition er_sqrt (a : er) : er :=
  match a with
  | NaN | MInf => NaN
  | PInf => PInf
  | Fin x => if Rltb x 0 then NaN else Fin (sqrt x)
  end.

(** The standard normal distribution function and its inverse, which the GSL
    approximates.  They are left open; [normal_ok] (Lognormal_spec.v) says what is
    assumed of them, and [gauss_ok] (Gauss_proofs.v) that the normal distribution
    satisfies it. The functions are reached from lognormaldist.cpp 96, 113, 125. *)
Record normal := Normal { cdf : R -> R; quantile : R -> R }.

(** [gsl_cdf_ugaussian_P] and [_Q] (called by the lognormal functions below,
    GSL cdf/gauss.c). Reached from lognormaldist.cpp 113. *)
Definition gsl_P (N : normal) (u : er) : er :=
  match u with NaN => NaN | PInf => Fin 1 | MInf => Fin 0 | Fin x => Fin (cdf N x) end.
(** The complementary function; exactly the complement, as rounding is left
    out. Reached from lognormaldist.cpp 96. *)
Definition gsl_Q (N : normal) (u : er) : er :=
  match u with NaN => NaN | PInf => Fin 0 | MInf => Fin 1 | Fin x => Fin (1 - cdf N x) end.

(** [gsl_cdf_ugaussian_Pinv] (GSL cdf/gaussinv.c): not a number outside
    [0,1]. Reached from lognormaldist.cpp 125. *)
Definition gsl_Pinv (N : normal) (p : er) : er :=
  match p with
  | NaN | PInf | MInf => NaN
  | Fin p =>
      if Reqb p 1 then PInf else if Reqb p 0 then MInf
      else if Rltb p 0 || Rltb 1 p then NaN else Fin (quantile N p)
  end.

(** [gsl_cdf_lognormal_P(x, zeta, sigma)] (GSL cdf/lognormal.c; called at
    /repo/src/lognormaldist.cpp 113). *)
Definition gsl_lognormal_P (N : normal) (x zeta sigma : er) : er :=
  gsl_P N (er_div (er_sub (er_log x) zeta) sigma).

(** [gsl_cdf_lognormal_Q] (GSL cdf/lognormal.c; called at
    /repo/src/lognormaldist.cpp 96). *)
Definition gsl_lognormal_Q (N : normal) (x zeta sigma : er) : er :=
  gsl_Q N (er_div (er_sub (er_log x) zeta) sigma).

(** [gsl_cdf_lognormal_Pinv] (GSL cdf/lognormalinv.c; called at
    /repo/src/lognormaldist.cpp 125). *)
Definition gsl_lognormal_Pinv (N : normal) (p zeta sigma : er) : er :=
  if er_eqb p (Fin 1) then PInf
  else if er_eqb p (Fin 0) then Fin 0
  else er_exp (er_add zeta (er_mul sigma (gsl_Pinv N p))).
