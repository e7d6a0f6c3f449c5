(** * Probabilistic functions in double precision (src/functions.cpp 312-403;
    src/lognormaldist.cpp 134-166)

    [LogNormalFn] as in [Functions.v], but with the operations of IEEE binary64. The logarithm and
    the exponential of the C library are arguments; so are the values of its two functions at the
    argument in question. Refused kinds of parameters (functions.cpp 338-340, 358-360) are left
    out. *)
From Coq Require Import ZArith Floats.SpecFloat.
From Verif Require Import Num Lognormal Functions Totals Spread.

Section Lib.
  Variables log exp : F64 -> F64.

  (** A call of a member set by the constructor (functions.cpp 316-361), where the two functions
      have the values [mu] and [sigma]. [None]: out of fuel; the members call each other, and the
      C++ program uses its stack for it. *)
  Fixpoint member_of (fuel : nat) (mt : mu_type) (st : sigma_type) (mu sigma : F64) (m : member) : option F64 :=
    match fuel with
    | O => None
    | S fuel =>
        let call := member_of fuel mt st mu sigma in
        let half s := ndiv F64 (nmul F64 s s) (nofZ F64 2) in
        let mean_from_ln :=
          match call M_mean_lnX, call M_sigma_lnX with
          | Some a, Some s => Some (exp (nadd F64 a (half s)))
          | _, _ => None
          end in
        match m with
        | M_mean_lnX =>
            match mt with
            | MEAN_LN_X => Some mu
            | MEAN_X => match call M_mean_X, call M_sigma_lnX with
                        | Some a, Some s => Some (nsub F64 (log a) (half s))
                        | _, _ => None
                        end
            | MEDIAN_X => option_map log (call M_median_X)
            end
        | M_median_X => match mt with MEDIAN_X => Some mu | _ => option_map exp (call M_mean_lnX) end
        | M_mean_X => match mt with MEAN_X => Some mu | _ => mean_from_ln end
        | M_sigma_lnX =>
            match st with
            | SD_LN_X => Some sigma
            | SD_X => match call M_sigma_X, call M_mean_X with
                      | Some sd, Some mean =>
                          Some (root (log (nadd F64 (nofZ F64 1) (ndiv F64 (nmul F64 sd sd) (nmul F64 mean mean)))))
                      | _, _ => None
                      end
            end
        | M_sigma_X =>
            match st with
            | SD_X => Some sigma
            | SD_LN_X => match call M_mean_X, call M_sigma_lnX with
                         | Some a, Some s => Some (nmul F64 a (root (nsub F64 (exp (nmul F64 s s)) (nofZ F64 1))))
                         | _, _ => None
                         end
            end
        end
    end.

  (** [LogNormalFn::distribution] (functions.cpp 399-403): [mu_lnX] and [sigma_lnX]. *)
  Definition dist_at (fuel : nat) (mt : mu_type) (st : sigma_type) (mu sigma : F64) : option (F64 * F64) :=
    match member_of fuel mt st mu sigma M_mean_lnX, member_of fuel mt st mu sigma M_sigma_lnX with
    | Some a, Some s => Some (a, s)
    | _, _ => None
    end.

  (** [LogNormalFn::MeanLn] and [SD_ln] (functions.cpp 379-382, 389-392; lognormaldist.cpp 134-137,
      153-156). *)
  Definition fn_mean_ln fuel mt st mu sigma : option F64 := option_map fst (dist_at fuel mt st mu sigma).
  (** As above. functions.cpp 389-392. *)
  Definition fn_sd_ln fuel mt st mu sigma : option F64 := option_map snd (dist_at fuel mt st mu sigma).
  (** [LogNormalFn::Mean] (functions.cpp 374-377; lognormaldist.cpp 144-151). *)
  Definition fn_mean fuel mt st mu sigma : option F64 := option_map (mean_of exp) (dist_at fuel mt st mu sigma).
  (** [LogNormalFn::Median] (functions.cpp 384-387; lognormaldist.cpp 139-142). *)
  Definition fn_median fuel mt st mu sigma : option F64 := option_map (fun d => exp (fst d)) (dist_at fuel mt st mu sigma).
  (** [LogNormalFn::SD] (functions.cpp 394-397; lognormaldist.cpp 158-166). *)
  Definition fn_sd fuel mt st mu sigma : option F64 := option_map (sd_of exp) (dist_at fuel mt st mu sigma).
End Lib.
