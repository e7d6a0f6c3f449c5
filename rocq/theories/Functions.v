(** * Deterministic and probabilistic functions

    Source: /repo/src/functions.cpp, functions.h, and the factories of
    pyslatcore.cpp.  Exact arithmetic as in [Lognormal.v].  The interpolation of
    the GSL (interpolation/linear.c, accel.c, bsearch.c, interp.c) is modelled with
    its accelerator.  Callbacks are in [Graph.v]; the numerical derivative
    (functions.cpp 109-138) in [Deriv.v]. *)
From Coq Require Import Reals List Bool Arith.
From Verif Require Import Num ER ERmath Lognormal Damage.
Import ListNotations.
Local Open Scope R_scope.

(** ** Formulas *)

(** [NonLinearHyperbolicLaw::Evaluate] (functions.cpp 151-158). *)
Definition hyperbolic (v_asy im_asy alpha x : er) : er :=
  if er_leb im_asy x then Fin 0
  else er_mul v_asy (er_exp (er_div alpha (er_log (er_div x im_asy)))).

(** [pow] of the C library (used at functions.cpp 169), without rounding, for a
    base that is not negative; for negative or infinite bases and infinite
    exponents, where C has further cases, simplified to not a number. *)
Definition er_pow (a b : er) : er :=
  match a, b with
  | Fin x, Fin y =>
      if Rltb 0 x then Fin (Rpower x y)
      else if Reqb x 0 then (if Rltb 0 y then Fin 0 else if Reqb y 0 then Fin 1 else PInf)
      else NaN
  | _, _ => NaN
  end.

(** [PowerLawParametricCurve::Evaluate] (functions.cpp 167-170). *)
Definition power_law (a b x : er) : er := er_mul a (er_pow x b).

(** ** Interpolation *)

(** [gsl_interp_bsearch] (GSL interpolation/bsearch.c; used through
    functions.cpp 224, 273).  [None]: out of fuel. *)
Fixpoint bsearch (fuel : nat) (xs : list er) (x : er) (lo hi : nat) : option nat :=
  match fuel with
  | O => None
  | S fuel =>
      if (S lo <? hi)%nat then
        let i := ((hi + lo) / 2)%nat in
        if er_ltb x (nth i xs NaN) then bsearch fuel xs x lo i else bsearch fuel xs x i hi
      else Some lo
  end.

(** The part of [gsl_interp_accel_find] (GSL interpolation/accel.c) after
    reading the remembered index: [Some None] if it still applies, [Some (Some i)]
    if the index is to be changed to [i].  Counters are left out.
    Called from functions.cpp 224, 273. *)
Definition accel_search (xs : list er) (x : er) (cache : nat) : option (option nat) :=
  if er_ltb x (nth cache xs NaN) then option_map Some (bsearch (length xs) xs x 0 cache)
  else if er_leb (nth (S cache) xs NaN) x then option_map Some (bsearch (length xs) xs x cache (length xs - 1))
  else Some None.

(** [gsl_interp_accel_find], undisturbed: the new index.
    Called from functions.cpp 224, 273. *)
Definition accel_find (xs : list er) (x : er) (cache : nat) : option nat :=
  match accel_search xs x cache with
  | None => None
  | Some None => Some cache
  | Some (Some i) => Some i
  end.

(** The formula of [linear_eval] (GSL interpolation/linear.c) at an index.
    Called from functions.cpp 224, 273. *)
Definition segment (xs ys : list er) (x : er) (i : nat) : er :=
  let x_lo := nth i xs NaN in
  let x_hi := nth (S i) xs NaN in
  let y_lo := nth i ys NaN in
  let y_hi := nth (S i) ys NaN in
  let dx := er_sub x_hi x_lo in
  if er_ltb (Fin 0) dx then er_add y_lo (er_mul (er_div (er_sub x x_lo) dx) (er_sub y_hi y_lo))
  else Fin 0.

(** [gsl_spline_eval_e] (GSL interpolation/interp.c and linear.c; called at
    functions.cpp 224, 273): value and new index.  Out of range, where SLAT does
    not call it, the index is not touched. *)
Definition spline_eval (xs ys : list er) (x : er) (cache : nat) : option (er * nat) :=
  if er_ltb x (nth 0 xs NaN) || er_ltb (nth (length xs - 1) xs NaN) x then Some (NaN, cache)
  else match accel_find xs x cache with
       | None => None
       | Some i => Some (segment xs ys x i, i)
       end.

(** A table as [InterpolatedFn] keeps it (functions.h 195-196), with the points
    handed to the GSL. *)
Record table := Table { tx : list er; ty : list er; gx : list er; gy : list er }.

(** The test of [gsl_interp_init] (GSL interpolation/interp.c): points not
    strictly increasing are an error, and the GSL's error handler, which SLAT does
    not replace, ends the program. Called from functions.cpp 177-200. *)
Fixpoint increasing (xs : list er) : bool :=
  match xs with
  | a :: (b :: _) as r => er_ltb a b && increasing r
  | _ => true
  end.

(** [LinearInterpolatedFn] (functions.cpp 177-200); [None]: program ended. *)
Definition new_linear (xs ys : list er) : option table :=
  if increasing xs then Some (Table xs ys xs ys) else None.

(** [LogLogInterpolatedFn] (functions.cpp 234-248). *)
Definition new_loglog (xs ys : list er) : option table :=
  let lx := map er_log xs in
  let ly := map er_log ys in
  if increasing lx then Some (Table xs ys lx ly) else None.

(** Clipping (functions.cpp 217-222, 268-271). *)
Definition clip (t : table) (x : er) : option er :=
  if er_ltb x (nth 0 (tx t) NaN) then Some (nth 0 (ty t) NaN)
  else if er_ltb (nth (length (tx t) - 1) (tx t) NaN) x then Some (nth (length (tx t) - 1) (ty t) NaN)
  else None.

(** [LinearInterpolatedFn::Evaluate] (functions.cpp 213-227) from an
    accelerator state: value and new state. *)
Definition linear (t : table) (x : er) (cache : nat) : option (er * nat) :=
  match clip t x with
  | Some y => Some (y, cache)
  | None => spline_eval (gx t) (gy t) x cache
  end.

(** [LogLogInterpolatedFn::Evaluate] (functions.cpp 265-278). *)
Definition loglog (t : table) (x : er) (cache : nat) : option (er * nat) :=
  match clip t x with
  | Some y => Some (y, cache)
  | None => match spline_eval (gx t) (gy t) (er_log x) cache with
            | Some (y, i) => Some (er_exp y, i)
            | None => None
            end
  end.

(** Evaluation at one point after another (functions.cpp 213-227; the
    accelerator starts at zero, GSL interpolation/accel.c). *)
Fixpoint evaluate_all (eval : er -> nat -> option (er * nat)) (ins : list er) (cache : nat) : option (list er) :=
  match ins with
  | [] => Some []
  | x :: r => match eval x cache with
              | None => None
              | Some (y, i) => option_map (cons y) (evaluate_all eval r i)
              end
  end.

(** ** Evaluation by several threads *)

(** Where a thread is in [gsl_interp_accel_find] (GSL interpolation/accel.c),
    called without a lock from the parallel loop of relationships.cpp 69-72: before
    reading the index, about to store one, about to read it again for its return
    value, returned. *)
Inductive at_point := Begin | Store (i : nat) | Reload | Found (i : nat).

(** One thread: its argument and where it is (relationships.cpp 71). *)
Record evaluator := Evaluator { arg : er; point : at_point }.

(** A step of one thread (GSL interpolation/accel.c): the new index and
    place. Called from functions.cpp 224, 273. *)
Definition advance (xs : list er) (e : evaluator) (cache : nat) : option (nat * evaluator) :=
  match point e with
  | Begin => match accel_search xs (arg e) cache with
             | None => None
             | Some None => Some (cache, Evaluator (arg e) Reload)
             | Some (Some i) => Some (cache, Evaluator (arg e) (Store i))
             end
  | Store i => Some (i, Evaluator (arg e) Reload)
  | Reload => Some (cache, Evaluator (arg e) (Found cache))
  | Found i => Some (cache, e)
  end.

(** Threads taking steps in the order [sched] (relationships.cpp 69-72). *)
Fixpoint interleave (xs : list er) (sched : list nat) (es : list evaluator) (cache : nat) :
    option (list evaluator * nat) :=
  match sched with
  | [] => Some (es, cache)
  | k :: r =>
      match nth_error es k with
      | None => interleave xs r es cache
      | Some e => match advance xs e cache with
                  | None => None
                  | Some (c, e') => interleave xs r (set_nth k e' es) c
                  end
      end
  end.

(** The threads of a parallel evaluation at the points [ins], all within the
    table (relationships.cpp 69-72). *)
Definition threads_at (ins : list er) : list evaluator := map (fun x => Evaluator x Begin) ins.

(** What a thread that has its index returns (GSL interpolation/linear.c).
    Called from functions.cpp 224, 273. *)
Definition outcome_of (xs ys : list er) (e : evaluator) : option er :=
  match point e with Found i => Some (segment xs ys (arg e) i) | _ => None end.

(** ** Lognormal functions *)

(** The three ways to give a location and the two to give a spread
    ([LogNormalFn::M_TYPE], [S_TYPE], functions.h; the others are refused,
    functions.cpp 338-340, 358-360).  As [mu_type] and [sigma_type], of the same
    meaning (pyslatcore.cpp 217-240).

    The members set by the constructor (functions.cpp 316-361). *)
Inductive member := M_mean_lnX | M_median_X | M_mean_X | M_sigma_lnX | M_sigma_X.

(** A call of a member at one input, where the two functions have the values
    [mu] and [sigma] (functions.cpp 316-361).  [None]: out of fuel; the members call
    each other, and the C++ program uses its stack for it. *)
Fixpoint member_at (fuel : nat) (mt : mu_type) (st : sigma_type) (mu sigma : er) (m : member) : option er :=
  match fuel with
  | O => None
  | S fuel =>
      let call := member_at fuel mt st mu sigma in
      let mean_from_ln :=
        match call M_mean_lnX, call M_sigma_lnX with
        | Some a, Some s => Some (er_exp (er_add a (er_div (er_mul s s) (Fin 2))))
        | _, _ => None
        end in
      match m with
      | M_mean_lnX =>
          match mt with
          | MEAN_LN_X => Some mu
          | MEAN_X => match call M_mean_X, call M_sigma_lnX with
                      | Some a, Some s => Some (er_sub (er_log a) (er_div (er_mul s s) (Fin 2)))
                      | _, _ => None
                      end
          | MEDIAN_X => option_map er_log (call M_median_X)
          end
      | M_median_X => match mt with MEDIAN_X => Some mu | _ => option_map er_exp (call M_mean_lnX) end
      | M_mean_X => match mt with MEAN_X => Some mu | _ => mean_from_ln end
      | M_sigma_lnX =>
          match st with
          | SD_LN_X => Some sigma
          | SD_X => match call M_sigma_X, call M_mean_X with
                    | Some sd, Some mean =>
                        Some (er_sqrt (er_log (er_add (Fin 1) (er_div (er_mul sd sd) (er_mul mean mean)))))
                    | _, _ => None
                    end
          end
      | M_sigma_X =>
          match st with
          | SD_X => Some sigma
          | SD_LN_X => match call M_mean_X, call M_sigma_lnX with
                       | Some a, Some s => Some (er_mul a (er_sqrt (er_sub (er_exp (er_mul s s)) (Fin 1))))
                       | _, _ => None
                       end
          end
      end
  end.

(** [LogNormalFn::distribution] (functions.cpp 399-403). *)
Definition distribution (fuel : nat) (mt : mu_type) (st : sigma_type) (mu sigma : er) : option lnd :=
  match member_at fuel mt st mu sigma M_mean_lnX, member_at fuel mt st mu sigma M_sigma_lnX with
  | Some a, Some s => Some (from_mu_sdln a s)
  | _, _ => None
  end.

(** ** Factories *)

(** [FUNCTION_TYPE] (pyslatcore.h; pyslatcore.cpp 107-132, 146-171). *)
Inductive function_type := PLC | NLH | LIN | LOGLOG.

(** What the factories make: a function, or a wrapper around a null pointer
    (pyslatcore.cpp 105, 134, 139, 172). *)
Inductive made := Formula (t : function_type) (params : list er) | Tabulated (t : function_type) (tab : table) | NullFunction.

(** [factory2] (pyslatcore.cpp 137-173): reading past the end of the parameters
    is undefined. *)
Definition factory2 (t : function_type) (params : list er) : outcome made :=
  match t with
  | PLC => match params with a :: b :: _ => Returns (Formula PLC [a; b]) | _ => Undefined end
  | NLH => match params with a :: b :: c :: _ => Returns (Formula NLH [a; b; c]) | _ => Undefined end
  | LIN | LOGLOG => Returns NullFunction
  end.

(** What ends the program is counted as [Undefined]: the caller gets neither a
    function nor an exception (pyslatcore.cpp 120, 129). *)
Definition tabulated (t : function_type) (o : option table) : outcome made :=
  match o with Some tab => Returns (Tabulated t tab) | None => Undefined end.

(** [factory3] (pyslatcore.cpp 103-135). *)
Definition factory3 (t : function_type) (x y : list er) : outcome made :=
  match t with
  | PLC | NLH => Returns NullFunction
  | LIN => if (length x <? 2)%nat || negb (length x =? length y)%nat then Returns NullFunction
           else tabulated LIN (new_linear x y)
  | LOGLOG => if (length x <? 2)%nat || negb (length x =? length y)%nat then Returns NullFunction
              else tabulated LOGLOG (new_loglog x y)
  end.

(** [DeterministicFn::ValueAt] of the wrapper (pyslatcore.cpp 98-101,
    functions.cpp 75-87): calling through a null pointer is undefined.  The last case
    does not arise: [factory2] sets the number of parameters. *)
Definition value_at (f : made) (x : er) (cache : nat) : outcome er :=
  match f with
  | NullFunction => Undefined
  | Formula NLH [alpha; im_asy; v_asy] => Returns (hyperbolic v_asy im_asy alpha x)
  | Formula PLC [a; b] => Returns (power_law a b x)
  | Formula _ _ => Undefined
  | Tabulated LOGLOG tab => match loglog tab x cache with Some (y, _) => Returns y | None => Undefined end
  | Tabulated _ tab => match linear tab x cache with Some (y, _) => Returns y | None => Undefined end
  end.

(** The parameters of the Python class [detfn] (pyslat.py 377): a list of
    numbers or of lists. *)
Inductive parameters := Numbers (l : list er) | Lists (l : list (list er)).

(** The constructor of [detfn] (pyslat.py 377-399).  Python and the conversion
    of its arguments to vectors raise an error for a missing element or one of the
    wrong kind. *)
Definition detfn (t : function_type) (p : parameters) : outcome made :=
  match t, p with
  | (LOGLOG | LIN), Lists (x :: y :: _) => factory3 t x y
  | (PLC | NLH), Numbers l => factory2 t l
  | _, _ => Throws
  end.
