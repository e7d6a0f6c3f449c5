(** * Importing functions from files

    Source: ImportProbFn and ImportIMFn (/repo/src/pyslat.py 1960-2007), which read
    tables of numbers written by the original SLAT.  Exact arithmetic as in
    [Lognormal.v].  The two lines at the top of a file, the reading of numbers from
    their text and the search for the file (C63 has its path) are left out: a file is
    the list of its rows of numbers. *)
From Coq Require Import Reals List Bool Arith.
From Verif Require Import Num ER ERmath Lognormal Damage Functions.
Import ListNotations.
Local Open Scope R_scope.

(** np.loadtxt (NumPy lib/npyio.py; called at pyslat.py 1962, 2000) and taking
    the first element of each row (pyslat.py 1968-1969, 2003-2004): rows of different
    lengths are an error; the array of a single row or a single column has only one
    dimension, so that its elements, being numbers, have no first element. *)
Definition load (rows : list (list er)) : outcome (list (list er)) :=
  match rows with
  | [] => Returns []
  | [_] => Throws
  | r :: _ =>
      if forallb (fun s => (length s =? length r)%nat) rows && (2 <=? length r)%nat then Returns rows else Throws
  end.

(** The inner loop (pyslat.py 1970-1976): logarithms of values other than zero;
    math.log raises an exception for negative numbers.  [collapse], whose only use is
    in the list [C] that is not read, is left out. *)
Fixpoint ln_values (ys : list er) : outcome (list er) :=
  match ys with
  | [] => Returns []
  | y :: r =>
      if er_eqb y (Fin 0) then ln_values r
      else if er_ltb y (Fin 0) then Throws
      else bind (ln_values r) (fun l => Returns (er_log y :: l))
  end.

(** Sum of an array (within np.mean and np.std, pyslat.py 1977-1978). *)
Definition np_sum (l : list er) : er := fold_right er_add (Fin 0) l.

(** np.mean (pyslat.py 1977); not a number without elements. *)
Definition np_mean (l : list er) : er := er_div (np_sum l) (Fin (INR (length l))).

(** np.std with ddof=1 (pyslat.py 1978): the divisor is at least zero. *)
Definition np_std (l : list er) : er :=
  let m := np_mean l in
  er_sqrt (er_div (np_sum (map (fun v => er_mul (er_sub v m) (er_sub v m)) l)) (Fin (INR (length l - 1)))).

(** One turn of the loop (pyslat.py 1968-1979): what is appended to [x], [mu] and
    [sigma].  The first case does not arise after [load]. *)
Definition import_row (d : list er) : outcome (er * er * er) :=
  match d with
  | [] => Throws
  | x :: ys => bind (ln_values ys) (fun l => Returns (x, er_exp (np_mean l), np_std l))
  end.

(** The loop (pyslat.py 1968-1979). *)
Fixpoint import_rows (rows : list (list er)) : outcome (list (er * er * er)) :=
  match rows with
  | [] => Returns []
  | d :: r => bind (import_row d) (fun t => bind (import_rows r) (fun l => Returns (t :: l)))
  end.

(** A function handed to another object: without one, calling a method through
    the null pointer is undefined (functions.cpp 285-299, relationships.cpp 39-59). *)
Definition given (f : made) : outcome made :=
  match f with NullFunction => Undefined | _ => Returns f end.

(** ImportProbFn (pyslat.py 1960-1990): the functions for the median and the
    dispersion. *)
Definition import_probfn (file : list (list er)) : outcome (made * made) :=
  bind (load file) (fun data =>
  bind (import_rows data) (fun l =>
  let x := Fin 0 :: map (fun t => fst (fst t)) l in
  let mu := Fin 0 :: map (fun t => snd (fst t)) l in
  let sigma := Fin 0 :: map snd l in
  bind (detfn LIN (Lists [x; mu])) (fun mu_func =>
  bind (detfn LIN (Lists [x; sigma])) (fun sigma_func =>
  bind (given mu_func) (fun mu_func =>
  bind (given sigma_func) (fun sigma_func =>
  Returns (mu_func, sigma_func))))))).

(** The distribution of an imported function at [x] (functions.cpp 399-403, with
    LOGNORMAL_MU_TYPE.MEDIAN_X and LOGNORMAL_SIGMA_TYPE.SD_LN_X, pyslat.py
    1988-1990), from the states [i] and [j] of the two accelerators. *)
Definition imported_at (f : made * made) (x : er) (i j : nat) : outcome lnd :=
  bind (value_at (fst f) x i) (fun mu =>
  bind (value_at (snd f) x j) (fun sigma =>
  match distribution 3 MEDIAN_X SD_LN_X mu sigma with Some d => Returns d | None => Undefined end)).

(** ImportIMFn (pyslat.py 1998-2007): the curve of the intensity measure.  The
    case of a row without a second element does not arise after [load]. *)
Definition import_imfn (file : list (list er)) : outcome made :=
  bind (load file) (fun data =>
  bind (detfn LOGLOG (Lists [map (fun d => nth 0 d NaN) data; map (fun d => nth 1 d NaN) data])) given).
