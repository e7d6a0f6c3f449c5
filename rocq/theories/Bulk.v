(** * Lists of arguments
    (/repo/src/pyslat.py:623-668, 770-822; pyslatcore.i:73-110; pyslatcore.cpp:300-460;
    relationships.cpp:61-104)

    Methods of the Python classes [im] and [edp] that take a number or a list.  Numbers are
    of any type.  The single values are functions ([EDP::lambda] is cached: C82). *)
From Coq Require Import List Bool Arith.
Import ListNotations.

Section Bulk.
  Context {T : Type}.
  Variable zero : T.

  (** pyslat.py: im 623, 632, 641, 663; edp 770, 779, 788, 797, 806, 817. *)
  Inductive method : Type :=
  | ImLambda | ImRepair | ImCollapse | ImDemolition
  | EdpMean | EdpMeanLn | EdpMedian | EdpSDln | EdpSD | EdpLambda.

  (** Functions of the bindings. pyslatcore.i 76-87, 96-109. *)
  Inductive native : Type :=
  | NImLambda | NImRepair | NImCollapse | NImDemolition | NEdpLambda
  | NMean | NMeanLn | NMedian | NSDln | NSD
  | NBulkMean | NBulkMeanLn | NBulkMedian | NBulkSDln | NBulkSD.

  (** What the C++ objects compute for a number. relationships.cpp 61, 120-155, 236-305. *)
  Inductive quantity : Type :=
  | QImLambda | QRepair | QCollapse | QDemolition | QEdpLambda
  | QMean | QMeanLn | QMedian | QSDln | QSD.
  Variable value : quantity -> T -> T.

  (** Python values, as far as they matter here. pyslat.py 624, pyslatcore.i 8-12. *)
  Inductive py : Type := Num (x : T) | PyList (xs : list T) | PyTuple (xs : list T).
  (** Returned, or raised (for overloaded functions some versions of SWIG raise
      NotImplementedError instead; not told apart). pyslatcore.i 73-110. *)
  Inductive result : Type := Ok (r : py) | TypeError.

  (** The declared overloads that take a number, and what they return.
      pyslatcore.i 76-103; pyslatcore.cpp 313, 329, 351, 366, 388, 409-432. *)
  Definition takes_number (n : native) : option quantity :=
    match n with
    | NImLambda => Some QImLambda
    | NImRepair => Some QRepair
    | NImCollapse => Some QCollapse
    | NImDemolition => Some QDemolition
    | NEdpLambda => Some QEdpLambda
    | NMean => Some QMean
    | NMeanLn => Some QMeanLn
    | NMedian => Some QMedian
    | NSDln => Some QSDln
    | NSD => Some QSD
    | NBulkMean | NBulkMeanLn | NBulkMedian | NBulkSDln | NBulkSD => None
    end.

  (** Those that take a vector, and what the body of their loop computes.
      pyslatcore.i 77-87, 97, 105-109; relationships.cpp 66-104; pyslatcore.cpp 393-491. *)
  Definition takes_vector (n : native) : option quantity :=
    match n with
    | NImLambda => Some QImLambda
    | NImRepair => Some QRepair
    | NImCollapse => Some QCollapse
    | NImDemolition => Some QDemolition
    | NEdpLambda => Some QEdpLambda
    | NBulkMean => Some QMean
    | NBulkMeanLn => Some QMeanLn
    | NBulkMedian => Some QMedian
    | NBulkSDln => Some QSDln
    | NBulkSD => Some QSD
    | NMean | NMeanLn | NMedian | NSDln | NSD => None
    end.

  (** [result[i] = g(x[i])]. relationships.cpp 71. *)
  Fixpoint store (i : nat) (y : T) (l : list T) : list T :=
    match l with
    | [] => []
    | z :: rest => match i with 0 => y :: rest | S i => z :: store i y rest end
    end.

  (** The iterations of a parallel loop, in the order in which they store their results.
      relationships.cpp 68-73; pyslatcore.cpp 395-400. *)
  Definition loop (order : list nat) (g : T -> T) (xs : list T) : list T :=
    fold_left (fun acc i => store i (g (nth i xs zero)) acc) order (repeat zero (length xs)).

  (** A call from Python: SWIG looks for an overload that takes the argument; both lists and
      tuples of numbers are vectors, and vectors come back as tuples (SWIG's std_vector.i,
      not in /repo). pyslatcore.i 8-12. *)
  Definition call (order : list nat) (n : native) (a : py) : result :=
    match a with
    | Num x => match takes_number n with Some q => Ok (Num (value q x)) | None => TypeError end
    | PyList xs | PyTuple xs =>
        match takes_vector n with
        | Some q => Ok (PyTuple (loop order (value q) xs))
        | None => TypeError
        end
    end.

  (** Python's [list(...)] of the result; a number is not iterable.  pyslat.py 625. *)
  Definition to_list (r : result) : result :=
    match r with
    | Ok (PyTuple xs) | Ok (PyList xs) => Ok (PyList xs)
    | Ok (Num _) => TypeError
    | TypeError => TypeError
    end.

  (** What is called for lists. pyslat.py 625, 634, 643, 665, 772, 781, 790, 799, 808, 819. *)
  Definition for_list (m : method) : native :=
    match m with
    | ImLambda => NImLambda | ImRepair => NImRepair | ImCollapse => NImCollapse
    | ImDemolition => NImDemolition
    | EdpMean => NBulkMean | EdpMeanLn => NMeanLn | EdpMedian => NMedian
    | EdpSDln => NBulkSDln | EdpSD => NSD | EdpLambda => NEdpLambda
    end.
  (** For anything else. pyslat.py 627, 636, 645, 667, 774, 783, 792, 801, 810, 821. *)
  Definition for_other (m : method) : native :=
    match m with
    | ImLambda => NImLambda | ImRepair => NImRepair | ImCollapse => NImCollapse
    | ImDemolition => NImDemolition
    | EdpMean => NMean | EdpMeanLn => NMeanLn | EdpMedian => NMedian
    | EdpSDln => NSDln | EdpSD => NSD | EdpLambda => NEdpLambda
    end.

  (** The methods. pyslat.py 623-668, 770-822. *)
  Definition ask (order : list nat) (m : method) (a : py) : result :=
    match a with
    | PyList _ => to_list (call order (for_list m) a)
    | _ => call order (for_other m) a
    end.
End Bulk.

Arguments Num {T}.
Arguments PyList {T}.
Arguments PyTuple {T}.
Arguments Ok {T}.
Arguments TypeError {T}.
