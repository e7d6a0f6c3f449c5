(** * The report on integrations (src/maq.cpp 43-90; src/maq.h 86-111; src/pyslatcore.cpp
    914-923; src/pyslat.py 284-288)

    [Format_Statistics] writes the settings in force and the counters into a text.  The
    settings are kept beside the counters, and renewed when a report is asked for.

    Simplifications: one thread; texts are lists of characters, as a stream in the C locale
    writes them. *)
From Coq Require Import List ZArith Bool Ascii String Floats.SpecFloat.
From Verif Require Import Num Maq.
Import ListNotations.
Local Open Scope Z_scope.
Local Open Scope list_scope.

(** ** Numbers *)

(** The character of a digit ([operator<<] of integers, maq.cpp 77-89). *)
Definition digit (d : Z) : ascii := ascii_of_nat (48 + Z.to_nat d).

(** The digits of a number that is not negative ([operator<<] of [unsigned int] and
    [unsigned long], maq.cpp 78-89). *)
Fixpoint digits (fuel : nat) (n : Z) : list Z :=
  match fuel with
  | O => []
  | S k => if n <? 10 then [n] else digits k (n / 10) ++ [n mod 10]
  end.

(** Written in decimal (maq.cpp 78-89). *)
Definition unsigned (n : Z) : list ascii := map digit (digits (S (Z.to_nat (Z.log2 n))) n).

(** Whether [p / q] is at least [10^x]; part of [general]
    (maq.cpp 77). *)
Definition at_least (p q x : Z) : bool :=
  if 0 <=? x then q * 10 ^ x <=? p else q <=? p * 10 ^ (- x).

(** The exponent of the first digit of [p / q], looked for from [x] downwards; part of
    [general] (maq.cpp 77). *)
Fixpoint exponent (fuel : nat) (p q x : Z) : Z :=
  match fuel with
  | O => x
  | S k => if at_least p q x then x else exponent k p q (x - 1)
  end.

(** [p / q] rounded to an integer, half to even; part of [general] (maq.cpp 77). *)
Definition nearest (p q : Z) : Z :=
  let d := p / q in
  let r := 2 * (p mod q) in
  if r <? q then d else if q <? r then d + 1 else if Z.even d then d else d + 1.

(** [p / q * 10^k], rounded; part of [general]
    (maq.cpp 77). *)
Definition scaled (p q k : Z) : Z :=
  if 0 <=? k then nearest (p * 10 ^ k) q else nearest p (q * 10 ^ (- k)).

(** The six digits of a number below a million; part of [general] (maq.cpp 77). *)
Definition six (d : Z) : list Z :=
  [d / 100000; d / 10000 mod 10; d / 1000 mod 10; d / 100 mod 10; d / 10 mod 10; d mod 10].

(** Without the zeros at the end, but for the first digit; part of [general] (maq.cpp 77). *)
Fixpoint trimmed (l : list Z) : list Z :=
  match l with
  | [] => []
  | d :: r => match trimmed r with [] => if d =? 0 then [] else [d] | r' => d :: r' end
  end.

(** Digits, with a point if there are any after it; part of [general] (maq.cpp 77). *)
Definition pointed (a b : list Z) : list ascii :=
  map digit a ++ match b with [] => [] | _ => "."%char :: map digit b end.

(** The exponent, of at least two digits; part of [general]
    (maq.cpp 77). *)
Definition exponent_text (x : Z) : list ascii :=
  "e"%char :: (if x <? 0 then "-"%char else "+"%char) ::
  (if Z.abs x <? 10 then [digit 0] else []) ++ unsigned (Z.abs x).

(** The digits [l] of a number of magnitude [10^x]; part of [general] (maq.cpp 77). *)
Definition layout (l : list Z) (x : Z) : list ascii :=
  if (x <? -4) || (6 <=? x) then pointed (firstn 1 l) (skipn 1 l) ++ exponent_text x
  else if x <? 0 then pointed [0] (repeat 0 (Z.to_nat (- x - 1)) ++ l)
  else let n := Z.to_nat (x + 1) in
       pointed (firstn n l ++ repeat 0 (n - List.length l)) (skipn n l).

(** A positive number [p / q]: six significant digits, without zeros at the end, with an
    exponent if that is below -4 or at least 6 ([%g] of C; [operator<<] of [double], maq.cpp
    77). *)
Definition general (p q : Z) : list ascii :=
  let x := exponent 632 p q 308 in
  let d := scaled p q (5 - x) in
  if d =? 1000000 then layout [1] (x + 1) else layout (trimmed (six d)) x.

(** [operator<<] of [double] (maq.cpp 77). *)
Definition double_text (v : F64) : list ascii :=
  match v with
  | S754_zero s => (if s then ["-"%char] else []) ++ [digit 0]
  | S754_infinity s => (if s then ["-"%char] else []) ++ ["i"; "n"; "f"]%char
  | S754_nan => ["n"; "a"; "n"]%char
  | S754_finite s m e =>
      (if s then ["-"%char] else []) ++
      if 0 <=? e then general (Zpos m * 2 ^ e) 1 else general (Zpos m) (2 ^ (- e))
  end.

(** ** The report *)

(** [std::endl] (maq.cpp 56-89). *)
Definition newline : ascii := ascii_of_nat 10.

(** What is kept beside the counters (maq.h 88-93). *)
Record controls := Controls {
  co_method : method; co_tolerance : F64; co_eval_limit : Z; co_search_limit : Z
}.

(** Before the first report: static storage (maq.cpp 26). *)
Definition controls_start : controls := Controls BINARY_SUBDIVISION (S754_zero false) 0 0.

(** [get_statistics] (maq.cpp 43-50). *)
Definition get_statistics (s : settings F64) (c : controls) : controls :=
  Controls (set_method s) (set_tolerance s) (set_eval_limit s) (set_search_limit s).

(** The name of a method (maq.cpp 58-76). *)
Definition method_name (m : method) : string :=
  match m with
  | BINARY_SUBDIVISION => "Binary Subdivision"
  | REVERSE_BINARY_SUBDIVISION => "Reverse Binary Subdivision"
  | LOW_FIRST_REVERSE_BINARY_SUBDIVISION => "Low-First Reverse Binary Subdivision"
  | SCATTERED => "Scattered"
  | DIRECTED => "Directed"
  end.

(** One line (maq.cpp 56-89). *)
Definition entry (label : string) (v : list ascii) : list ascii :=
  list_ascii_of_string label ++ [":"; " "]%char ++ v ++ [newline].

(** [format_statistics] once the settings are renewed (maq.cpp 56-89). *)
Definition report_text (c : controls) (s : stats) : list ascii :=
  list_ascii_of_string "Integration Statistics:" ++ [newline] ++
  entry "Search Algorithm" (list_ascii_of_string (method_name (co_method c))) ++
  entry "Tolerance" (double_text (co_tolerance c)) ++
  entry "Integration Eval Limit" (unsigned (co_eval_limit c)) ++
  entry "Search Eval Limit" (unsigned (co_search_limit c)) ++
  entry "Max Integration Evals" (unsigned (st_max_integration s)) ++
  entry "Integration Failures" (unsigned (st_integration_fails s)) ++
  entry "Total Integration Evals" (unsigned (st_integration_evals s)) ++
  entry "Max Search Evals" (unsigned (st_max_search s)) ++
  entry "Number Search Fails" (unsigned (st_search_fails s)) ++
  entry "Total Search Evals" (unsigned (st_search_evals s)) ++
  entry "Number of Calls" (unsigned (st_calls s)) ++
  entry "Successes" (unsigned (st_successes s)) ++
  entry "NANs" (unsigned (st_nans s)).

(** What happens between reports, and asking for one (maq.h 32-112). *)
Inductive event := Happens (o : session_op F64) | Asked.

(** The state: session and what is kept; and the reports given so far (maq.cpp 43-54;
    pyslatcore.cpp 919-923). *)
Definition event_step (st : session F64 * controls * list (list ascii)) (e : event) :
  outcome (session F64 * controls * list (list ascii)) :=
  let '(se, c, out) := st in
  match e with
  | Happens o => obind (session_step F64 se o) (fun se' => Done (se', c, out))
  | Asked => let c' := get_statistics (se_settings se) c in
             Done (se, c', out ++ [report_text c' (se_stats se)])
  end.

(** A program (maq.h 32-112). *)
Fixpoint event_run (st : session F64 * controls * list (list ascii)) (l : list event) :
  outcome (session F64 * controls * list (list ascii)) :=
  match l with
  | [] => Done st
  | e :: l => obind (event_step st e) (fun st' => event_run st' l)
  end.

(** At the start (maq.cpp 26, 95-98). *)
Definition event_start : session F64 * controls * list (list ascii) := (session_start F64, controls_start, []).
