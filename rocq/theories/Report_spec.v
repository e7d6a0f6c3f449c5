(** * Reading the report on integrations (C93) *)
From Coq Require Import ZArith Bool Ascii String List Reals Floats.SpecFloat.
From Flocq Require Import Core BinarySingleNaN.
From Verif Require Import Num Maq Report Double_spec.
Import ListNotations.
Local Open Scope list_scope.

(** ** Numbers *)

(** Digits and what they count. *)
Inductive is_digit : ascii -> Z -> Prop :=
| d0 : is_digit "0" 0 | d1 : is_digit "1" 1 | d2 : is_digit "2" 2 | d3 : is_digit "3" 3 | d4 : is_digit "4" 4
| d5 : is_digit "5" 5 | d6 : is_digit "6" 6 | d7 : is_digit "7" 7 | d8 : is_digit "8" 8 | d9 : is_digit "9" 9.

(** Digits read one after the other. *)
Inductive reads : list ascii -> Z -> Prop :=
| reads_none : reads [] 0
| reads_next s n c d : reads s n -> is_digit c d -> reads (s ++ [c]) (10 * n + d).

(** A whole number in decimal: no digit nought in front, but in nought itself. *)
Definition number (s : list ascii) (n : Z) : Prop :=
  reads s n /\ s <> [] /\ forall r, s = "0"%char :: r -> r = [].

(** A number with or without a point and an exponent. *)
Inductive plain : list ascii -> R -> Prop :=
| plain_whole s n : number s n -> plain s (IZR n)
| plain_point a x b y : number a x -> reads b y -> b <> [] -> plain (a ++ "."%char :: b) (IZR x + IZR y / 10 ^ List.length b).
Inductive decimal : list ascii -> R -> Prop :=
| decimal_plain s v : plain s v -> decimal s v
| decimal_large s v t n : plain s v -> reads t n -> t <> [] -> decimal (s ++ "e"%char :: "+"%char :: t) (v * powerRZ 10 n)
| decimal_small s v t n : plain s v -> reads t n -> t <> [] -> decimal (s ++ "e"%char :: "-"%char :: t) (v * powerRZ 10 (- n)).

(** ** Lines *)

(** The lines of a text, each ended by the character 10. *)
Definition lines (t : list ascii) (ls : list (list ascii)) : Prop :=
  t = concat (map (fun l => l ++ [ascii_of_nat 10]) ls) /\ Forall (fun l => ~ In (ascii_of_nat 10) l) ls.

(** What stands after a label: one line begins with it, and no other. *)
Definition shows (t : list ascii) (label : string) (v : list ascii) : Prop :=
  exists before after,
    lines t (before ++ (list_ascii_of_string (label ++ ": ") ++ v) :: after) /\
    forall l r, In l (before ++ after) -> l <> list_ascii_of_string (label ++ ": ") ++ r.

(** The names of the methods. *)
Definition called (m : method) : string :=
  match m with
  | BINARY_SUBDIVISION => "Binary Subdivision"
  | REVERSE_BINARY_SUBDIVISION => "Reverse Binary Subdivision"
  | LOW_FIRST_REVERSE_BINARY_SUBDIVISION => "Low-First Reverse Binary Subdivision"
  | SCATTERED => "Scattered"
  | DIRECTED => "Directed"
  end.

(** A tolerance: exact to six digits; or infinite. *)
Definition tolerance_shown (s : list ascii) (x : F64) : Prop :=
  (x = S754_infinity false /\ s = list_ascii_of_string "inf") \/
  exists v, decimal s v /\ (Rabs (v - SF2R radix2 x) <= SF2R radix2 x * (5 / 1000000))%R.

(** A number after a label. *)
Definition counts (t : list ascii) (label : string) (n : Z) : Prop := exists s, shows t label s /\ number s n.

(** What a report is to say of the settings and counters. *)
Definition reported (t : list ascii) (s : settings F64) (c : stats) : Prop :=
  shows t "Search Algorithm" (list_ascii_of_string (called (set_method s))) /\
  (exists w, shows t "Tolerance" w /\ tolerance_shown w (set_tolerance s)) /\
  counts t "Integration Eval Limit" (set_eval_limit s) /\
  counts t "Search Eval Limit" (set_search_limit s) /\
  counts t "Max Integration Evals" (st_max_integration c) /\
  counts t "Integration Failures" (st_integration_fails c) /\
  counts t "Total Integration Evals" (st_integration_evals c) /\
  counts t "Max Search Evals" (st_max_search c) /\
  counts t "Number Search Fails" (st_search_fails c) /\
  counts t "Total Search Evals" (st_search_evals c) /\
  counts t "Number of Calls" (st_calls c) /\
  counts t "Successes" (st_successes c) /\
  counts t "NANs" (st_nans c).

(** The calls of a program that are no requests for reports. *)
Fixpoint other (l : list event) : list (session_op F64) :=
  match l with [] => [] | Happens o :: r => o :: other r | Asked :: r => other r end.

(** How many reports it asks for. *)
Fixpoint asked (l : list event) : nat :=
  match l with [] => O | Asked :: r => S (asked r) | Happens _ :: r => asked r end.

(** Tolerances set are doubles. *)
Definition proper (e : event) : Prop :=
  match e with Happens (SSetting _ (OpSetTolerance _ x)) => double x | _ => True end.
