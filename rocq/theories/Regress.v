(** * The comparison of results (compare-values.awk, check-c-results.sh)

    The script compares a file of results with the file expected, and its exit status is all
    the caller looks at. The language is gawk (arrays of arrays).

    Simplifications: numbers are exact; [inf] and [nan] are not numbers; fields are separated by
    blanks and tabs; what is printed is left out but for the number of errors. What gawk does
    with [length(data[FNR])] where the first file has no such line depends on the version: the
    element either becomes a scalar, and its use as an array is fatal, or stays without a
    type. [strict] tells which. *)
From Coq Require Import Ascii List ZArith QArith Qabs Bool.
Import ListNotations.
Local Open Scope list_scope.
Local Open Scope Z_scope.

(** A line, a field or a name: characters (compare-values.awk 16, 32; check-c-results.sh 3). *)
Definition text := list ascii.

(** Equality of texts (compare-values.awk 18, 60). *)
Definition text_eqb (x y : text) : bool := if list_eq_dec ascii_dec x y then true else false.

(** The value of a digit (strings as numbers: compare-values.awk 47, 48). *)
Definition digit (c : ascii) : option Z :=
  let n := Z.of_nat (nat_of_ascii c) in if (48 <=? n) && (n <=? 57) then Some (n - 48) else None.

(** The digits a text starts with, and what follows (compare-values.awk 47). *)
Fixpoint span (s : text) : list Z * text :=
  match s with
  | [] => ([], [])
  | c :: r => match digit c with Some d => let '(l, t) := span r in (d :: l, t) | None => ([], s) end
  end.

(** The number digits stand for (compare-values.awk 47). *)
Definition digits_value (l : list Z) : Z := fold_left (fun a d => 10 * a + d) l 0.

(** A sign (compare-values.awk 47). *)
Definition sign (s : text) : bool * text :=
  match s with
  | "-"%char :: r => (true, r)
  | "+"%char :: r => (false, r)
  | _ => (false, s)
  end.

(** An exponent; without digits it is not one (compare-values.awk 47). *)
Definition exponent (s : text) : Z * text :=
  match s with
  | c :: r =>
      if (Ascii.eqb c "e" || Ascii.eqb c "E")%char then
        let '(neg, r1) := sign r in
        match span r1 with
        | ([], _) => (0, s)
        | (d, r2) => ((if neg : bool then - digits_value d else digits_value d), r2)
        end
      else (0, s)
  | [] => (0, s)
  end.

(** A fraction (compare-values.awk 47). *)
Definition fraction (s : text) : list Z * text :=
  match s with "."%char :: r => span r | _ => ([], s) end.

(** The number a text starts with, and what follows; [None] if it starts with no number (compare-values.awk 47). *)
Definition parse (s : text) : option (Q * text) :=
  let '(neg, s1) := sign s in
  let '(i, s2) := span s1 in
  let '(f, s3) := fraction s2 in
  match i ++ f with
  | [] => None
  | l =>
      let '(x, s4) := exponent s3 in
      let v := (inject_Z (digits_value l) * Qpower 10 (x - Z.of_nat (length f)))%Q in
      Some ((if neg : bool then - v else v)%Q, s4)
  end.

(** A text used as a number: the number it starts with, or zero (compare-values.awk 47, 49). *)
Definition num (s : text) : Q := match parse s with Some (v, _) => v | None => 0%Q end.

(** Whether a field looks like a number, and so is compared as one (compare-values.awk 48, 60;
    for [text_eqb] see [field]). *)
Definition looks (s : text) : bool := match parse s with Some (_, []) => true | _ => false end.

(** The characters of the pattern (compare-values.awk 46). *)
Definition figure (c : ascii) : bool :=
  match digit c with
  | Some _ => true
  | None => (Ascii.eqb c "." || Ascii.eqb c "e" || Ascii.eqb c "E" || Ascii.eqb c "-" || Ascii.eqb c "+")%char
  end.

(** The pattern (compare-values.awk 46). *)
Definition pattern (s : text) : bool := match s with [] => false | _ => forallb figure s end.

(** What comes of two fields: nothing, an error with the value to return, or the end (division by
    zero) (compare-values.awk 46-67). *)
Inductive verdict := Fine | Differs (code : Z) | Fatal.

(** [data[FNR][i] != 0]: as numbers if the field looks like one, else as texts
    (compare-values.awk 48). *)
Definition nonzero (x : text) : bool := if looks x then negb (Qeq_bool (num x) 0) else negb (text_eqb x ["0"%char]).

(** Whether an error is too large (compare-values.awk 52). *)
Definition too_large (e : Q) : bool := negb (Qle_bool e (1 # 1000)).

(** A field of the first file and one of the second (compare-values.awk 46-67). A field that
    does not match the pattern does not look like a number, so that [!=] compares texts. *)
Definition field (x y : text) : verdict :=
  if pattern x then
    let e := Qabs (num x - num y) in
    if nonzero x then
      if Qeq_bool (num x) 0 then Fatal
      else if too_large (e / Qabs (num x)) then Differs 1 else Fine
    else if too_large e then Differs 1 else Fine
  else if text_eqb x y then Fine else Differs (-1).

(** A field the first file does not have: without a value, equal to a number if that is zero
    (compare-values.awk 46, 60). *)
Definition extra (y : text) : verdict :=
  if looks y then (if Qeq_bool (num y) 0 then Fine else Differs (-1)) else Differs (-1).

(** [error_count] and [return_value] (compare-values.awk 8-10). *)
Record state := State { errors : nat; code : Z }.

(** The fields of a line; [None] after a fatal error (compare-values.awk 45-68). *)
Fixpoint fields_check (x y : list text) (st : state) : option state :=
  match y with
  | [] => Some st
  | b :: ys =>
      match (match x with a :: _ => field a b | [] => extra b end) with
      | Fatal => None
      | Fine => fields_check (tl x) ys st
      | Differs c => fields_check (tl x) ys (State (S (errors st)) c)
      end
  end.

(** A line of the second file (compare-values.awk 37-69). *)
Definition line_check (strict : bool) (x y : list text) (st : state) : option state :=
  let st1 := if Nat.eqb (length x) (length y) then st else State (S (errors st)) (code st) in
  match x, y with
  | [], _ :: _ => if strict then None else fields_check x y st1
  | _, _ => fields_check x y st1
  end.

(** The lines after the headings (compare-values.awk 29-69). *)
Fixpoint lines_check (strict : bool) (first second : list (list text)) (st : state) : option state :=
  match second with
  | [] => Some st
  | y :: ys =>
      match line_check strict (hd [] first) y st with
      | None => None
      | Some st' => lines_check strict (tl first) ys st'
      end
  end.

(** Fields of a line: what blanks and tabs separate (compare-values.awk 31, 39). *)
Fixpoint split (s : text) (word : text) : list text :=
  match s with
  | [] => match word with [] => [] | _ => [rev word] end
  | c :: r =>
      if (Ascii.eqb c " " || Ascii.eqb c "009")%char then
        match word with [] => split r [] | _ => rev word :: split r [] end
      else split r (c :: word)
  end.

(** The fields of a line (compare-values.awk 31, 39). *)
Definition fields (s : text) : list text := split s [].

(** A line that is nothing but a number, which is then compared as one (compare-values.awk 18). *)
Definition numeric (h : text) : option Q :=
  match fields h with [w] => if looks w then Some (num w) else None | _ => None end.

(** Whether the headings agree (compare-values.awk 18). *)
Definition heading (h1 h2 : text) : bool :=
  match numeric h1, numeric h2 with
  | Some p, Some q => Qeq_bool p q
  | _, _ => text_eqb h1 h2
  end.

(** Exit status and number of errors (compare-values.awk 7-76). If the first file is empty,
    [FNR==NR] holds in the second. *)
Definition compare (strict : bool) (first second : list text) : Z * nat :=
  match first, second with
  | [], _ | _, [] => (0, 0%nat)
  | h1 :: r1, h2 :: r2 =>
      let st := if heading h1 h2 then State 0 0 else State 1 1 in
      match lines_check strict (map fields r1) (map fields r2) st with
      | None => (2, 0%nat)
      | Some st' => (code st', errors st')
      end
  end.

(** A directory: names and contents (check-c-results.sh 3, 12). *)
Definition directory := list (text * list text).

(** A file in a directory (check-c-results.sh 5, 13). *)
Fixpoint lookup (name : text) (d : directory) : option (list text) :=
  match d with
  | [] => None
  | (n, f) :: r => if text_eqb name n then Some f else lookup name r
  end.

(** One file of results (check-c-results.sh 4-9); a file that cannot be opened is fatal. *)
Definition one_check (strict : bool) (expected : directory) (f : text * list text) : bool :=
  match lookup (fst f) expected with
  | Some g => fst (compare strict (snd f) g) =? 0
  | None => false
  end.

(** Whether the script succeeds (check-c-results.sh 2-18). Without files a pattern stands for
    itself, and there is no such file. *)
Definition check (strict : bool) (results expected : directory) : bool :=
  match results, expected with
  | [], _ | _, [] => false
  | _, _ =>
      forallb (one_check strict expected) results &&
      forallb (fun e => match lookup (fst e) results with Some _ => true | None => false end) expected
  end.
