(** * What a comparison of results should notice (C95) *)
From Coq Require Import Ascii String List ZArith QArith Qabs Bool.
From Verif Require Import Regress.
Import ListNotations.
Local Open Scope Z_scope.
Local Open Scope list_scope.

(** A text as written. *)
Definition txt (s : string) : text := list_ascii_of_string s.
Arguments txt s%string.

(** A digit and its value. *)
Inductive is_digit : ascii -> Z -> Prop :=
| D0 : is_digit "0" 0 | D1 : is_digit "1" 1 | D2 : is_digit "2" 2 | D3 : is_digit "3" 3 | D4 : is_digit "4" 4
| D5 : is_digit "5" 5 | D6 : is_digit "6" 6 | D7 : is_digit "7" 7 | D8 : is_digit "8" 8 | D9 : is_digit "9" 9.

(** Digits, first to last, and the number they stand for. *)
Inductive digits : text -> Z -> Prop :=
| no_digits : digits [] 0
| one_more s c n d : digits s n -> is_digit c d -> digits (s ++ [c]) (10 * n + d).

(** A sign or none. *)
Inductive signed : text -> Z -> Prop :=
| no_sign : signed [] 1
| plus : signed ["+"%char] 1
| minus : signed ["-"%char] (-1).

(** A point and digits, or nothing; how many digits. *)
Inductive fractional : text -> text -> Prop :=
| no_point : fractional [] []
| point f : fractional ("."%char :: f) f.

(** An exponent or none. *)
Inductive exponential : text -> Z -> Prop :=
| no_exponent : exponential [] 0
| with_exponent c s sg x n : c = "e"%char \/ c = "E"%char -> signed s sg -> digits x n -> x <> [] -> exponential (c :: s ++ x) (sg * n).

(** A number as written, and its value. *)
Inductive is_number : text -> Q -> Prop :=
| number s sg i p f x e n :
    signed s sg -> fractional p f -> digits (i ++ f) n -> (exists m, digits i m) -> i ++ f <> [] -> exponential x e ->
    is_number (s ++ i ++ p ++ x) (inject_Z (sg * n) * Qpower 10 (e - Z.of_nat (List.length f))).

(** A word: something a number has no place for. *)
Definition word (s : text) : Prop :=
  exists c, In c s /\ ~ In c ["0"; "1"; "2"; "3"; "4"; "5"; "6"; "7"; "8"; "9"; "."; "e"; "E"; "-"; "+"]%char.

(** Within one part in a thousand of the first; of nothing, within a thousandth. *)
Definition close (p q : Q) : Prop :=
  (Qabs (p - q) <= Qabs p * (1 # 1000) \/ (p == 0 /\ Qabs q <= 1 # 1000))%Q.

(** Fields that are as good as the same. *)
Inductive same_field : text -> text -> Prop :=
| same_number x y p q : is_number x p -> is_number y q -> close p q -> same_field x y
| same_word x : word x -> same_field x x.

(** The words of a line: what blanks and tabs separate. *)
Definition blank (c : ascii) : Prop := c = " "%char \/ c = "009"%char.
Inductive line_of : text -> list text -> Prop :=
| only_blanks b : Forall blank b -> line_of b []
| word_first b w rest ws :
    Forall blank b -> w <> [] -> Forall (fun c => ~ blank c) w -> (rest = [] \/ exists c r, rest = c :: r /\ blank c) ->
    line_of rest ws -> line_of (b ++ w ++ rest) (w :: ws).

(** Lines with the same fields. *)
Definition same_line (a b : text) : Prop := exists x y, line_of a x /\ line_of b y /\ Forall2 same_field x y.

(** Files that are as good as the same: same heading, and line by line the same fields. *)
Inductive same_file : list text -> list text -> Prop :=
| same_lines h r1 r2 : Forall2 same_line r1 r2 -> same_file (h :: r1) (h :: r2).

(** A field of a file, line and place counted from zero, below the heading. *)
Definition at_place (f : list text) (k i : nat) (x : text) : Prop :=
  exists h r l ws, f = h :: r /\ nth_error r k = Some l /\ line_of l ws /\ nth_error ws i = Some x.

(** A comparison succeeds. *)
Definition passes (strict : bool) (first second : list text) : Prop := fst (compare strict first second) = 0.
