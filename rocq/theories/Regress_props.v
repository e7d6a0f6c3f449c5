(** * The comparison of results notices differences (C95) *)
From Coq Require Import Ascii String List ZArith QArith Qabs Bool.
From Verif Require Import Regress Regress_spec Regress_proofs.
Import ListNotations.
Local Open Scope Z_scope.
Local Open Scope list_scope.

(** Full statement: if a comparison succeeds, then the files are as good as the same,
    [forall strict first second, passes strict first second -> same_file first second]. False: see
    [C95_lines_refuted], [C95_fields_refuted], [C95_empty_refuted] and [C95_word_refuted]. What
    holds: headings are the same, or numbers of the same value, and wherever both files have a
    field, numbers are close to each other and words are equal. The first file is the
    one the program made, the second the one expected. *)
Theorem C95_noticed_partial : forall strict first second,
  passes strict first second -> first <> [] -> second <> [] ->
  (forall h ws, h = hd [] first \/ h = hd [] second -> line_of h ws ->
     List.length ws <> 1%nat \/ (exists w, In w ws /\ word w) -> hd [] first = hd [] second) /\
  (forall a b p q, line_of (hd [] first) [a] -> line_of (hd [] second) [b] -> is_number a p -> is_number b q -> p == q)%Q /\
  forall k i x y, at_place first k i x -> at_place second k i y ->
    (forall p q, is_number x p -> is_number y q -> close p q) /\ (word x -> x = y).
Proof. exact noticed. Qed.
Print Assumptions C95_noticed_partial.

Example C95_noticed_ok :
  passes true [txt "im rate"; txt "0.10 1.0E-3"; txt "none 0"] [txt "im rate"; txt "0.1 0.0010001"; txt "none 0.001"] /\
  ~ passes true [txt "im rate"; txt "0.10 1.0E-3"] [txt "im rate"; txt "0.1 0.00102"].
Proof. split; [reflexivity | vm_compute; discriminate]. Qed.

(** What is expected and was not made is noticed unless it is the number zero: full statement as
    above; what is missing is the zero. *)
Theorem C95_missing_partial : forall strict first second k i y,
  passes strict first second -> first <> [] -> at_place second k i y -> (forall x, ~ at_place first k i x) ->
  (forall q, is_number y q -> q == 0)%Q /\ ~ word y.
Proof. exact surplus. Qed.
Print Assumptions C95_missing_partial.

Example C95_missing_ok :
  passes true [txt "m"; txt "1"] [txt "m"; txt "1 0"] /\ ~ passes true [txt "m"; txt "1"] [txt "m"; txt "1 3"] /\
  ~ passes true [txt "m"; txt "1"] [txt "m"; txt "1 lost"].
Proof. split; [reflexivity |]. split; vm_compute; discriminate. Qed.

(** A line more than expected is not noticed, whatever number it gives. *)
Theorem C95_lines_refuted : forall strict, exists first second k i x,
  passes strict first second /\ first <> [] /\ second <> [] /\ at_place first k i x /\ is_number x 2 /\ (forall y, ~ at_place second k i y).
Proof. exact refute_lines. Qed.
Print Assumptions C95_lines_refuted.

(** A field more than expected is counted as an error, but the comparison succeeds. *)
Theorem C95_fields_refuted : forall strict, exists first second k i x y,
  passes strict first second /\ first <> [] /\ second <> [] /\ at_place first k (S i) x /\ is_number x 2 /\
  at_place second k i y /\ (forall y, ~ at_place second k (S i) y).
Proof. exact refute_fields. Qed.
Print Assumptions C95_fields_refuted.

(** With an empty file every comparison succeeds. *)
Theorem C95_empty_refuted : forall strict first second, first = [] \/ second = [] -> passes strict first second.
Proof. exact refute_empty. Qed.
Print Assumptions C95_empty_refuted.

Example C95_empty_ok : passes true [] [txt "m"; txt "1 2"; txt "3 4"].
Proof. reflexivity. Qed.

(** A zero made where a word is expected is not noticed. *)
Theorem C95_word_refuted : forall strict, exists first second k i x y,
  passes strict first second /\ at_place first k i x /\ at_place second k i y /\ is_number x 0 /\ word y.
Proof. exact refute_word. Qed.
Print Assumptions C95_word_refuted.

(** Full statement: a file compared with itself succeeds, [forall strict f, passes strict f f].
    False: a field that looks like the characters of a number, but has no digits, is divided by. *)
Theorem C95_same_refuted : forall strict, exists f, f <> [] /\ ~ passes strict f f.
Proof. exact refute_same. Qed.
Print Assumptions C95_same_refuted.

(** What holds: if every field is a number or a word, files that are as good as the same compare
    without an error. *)
Theorem C95_same_partial : forall strict first second, same_file first second -> compare strict first second = (0, 0%nat).
Proof. exact unnoticed. Qed.
Print Assumptions C95_same_partial.

Example C95_same_ok : same_file [txt "m"; txt "2 x"] [txt "m"; txt " 2  x"].
Proof.
  apply same_lines. constructor; [| constructor]. exists [txt "2"; txt "x"], [txt "2"; txt "x"].
  split; [exact (line_fields (txt "2 x")) |]. split; [exact (line_fields (txt " 2  x")) |].
  constructor; [| constructor; [| constructor]].
  - apply (same_number _ _ 2 2 number_two number_two). left. vm_compute. discriminate.
  - apply same_word. exists "x"%char. split; [left; reflexivity |]. cbn. intuition discriminate.
Qed.

(** The script succeeds exactly if there are results, results and expected results are
    files of the same names, and every comparison succeeds. *)
Theorem C95_check : forall strict results expected, NoDup (map fst results) -> NoDup (map fst expected) ->
  (check strict results expected = true <->
   results <> [] /\
   (forall n, (exists f, In (n, f) results) <-> (exists g, In (n, g) expected)) /\
   forall n f g, In (n, f) results -> In (n, g) expected -> passes strict f g).
Proof. exact check_all. Qed.
Print Assumptions C95_check.

Example C95_check_ok :
  check true [(txt "a", [txt "m"; txt "1"]); (txt "b", [txt "m"; txt "2"])]
    [(txt "b", [txt "m"; txt "2.001"]); (txt "a", [txt "m"; txt "1"])] = true /\
  check true [(txt "a", [txt "m"; txt "1"])] [(txt "b", [txt "m"; txt "2.001"]); (txt "a", [txt "m"; txt "1"])] = false.
Proof. split; reflexivity. Qed.
