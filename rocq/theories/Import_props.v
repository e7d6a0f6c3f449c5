(** * Property C69: imported functions give the distributions in their files *)
From Coq Require Import Reals List.
From Verif Require Import Num ER Lognormal Lognormal_spec Damage Functions Functions_spec Import Import_spec Import_proofs.
Import ListNotations.
Local Open Scope R_scope.

(** Full statement: a file of responses at increasing intensities becomes a function
    that gives, at each intensity, the lognormal distribution with the average and the
    standard deviation of the logarithms of the responses.  False: a file with one row
    is refused with an unrelated error, and with a single response without collapse at
    some intensity the spread is not a number, there and on both sides. *)
Theorem C69_import_refuted : exists a b : list row,
  (ordered a /\ enough a /\ import_probfn (as_file a) = Throws) /\
  (rectangular b /\ ordered b /\ Forall (fun r => (1 <= length (survived (snd r)))%nat) b /\
   exists f, import_probfn (as_file b) = Returns f /\ forall x, 0 < x < 2 ->
     exists m, imported_at f (Fin x) 0 0 = Returns (LND m NaN)).
Proof. exact refute_import. Qed.
Print Assumptions C69_import_refuted.

(** With two rows or more, and two responses or more without collapse in each, the
    distribution at each intensity of the file is the one that fits its responses,
    whatever was evaluated before. *)
Theorem C69_rows_partial : forall data, rectangular data -> ordered data -> enough data ->
  exists f, import_probfn (as_file data) = Returns f /\
    forall r i j, In r data -> (i < length data)%nat -> (j < length data)%nat ->
      exists m s, imported_at f (Fin (fst r)) i j = Returns (LND (Fin m) (Fin s)) /\ fits (snd r) m s.
Proof. exact import_rows_fit. Qed.
Print Assumptions C69_rows_partial.

(** At any other intensity, medians and dispersions are interpolated between the
    rows, starting from zero at zero, and stay at the last row's beyond it. *)
Theorem C69_between_partial : forall data, rectangular data -> ordered data -> enough data ->
  exists f fitted, import_probfn (as_file data) = Returns f /\
    Forall2 (fun r p => fits (snd r) (fst p) (snd p)) data fitted /\
    forall x i j, (i < length data)%nat -> (j < length data)%nat ->
      (x <= 0 -> imported_at f (Fin x) i j = Returns (LND MInf (Fin 0))) /\
      (0 < x -> exists v s, imported_at f (Fin x) i j = Returns (LND (Fin (ln v)) (Fin s)) /\ 0 < v /\ 0 <= s /\
         interpolates (0 :: map fst data) (0 :: map (fun p => exp (fst p)) fitted) x v /\
         interpolates (0 :: map fst data) (0 :: map snd fitted) x s).
Proof. exact import_values. Qed.
Print Assumptions C69_between_partial.

(** A file that meets the hypotheses: the median at 1 is the square root of 2. *)
Example C69_case : exists f s, import_probfn (as_file [(1, [1; 0; 2]); (2, [2; 4; 3])]) = Returns f /\
  imported_at f (Fin 1) 0 1 = Returns (LND (Fin (ln 2 / 2)) (Fin s)).
Proof. exact import_case. Qed.

(** Fewer than two responses without collapse in a row spoil the function between
    the rows before and after it. *)
Theorem C69_gap_fails : forall data k r, rectangular data -> ordered data -> nth_error data k = Some r ->
  (length (survived (snd r)) <= 1)%nat ->
  exists f, import_probfn (as_file data) = Returns f /\
    forall x i j, (i < length data)%nat -> (j < length data)%nat ->
      nth k (0 :: map fst data) 0 < x -> ((S k < length data)%nat -> x < nth (S k) (map fst data) 0) ->
      exists m, imported_at f (Fin x) i j = Returns (LND m NaN).
Proof. exact import_gap. Qed.
Print Assumptions C69_gap_fails.

(** Intensities that do not increase, or start at zero, end the program. *)
Theorem C69_order_fails : forall data, rectangular data -> ~ ordered data -> import_probfn (as_file data) = Undefined.
Proof. exact import_disorder. Qed.
Print Assumptions C69_order_fails.

(** A file with one row is refused. *)
Theorem C69_single_fails : forall r, import_probfn (as_file [r]) = Throws /\ import_imfn (as_file [r]) = Throws.
Proof. exact single_row. Qed.
Print Assumptions C69_single_fails.

(** Collapses make no difference: files that agree but for collapses give the same
    function, *)
Theorem C69_collapse_fails : forall a b, rectangular a -> rectangular b -> same_but_collapses a b ->
  import_probfn (as_file a) = import_probfn (as_file b).
Proof. exact import_collapse. Qed.
Print Assumptions C69_collapse_fails.

(** even if in one no analysis ends in collapse, and in the other half of them do. *)
Example C69_collapse_case : exists a b : list row, rectangular a /\ ordered a /\ enough a /\
  rectangular b /\ ordered b /\ enough b /\
  (forall r, In r a -> collapse_fraction (snd r) = 0) /\ (forall r, In r b -> 1 / 2 <= collapse_fraction (snd r)) /\
  import_probfn (as_file a) = import_probfn (as_file b).
Proof. exact collapse_matters_not. Qed.

(** Of an imported intensity measure, the curve goes through the first two columns,
    and is straight in between on logarithmic axes. *)
Theorem C69_curve : forall data, (exists n, (0 < n)%nat /\ Forall (fun r => length (snd r) = n) data) ->
  let us := map fst data in let vs := map (fun r => hd 0 (snd r)) data in
  tabled us vs -> positive us -> positive vs ->
  exists f, import_imfn (as_file data) = Returns f /\
    forall x i, (S i < length data)%nat -> exists y, value_at f (Fin x) i = Returns (Fin y) /\ log_interpolates us vs x y.
Proof. exact import_hazard. Qed.
Print Assumptions C69_curve.

Example C69_curve_case : exists f y, import_imfn (as_file [(1, [4; 9]); (2, [2; 9]); (4, [1; 9])]) = Returns f /\
  value_at f (Fin 2) 0 = Returns (Fin y) /\ log_interpolates [1; 2; 4] [4; 2; 1] 2 y.
Proof. exact hazard_import_case. Qed.
