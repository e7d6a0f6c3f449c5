(** * C98: tables in double precision *)
From Coq Require Import ZArith Reals List Lra Lia Floats.SpecFloat.
From Flocq Require Import Core BinarySingleNaN.
From Verif Require Import Num Double_spec Totals Totals_spec Spread_spec Tabled Tabled_spec Tabled_proofs Tabled_proofs2 Tabled_proofs3.
Import ListNotations.
Local Open Scope R_scope.

(** Whatever was asked before, every finite argument gives a number, not negative, and leaves the
    accelerator ready for the next. *)
Theorem C98_number :
  forall (xs ys : list F64) (x : F64) (cache : nat), fitted xs ys -> (S cache < List.length xs)%nat -> double x -> finite x ->
    exists y c, evaluate xs ys x cache = Some (y, c) /\ (S c < List.length xs)%nat /\ double y /\ finite y /\ 0 <= real y.
Proof. exact (fun xs ys x cache F => table_number xs ys F x cache). Qed.
Print Assumptions C98_number.

(** The value does not depend on what was asked before. *)
Theorem C98_history :
  forall (xs ys : list F64) (x : F64) (c1 c2 : nat) (y1 y2 : F64) (c1' c2' : nat), fitted xs ys ->
    (S c1 < List.length xs)%nat -> (S c2 < List.length xs)%nat -> double x -> finite x ->
    evaluate xs ys x c1 = Some (y1, c1') -> evaluate xs ys x c2 = Some (y2, c2') -> y1 = y2.
Proof. exact (fun xs ys x c1 c2 y1 y2 c1' c2' F => table_history xs ys F x c1 c2 y1 y2 c1' c2'). Qed.
Print Assumptions C98_history.

(** Outside the table: the first ordinate, the last. *)
Theorem C98_outside :
  forall (xs ys : list F64) (x : F64) (cache : nat) (y : F64) (c : nat), fitted xs ys -> (S cache < List.length xs)%nat ->
    double x -> finite x -> evaluate xs ys x cache = Some (y, c) ->
    (forall a b, nth_error xs 0 = Some a -> nth_error ys 0 = Some b -> real x < real a -> y = b) /\
    (forall a b, nth_error xs (List.length xs - 1) = Some a -> nth_error ys (List.length xs - 1) = Some b -> real a < real x -> y = b).
Proof.
  exact (fun xs ys x cache y c F C V Fx E =>
    conj (fun a b => table_below xs ys F x cache y c a b C V Fx E) (fun a b => table_above xs ys F x cache y c a b C V Fx E)).
Qed.
Print Assumptions C98_outside.

(** Between two points, the value is that of the straight line through them, to [2^-49] of the
    greater ordinate. *)
Theorem C98_line :
  forall (xs ys : list F64) (x : F64) (cache : nat) (y : F64) (c : nat) (x0 x1 y0 y1 : R), fitted xs ys ->
    (S cache < List.length xs)%nat -> double x -> finite x -> evaluate xs ys x cache = Some (y, c) ->
    interval xs ys (real x) x0 x1 y0 y1 -> Rabs (real y - line x0 x1 y0 y1 (real x)) <= bpow radix2 (-49) * Rmax y0 y1.
Proof. exact (fun xs ys x cache y c x0 x1 y0 y1 F C V Fx E => table_near xs ys F x cache y c C V Fx E x0 x1 y0 y1). Qed.
Print Assumptions C98_line.

(** Full statement: at the points of the table, their ordinates. False: not at the last point. *)
Theorem C98_points_refuted :
  exists (xs ys : list F64) (x y : F64) (c : nat), fitted xs ys /\ nth_error xs (List.length xs - 1) = Some x /\
    nth_error ys (List.length xs - 1) = Some y /\ exists z, evaluate xs ys x 0 = Some (z, c) /\ real z < real y.
Proof. exact refute_last. Qed.
Print Assumptions C98_points_refuted.

(** What holds: at all others. *)
Theorem C98_points_partial :
  forall (xs ys : list F64) (x : F64) (cache : nat) (y : F64) (c i : nat) (xi yi next : F64), fitted xs ys ->
    (S cache < List.length xs)%nat -> double x -> finite x -> evaluate xs ys x cache = Some (y, c) ->
    nth_error xs i = Some xi -> nth_error ys i = Some yi -> nth_error xs (S i) = Some next -> real x = real xi -> real y = real yi.
Proof. exact (fun xs ys x cache y c i xi yi next F C V Fx E => table_knot xs ys F x cache y c C V Fx E i xi yi next). Qed.
Print Assumptions C98_points_partial.

(** Full statement: between two points, values are between their ordinates. False: rounding may
    leave the value below both. *)
Theorem C98_between_refuted :
  exists (xs ys : list F64) (x y : F64) (c : nat) (x0 x1 y0 y1 : R), fitted xs ys /\ double x /\ finite x /\
    evaluate xs ys x 0 = Some (y, c) /\ interval xs ys (real x) x0 x1 y0 y1 /\ ~ (Rmin y0 y1 <= real y <= Rmax y0 y1).
Proof. exact refute_between. Qed.
Print Assumptions C98_between_refuted.

(** What holds: before the last [2^-50] of the interval they are. *)
Theorem C98_between_partial :
  forall (xs ys : list F64) (x : F64) (cache : nat) (y : F64) (c : nat) (x0 x1 y0 y1 : R), fitted xs ys ->
    (S cache < List.length xs)%nat -> double x -> finite x -> evaluate xs ys x cache = Some (y, c) ->
    interval xs ys (real x) x0 x1 y0 y1 -> clear x0 x1 (real x) -> Rmin y0 y1 <= real y <= Rmax y0 y1.
Proof. exact (fun xs ys x cache y c x0 x1 y0 y1 F C V Fx E => table_between xs ys F x cache y c C V Fx E x0 x1 y0 y1). Qed.
Print Assumptions C98_between_partial.

(** Full statement: a table that falls gives a function that does, one that rises a function that
    does. False, both: past the last point the value may rise, or fall. *)
Theorem C98_falls_refuted :
  exists (xs ys : list F64) (x x' y y' : F64), fitted xs ys /\ falling ys /\ double x /\ finite x /\ double x' /\ finite x' /\
    real x <= real x' /\ evaluate xs ys x 0 = Some (y, 0%nat) /\ evaluate xs ys x' 0 = Some (y', 0%nat) /\ real y < real y'.
Proof. exact refute_falls. Qed.
Print Assumptions C98_falls_refuted.

Theorem C98_rises_refuted :
  exists (xs ys : list F64) (x x' y y' : F64), fitted xs ys /\ rising ys /\ double x /\ finite x /\ double x' /\ finite x' /\
    real x <= real x' /\ evaluate xs ys x 0 = Some (y, 0%nat) /\ evaluate xs ys x' 0 = Some (y', 0%nat) /\ real y' < real y.
Proof. exact refute_rises. Qed.
Print Assumptions C98_rises_refuted.

(** What holds: from an argument before the last [2^-50] of its interval to any greater one, and
    within an interval. *)
Theorem C98_falls_partial :
  forall (xs ys : list F64) (x x' : F64) (cache cache' : nat) (y y' : F64) (c c' : nat), fitted xs ys ->
    (S cache < List.length xs)%nat -> double x -> finite x -> evaluate xs ys x cache = Some (y, c) ->
    (S cache' < List.length xs)%nat -> double x' -> finite x' -> evaluate xs ys x' cache' = Some (y', c') ->
    real x <= real x' -> falling ys -> undisturbed xs ys (real x) (real x') -> real y' <= real y.
Proof. exact (fun xs ys x x' cache cache' y y' c c' F => table_falls xs ys F x x' cache cache' y y' c c'). Qed.
Print Assumptions C98_falls_partial.

Theorem C98_rises_partial :
  forall (xs ys : list F64) (x x' : F64) (cache cache' : nat) (y y' : F64) (c c' : nat), fitted xs ys ->
    (S cache < List.length xs)%nat -> double x -> finite x -> evaluate xs ys x cache = Some (y, c) ->
    (S cache' < List.length xs)%nat -> double x' -> finite x' -> evaluate xs ys x' cache' = Some (y', c') ->
    real x <= real x' -> rising ys -> undisturbed xs ys (real x) (real x') -> real y <= real y'.
Proof. exact (fun xs ys x x' cache cache' y y' c c' F => table_rises xs ys F x x' cache cache' y y' c c'). Qed.
Print Assumptions C98_rises_partial.

(** A table that meets the hypotheses, and arguments inside, outside and before the last bit. *)
Definition C98_half : F64 := ndiv F64 (nofZ F64 1) (nofZ F64 2).
Example C98_half_is : double C98_half /\ finite C98_half /\ real C98_half = 1 / 2.
Proof. split; [reflexivity |]. split; [reflexivity |]. unfold real. vm_compute C98_half. unfold SF2R, F2R. cbn -[IZR]. lra. Qed.

Example C98_table_ok :
  fitted zero_one steep /\ falling steep /\ fitted zero_one climb /\ rising climb /\ (1 < List.length zero_one)%nat /\
  interval zero_one steep (real C98_half) 0 1 1 (real little) /\ clear 0 1 (real C98_half) /\
  evaluate zero_one steep C98_half 0 = Some (C98_half, 0%nat) /\
  evaluate zero_one steep (nofZ F64 3) 0 = Some (little, 0%nat).
Proof.
  split; [exact fitted_steep |]. split; [exact falling_steep |]. split; [exact fitted_climb |]. split; [exact rising_climb |].
  split; [cbn; lia |]. destruct C98_half_is as (_ & _ & E). rewrite E.
  destruct (real_int 1 ltac:(lia)) as [_ E1]. destruct (real_int 0 ltac:(lia)) as [_ E0].
  split. { exists 0%nat. split; [exists (nofZ F64 0), (nofZ F64 1); auto |]. split; [exists (nofZ F64 1), little; auto |]. split; [lra |]. left. lra. }
  split. { unfold clear. assert (bpow radix2 (-50) <= bpow radix2 (-1)) by (apply bpow_le; lia). cbn [bpow] in *. change (/ IZR (Z.pow_pos radix2 1)) with (/ 2) in *. lra. }
  split; vm_compute; reflexivity.
Qed.

(** Arguments of which the smaller is before the last bit. *)
Example C98_undisturbed_ok : undisturbed zero_one steep (real C98_half) (real (nofZ F64 3)).
Proof.
  intros x0 x1 y0 y1 H. left. destruct C98_half_is as (V & F & E).
  destruct (interval_located zero_one steep C98_half x0 x1 y0 y1 H) as (i & (L & _) & -> & -> & _).
  cbn in L. assert (i = 0%nat) as -> by lia. cbn [at_ zero_one nth]. unfold clear.
  rewrite E, (proj2 (real_int 1 ltac:(lia))), (proj2 (real_int 0 ltac:(lia))).
  assert (bpow radix2 (-50) <= bpow radix2 (-1)) by (apply bpow_le; lia). change (bpow radix2 (-1)) with (/ 2) in *. lra.
Qed.
