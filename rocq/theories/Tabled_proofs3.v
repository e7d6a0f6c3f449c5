(** * Tables in double precision (C98): values *)
From Coq Require Import ZArith Reals List Lra Lia Floats.SpecFloat.
From Flocq Require Import Core Relative BinarySingleNaN.
From Verif Require Import Num Double_spec Double_proofs Double_proofs2 Deriv_proofs3 Totals Totals_spec
  Totals_proofs Totals_proofs4 Spread Spread_spec Tabled Tabled_spec Tabled_proofs Tabled_proofs2.
Import ListNotations.
Local Open Scope R_scope.
Local Instance p53i : Prec_gt_0 53 := eq_refl.
Local Instance e1024i : Prec_lt_emax 53 1024 := eq_refl.

Lemma amount_round y : amount y -> rd (real y) = real y.
Proof. intros (V & _). exact (value_format 53 1024 y V). Qed.

Lemma on_rises y0 y1 t t' : y0 <= y1 -> t <= t' -> on y0 y1 t <= on y0 y1 t'.
Proof.
  intros L T. unfold on. apply rd_le, Rplus_le_compat_l, rd_le.
  assert (V : 0 <= rd (y1 - y0)) by (apply rnd_nonneg; lra). apply Rmult_le_compat_r; lra.
Qed.

Lemma on_above y0 y1 t : rd y0 = y0 -> y0 <= y1 -> 0 <= t -> y0 <= on y0 y1 t.
Proof. intros F L T. rewrite <- (on_first y0 y1 F) at 1. now apply on_rises. Qed.

Lemma falling_at l : falling l -> forall i j, (i <= j)%nat -> (j < List.length l)%nat -> real (at_ l j) <= real (at_ l i).
Proof.
  induction l as [| x r IH]; intros F i j H L; [cbn in L; lia |].
  destruct i as [| i]; destruct j as [| j]; try lia; try (unfold at_; cbn; lra).
  - destruct r as [| y r]; [cbn in L; lia |]. destruct F as [F1 F2]. specialize (IH F2 0%nat j ltac:(lia) ltac:(cbn in *; lia)).
    unfold at_ in *. cbn [nth] in *. lra.
  - assert (F2 : falling r) by (destruct r; [exact I | apply F]). exact (IH F2 i j ltac:(lia) ltac:(cbn in *; lia)).
Qed.

Lemma rising_at l : rising l -> forall i j, (i <= j)%nat -> (j < List.length l)%nat -> real (at_ l i) <= real (at_ l j).
Proof.
  induction l as [| x r IH]; intros F i j H L; [cbn in L; lia |].
  destruct i as [| i]; destruct j as [| j]; try lia; try (unfold at_; cbn; lra).
  - destruct r as [| y r]; [cbn in L; lia |]. destruct F as [F1 F2]. specialize (IH F2 0%nat j ltac:(lia) ltac:(cbn in *; lia)).
    unfold at_ in *. cbn [nth] in *. lra.
  - assert (F2 : rising r) by (destruct r; [exact I | apply F]). exact (IH F2 i j ltac:(lia) ltac:(cbn in *; lia)).
Qed.

Section Table.
  Variables xs ys : list F64.
  Hypothesis fit : fitted xs ys.

  Lemma table_number x cache : (S cache < List.length xs)%nat -> double x -> finite x ->
    exists y c, evaluate xs ys x cache = Some (y, c) /\ (S c < List.length xs)%nat /\ double y /\ finite y /\ 0 <= real y.
  Proof.
    intros C V F. destruct (evaluated xs ys fit x V F cache C) as (y & c & E & Lc & D). pose proof (fit_long xs ys fit) as L.
    exists y, c. split; [exact E |]. split; [exact Lc |].
    destruct D as [[_ ->] | [[_ ->] | (i & I & ->)]].
    - destruct (fit_y xs ys fit 0 ltac:(lia)) as (A & B & G). split; [exact A |]. split; [exact B | apply G].
    - destruct (fit_y xs ys fit (List.length xs - 1) ltac:(lia)) as (A & B & G). split; [exact A |]. split; [exact B | apply G].
    - destruct (located_value xs ys fit x V F i I) as (A & B & ->). split; [exact A |]. split; [exact B |].
      destruct I as (Li & I1 & I2). pose proof (fit_y xs ys fit i ltac:(lia)) as Y0. pose proof (fit_y xs ys fit (S i) Li) as Y1.
      apply on_nonneg; [now apply amount_round | apply Y0 | apply Y1 |].
      apply part_range; [now apply (fit_step xs ys fit) | destruct I2 as [I2 | [I2 _]]; lra].
  Qed.

  Lemma table_below x cache y c x0 y0 : (S cache < List.length xs)%nat -> double x -> finite x ->
    evaluate xs ys x cache = Some (y, c) -> nth_error xs 0 = Some x0 -> nth_error ys 0 = Some y0 -> real x < real x0 -> y = y0.
  Proof.
    intros C V F E X Y H. apply error_at in X, Y. destruct X as [-> Lx], Y as [-> Ly].
    destruct (evaluated xs ys fit x V F cache C) as (y' & c' & E' & _ & D). rewrite E in E'. injection E' as <- <-.
    destruct D as [[_ D] | [[D _] | (i & I & _)]]; [exact D | exfalso | exfalso].
    - pose proof (fit_long xs ys fit). pose proof (fit_order xs ys fit 0 (List.length xs - 1) ltac:(lia) ltac:(lia)). lra.
    - pose proof (located_inside xs ys fit x i I). lra.
  Qed.

  Lemma table_above x cache y c x1 y1 : (S cache < List.length xs)%nat -> double x -> finite x ->
    evaluate xs ys x cache = Some (y, c) -> nth_error xs (List.length xs - 1) = Some x1 ->
    nth_error ys (List.length xs - 1) = Some y1 -> real x1 < real x -> y = y1.
  Proof.
    intros C V F E X Y H. apply error_at in X, Y. destruct X as [-> Lx], Y as [-> Ly].
    destruct (evaluated xs ys fit x V F cache C) as (y' & c' & E' & _ & D). rewrite E in E'. injection E' as <- <-.
    destruct D as [[D _] | [[_ D] | (i & I & _)]]; [exfalso | exact D | exfalso].
    - pose proof (fit_long xs ys fit). pose proof (fit_order xs ys fit 0 (List.length xs - 1) ltac:(lia) ltac:(lia)). lra.
    - pose proof (located_inside xs ys fit x i I). lra.
  Qed.

  Lemma table_history x c1 c2 y1 y2 c1' c2' : (S c1 < List.length xs)%nat -> (S c2 < List.length xs)%nat -> double x -> finite x ->
    evaluate xs ys x c1 = Some (y1, c1') -> evaluate xs ys x c2 = Some (y2, c2') -> y1 = y2.
  Proof.
    intros C1 C2 V F E1 E2. destruct (evaluated xs ys fit x V F c1 C1) as (y & c & E & _ & D). rewrite E1 in E. injection E as <- <-.
    pose proof (fit_long xs ys fit) as L. destruct fit as (Len & _).
    destruct D as [[D ->] | [[D ->] | (i & I & ->)]].
    - symmetry. eapply (table_below x c2); [exact C2 | exact V | exact F | exact E2 | apply at_error; lia | apply at_error; lia | exact D].
    - symmetry. eapply (table_above x c2); [exact C2 | exact V | exact F | exact E2 | apply at_error; lia | apply at_error; lia | exact D].
    - symmetry. exact (evaluated_in xs ys fit x V F c2 i y2 c2' C2 I E2).
  Qed.

  Section At.
    Variables (x : F64) (cache : nat) (y : F64) (c : nat).
    Hypotheses (C : (S cache < List.length xs)%nat) (V : double x) (F : finite x) (E : evaluate xs ys x cache = Some (y, c)).

    Lemma table_in i : located xs x i ->
      real y = on (real (at_ ys i)) (real (at_ ys (S i))) (part (real (at_ xs i)) (real (at_ xs (S i))) (real x)).
    Proof.
      intros I. rewrite (evaluated_in xs ys fit x V F cache i y c C I E). now apply (located_value xs ys fit).
    Qed.

    Lemma located_range i : located xs x i -> real (at_ xs i) <= real x <= real (at_ xs (S i)).
    Proof. intros (_ & A & [B | [B _]]); lra. Qed.

    Lemma table_near x0 x1 y0 y1 : interval xs ys (real x) x0 x1 y0 y1 ->
      Rabs (real y - line x0 x1 y0 y1 (real x)) <= bpow radix2 (-49) * Rmax y0 y1.
    Proof.
      intros H. destruct (interval_located xs ys x _ _ _ _ H) as (i & I & -> & -> & -> & ->). rewrite (table_in i I).
      pose proof (located_range i I) as RG. destruct I as (L & _).
      pose proof (fit_y xs ys fit i ltac:(lia)) as Y0. pose proof (fit_y xs ys fit (S i) L) as Y1.
      apply on_right; [now apply amount_round | apply Y0 | apply Y1 | | now apply (fit_step xs ys fit) | exact RG].
      exact (fit_apart xs ys fit i L).
    Qed.

    Lemma table_between x0 x1 y0 y1 : interval xs ys (real x) x0 x1 y0 y1 -> clear x0 x1 (real x) ->
      Rmin y0 y1 <= real y <= Rmax y0 y1.
    Proof.
      intros H K. destruct (interval_located xs ys x _ _ _ _ H) as (i & I & -> & -> & -> & ->). rewrite (table_in i I).
      destruct I as (L & A & _).
      apply on_between; [apply amount_round, (fit_y xs ys fit); lia | apply amount_round, (fit_y xs ys fit); lia | | exact (fit_apart xs ys fit i L)].
      apply part_clear; [now apply (fit_step xs ys fit) | exact A | exact K].
    Qed.

    Lemma table_knot i xi yi xj : nth_error xs i = Some xi -> nth_error ys i = Some yi -> nth_error xs (S i) = Some xj ->
      real x = real xi -> real y = real yi.
    Proof.
      intros X Y XJ H. apply error_at in X, Y, XJ. destruct X as [-> L1], Y as [-> L2], XJ as [-> L3].
      pose proof (fit_step xs ys fit i L3) as St. pose proof (bpow_gt_0 radix2 (-1000)).
      assert (I : located xs x i) by (split; [exact L3 |]; split; [lra | left; lra]).
      rewrite (table_in i I), H, part_first by exact St. apply on_first, amount_round, (fit_y xs ys fit). lia.
    Qed.

    (** Falling tables: never above the start of the interval. *)
    Lemma table_under i : falling ys -> located xs x i -> real y <= real (at_ ys i).
    Proof.
      intros D I. rewrite (table_in i I). pose proof (located_range i I) as RG. destruct I as (L & _). destruct fit as (Len & _).
      apply on_below; [apply amount_round, (fit_y xs ys fit); lia | apply falling_at; [exact D | lia | lia] |].
      apply part_range; [now apply (fit_step xs ys fit) | exact RG].
    Qed.
    Lemma table_over i : rising ys -> located xs x i -> real (at_ ys i) <= real y.
    Proof.
      intros D I. rewrite (table_in i I). pose proof (located_range i I) as RG. destruct I as (L & _). destruct fit as (Len & _).
      apply on_above; [apply amount_round, (fit_y xs ys fit); lia | apply rising_at; [exact D | lia | lia] |].
      apply part_range; [now apply (fit_step xs ys fit) | exact RG].
    Qed.
  End At.

  Section Two.
    Variables (x x' : F64) (cache cache' : nat) (y y' : F64) (c c' : nat).
    Hypotheses (C : (S cache < List.length xs)%nat) (V : double x) (F : finite x) (E : evaluate xs ys x cache = Some (y, c)).
    Hypotheses (C' : (S cache' < List.length xs)%nat) (V' : double x') (F' : finite x') (E' : evaluate xs ys x' cache' = Some (y', c')).
    Hypothesis le : real x <= real x'.

    (** Where two arguments are. *)
    Lemma two : undisturbed xs ys (real x) (real x') ->
      (y = at_ ys 0 /\ (y' = at_ ys 0 \/ y' = at_ ys (List.length xs - 1) \/ exists i, located xs x' i)) \/
      (y = at_ ys (List.length xs - 1) /\ y' = at_ ys (List.length xs - 1)) \/
      (exists i, located xs x i /\ located xs x' i) \/
      (exists i, located xs x i /\ clear (real (at_ xs i)) (real (at_ xs (S i))) (real x) /\
         (y' = at_ ys (List.length xs - 1) \/ exists j, (i < j)%nat /\ located xs x' j)).
    Proof.
      intros U. destruct (evaluated xs ys fit x V F cache C) as (z & d & Z & _ & D). rewrite E in Z. injection Z as <- <-.
      destruct (evaluated xs ys fit x' V' F' cache' C') as (z & d & Z & _ & D'). rewrite E' in Z. injection Z as <- <-.
      pose proof (fit_long xs ys fit) as L. pose proof (fit_order xs ys fit 0 (List.length xs - 1) ltac:(lia) ltac:(lia)) as O.
      destruct D as [[D ->] | [[D ->] | (i & I & Ey)]].
      - left. split; [reflexivity |]. destruct D' as [[_ ->] | [[_ ->] | (j & J & _)]]; eauto.
      - right. left. split; [reflexivity |]. destruct D' as [[D' _] | [[_ ->] | (j & J & _)]]; [lra | reflexivity |].
        pose proof (located_inside xs ys fit x' j J). lra.
      - right. right. pose proof (located_inside xs ys fit x i I) as In. pose proof I as (L1 & A1 & B1).
        destruct (U _ _ _ _ (located_interval xs ys fit x i I)) as [K | K].
        + destruct D' as [[D' _] | [[_ ->] | (j & J & _)]]; [lra | right; exists i; auto |].
          destruct (Nat.lt_trichotomy i j) as [H | [<- | H]]; [right; exists i; split; [exact I |]; split; [exact K |]; right; now exists j | left; now exists i |].
          exfalso. destruct J as (L2 & A2 & B2). destruct B2 as [B2 | [_ B2]]; [| lia].
          destruct (Nat.eq_dec (S j) i) as [<- | N]; [lra |]. pose proof (fit_order xs ys fit (S j) i ltac:(lia) ltac:(lia)). lra.
        + left. exists i. split; [exact I |]. split; [exact L1 |].
          destruct (interval_located xs ys x' _ _ _ _ K) as (j & (L2 & A2 & B2) & Ex0 & Ex1 & _).
          assert (ij : i = j).
          { destruct (Nat.lt_trichotomy i j) as [H | [H | H]]; [| exact H |];
              [pose proof (fit_order xs ys fit i j H ltac:(lia)) | pose proof (fit_order xs ys fit j i H ltac:(lia))]; lra. }
          subst j. split; assumption.
    Qed.

    Lemma clear_between i : located xs x i -> clear (real (at_ xs i)) (real (at_ xs (S i))) (real x) ->
      Rmin (real (at_ ys i)) (real (at_ ys (S i))) <= real y <= Rmax (real (at_ ys i)) (real (at_ ys (S i))).
    Proof. intros I K. exact (table_between x cache y c C V F E _ _ _ _ (located_interval xs ys fit x i I) K). Qed.

    Lemma table_falls : falling ys -> undisturbed xs ys (real x) (real x') -> real y' <= real y.
    Proof.
      intros D U. pose proof (fit_long xs ys fit) as L. assert (Len : List.length xs = List.length ys) by apply fit.
      assert (M : forall i j, (i <= j)%nat -> (j < List.length xs)%nat -> real (at_ ys j) <= real (at_ ys i)).
      { intros i j H J. apply falling_at; [exact D | exact H | lia]. }
      destruct (two U) as [[-> H] | [[-> ->] | [(i & I & J) | (i & I & K & H)]]].
      - destruct H as [-> | [-> | (i & I)]]; [lra | apply M; lia |].
        apply Rle_trans with (real (at_ ys i)); [exact (table_under x' cache' y' c' C' V' F' E' i D I) | apply M; [lia | apply Nat.lt_succ_l, I]].
      - lra.
      - rewrite (table_in x cache y c C V F E i I), (table_in x' cache' y' c' C' V' F' E' i J). destruct I as (Li & _).
        apply on_falls; [apply M; lia |]. apply part_mono; [now apply (fit_step xs ys fit) | exact le].
      - pose proof (clear_between i I K) as B. destruct I as (Li & _). rewrite Rmin_right in B by (apply M; lia).
        destruct H as [-> | (j & H & J)].
        + apply Rle_trans with (real (at_ ys (S i))); [apply M; lia | apply B].
        + pose proof (table_under x' cache' y' c' C' V' F' E' j D J) as T. destruct J as (Lj & _).
          pose proof (M (S i) j ltac:(lia) ltac:(lia)). lra.
    Qed.

    Lemma table_rises : rising ys -> undisturbed xs ys (real x) (real x') -> real y <= real y'.
    Proof.
      intros D U. pose proof (fit_long xs ys fit) as L. assert (Len : List.length xs = List.length ys) by apply fit.
      assert (M : forall i j, (i <= j)%nat -> (j < List.length xs)%nat -> real (at_ ys i) <= real (at_ ys j)).
      { intros i j H J. apply rising_at; [exact D | exact H | lia]. }
      destruct (two U) as [[-> H] | [[-> ->] | [(i & I & J) | (i & I & K & H)]]].
      - destruct H as [-> | [-> | (i & I)]]; [lra | apply M; lia |].
        apply Rle_trans with (real (at_ ys i)); [apply M; [lia | apply Nat.lt_succ_l, I] | exact (table_over x' cache' y' c' C' V' F' E' i D I)].
      - lra.
      - rewrite (table_in x cache y c C V F E i I), (table_in x' cache' y' c' C' V' F' E' i J). destruct I as (Li & _).
        apply on_rises; [apply M; lia |]. apply part_mono; [now apply (fit_step xs ys fit) | exact le].
      - pose proof (clear_between i I K) as B. destruct I as (Li & _). rewrite Rmax_right in B by (apply M; lia).
        destruct H as [-> | (j & H & J)].
        + apply Rle_trans with (real (at_ ys (S i))); [apply B | apply M; lia].
        + pose proof (table_over x' cache' y' c' C' V' F' E' j D J) as T. destruct J as (Lj & _).
          pose proof (M (S i) j ltac:(lia) ltac:(lia)). lra.
    Qed.
  End Two.
End Table.

(** ** Witnesses *)

(** Ordinates of one and of little more than nothing. *)
Definition zero_one : list F64 := [nofZ F64 0; nofZ F64 1].
Definition little : F64 := S754_finite false 6192449487634432 (-105).
Definition steep : list F64 := [nofZ F64 1; little].
Definition bit : F64 := S754_finite false 6755399441055744 (-104).
Definition odd : F64 := S754_finite false 4503599627370499 (-52).
Definition climb : list F64 := [bit; odd].

Lemma real_int k : (0 <= k <= 12)%Z -> amount (nofZ F64 k) /\ real (nofZ F64 k) = IZR k.
Proof. intros H. now apply small_int. Qed.

Lemma real_little : real little = 11 / 72057594037927936.
Proof. unfold real, little, SF2R, F2R. cbn -[IZR]. lra. Qed.
Lemma real_bit : real bit = 3 / 9007199254740992.
Proof. unfold real, bit, SF2R, F2R. cbn -[IZR]. lra. Qed.
Lemma real_odd : real odd = 4503599627370499 / 4503599627370496.
Proof. unfold real, odd, SF2R, F2R. cbn -[IZR]. lra. Qed.

Lemma one_le k : (0 <= k)%Z -> 1 <= bpow radix2 k.
Proof. intros H. change 1 with (bpow radix2 0). now apply bpow_le. Qed.

Lemma fitted_two y0 y1 : amount y0 -> amount y1 -> apart y0 y1 -> fitted zero_one [y0; y1].
Proof.
  intros A0 A1 A. destruct (real_int 0 ltac:(lia)) as [(V0 & F0 & B0) E0]. destruct (real_int 1 ltac:(lia)) as [(V1 & F1 & B1) E1].
  pose proof (bpow_gt_0 radix2 400).
  split; [reflexivity |]. split; [cbn; lia |].
  split. { constructor; [split; [exact V0 |]; split; [exact F0 | lra] |]. constructor; [split; [exact V1 |]; split; [exact F1 | lra] | constructor]. }
  split. { constructor; [exact A0 |]. constructor; [exact A1 | constructor]. }
  split.
  - intros [| [| i]] x x' X X'; cbn in X, X'; try discriminate.
    injection X as <-. injection X' as <-. change (S754_zero false) with (nofZ F64 0). rewrite E0.
    change (real (S754_finite false 4503599627370496 (-52))) with (real (nofZ F64 1)). rewrite E1.
    assert (bpow radix2 (-1000) <= bpow radix2 0) by (apply bpow_le; lia). change (bpow radix2 0) with 1 in *. lra.
  - intros [| [| i]] x x' X X'; cbn in X, X'; try discriminate. injection X as <-. injection X' as <-. exact A.
Qed.

Lemma amount_little : amount little.
Proof. split; [reflexivity |]. split; [reflexivity |]. rewrite real_little. pose proof (one_le 400 ltac:(lia)). lra. Qed.
Lemma amount_bit : amount bit.
Proof. split; [reflexivity |]. split; [reflexivity |]. rewrite real_bit. pose proof (one_le 400 ltac:(lia)). lra. Qed.
Lemma amount_odd : amount odd.
Proof.
  split; [reflexivity |]. split; [reflexivity |]. rewrite real_odd.
  assert (bpow radix2 1 <= bpow radix2 400) by (apply bpow_le; lia). change (bpow radix2 1) with 2 in *. lra.
Qed.

Lemma half_apart x y : 1 / 2 <= Rabs (real x - real y) -> apart x y.
Proof.
  intros H. right. eapply Rle_trans; [| exact H]. apply Rle_trans with (bpow radix2 (-1)); [apply bpow_le; lia |]. cbn. lra.
Qed.

Lemma fitted_steep : fitted zero_one steep.
Proof.
  apply fitted_two; [apply real_int; lia | exact amount_little |]. apply half_apart.
  rewrite (proj2 (real_int 1 ltac:(lia))), real_little, Rabs_pos_eq; lra.
Qed.
Lemma fitted_climb : fitted zero_one climb.
Proof. apply fitted_two; [exact amount_bit | exact amount_odd |]. apply half_apart. rewrite real_bit, real_odd, Rabs_left1; lra. Qed.

Lemma falling_steep : falling steep.
Proof. cbn [falling steep]. rewrite (proj2 (real_int 1 ltac:(lia))), real_little. split; [lra | exact I]. Qed.
Lemma rising_climb : rising climb.
Proof. cbn [rising climb]. rewrite real_bit, real_odd. split; [lra | exact I]. Qed.

Definition low : F64 := S754_finite false 4503599627370496 (-105).
Definition high : F64 := S754_finite false 4503599627370500 (-52).
Lemma real_low : real low = 1 / 9007199254740992.
Proof. unfold real, low, SF2R, F2R. cbn -[IZR]. lra. Qed.
Lemma real_high : real high = 4503599627370500 / 4503599627370496.
Proof. unfold real, high, SF2R, F2R. cbn -[IZR]. lra. Qed.

Lemma steep_last : evaluate zero_one steep (nofZ F64 1) 0 = Some (low, 0%nat).
Proof. vm_compute. reflexivity. Qed.
Lemma steep_beyond : evaluate zero_one steep (nofZ F64 2) 0 = Some (little, 0%nat).
Proof. vm_compute. reflexivity. Qed.
Lemma climb_last : evaluate zero_one climb (nofZ F64 1) 0 = Some (high, 0%nat).
Proof. vm_compute. reflexivity. Qed.
Lemma climb_beyond : evaluate zero_one climb (nofZ F64 2) 0 = Some (odd, 0%nat).
Proof. vm_compute. reflexivity. Qed.

Lemma refute_last : exists xs ys x y c, fitted xs ys /\ nth_error xs (List.length xs - 1) = Some x /\
  nth_error ys (List.length xs - 1) = Some y /\ exists z, evaluate xs ys x 0 = Some (z, c) /\ real z < real y.
Proof.
  exists zero_one, steep, (nofZ F64 1), little, 0%nat. split; [exact fitted_steep |]. split; [reflexivity |]. split; [reflexivity |].
  exists low. split; [exact steep_last |]. rewrite real_low, real_little. lra.
Qed.

Lemma refute_between : exists xs ys x y c x0 x1 y0 y1, fitted xs ys /\ double x /\ finite x /\ evaluate xs ys x 0 = Some (y, c) /\
  interval xs ys (real x) x0 x1 y0 y1 /\ ~ (Rmin y0 y1 <= real y <= Rmax y0 y1).
Proof.
  exists zero_one, steep, (nofZ F64 1), low, 0%nat, 0, 1, 1, (real little).
  destruct (real_int 1 ltac:(lia)) as [(V & F & _) E1]. destruct (real_int 0 ltac:(lia)) as [_ E0].
  split; [exact fitted_steep |]. split; [exact V |]. split; [exact F |]. split; [exact steep_last |].
  split.
  - exists 0%nat. split; [exists (nofZ F64 0), (nofZ F64 1); auto |]. split; [exists (nofZ F64 1), little; auto |]. split; [lra |]. right. auto.
  - rewrite Rmin_right by (rewrite real_little; lra). rewrite real_low, real_little. lra.
Qed.

Lemma refute_falls : exists xs ys x x' y y', fitted xs ys /\ falling ys /\ double x /\ finite x /\ double x' /\ finite x' /\
  real x <= real x' /\ evaluate xs ys x 0 = Some (y, 0%nat) /\ evaluate xs ys x' 0 = Some (y', 0%nat) /\ real y < real y'.
Proof.
  exists zero_one, steep, (nofZ F64 1), (nofZ F64 2), low, little.
  destruct (real_int 1 ltac:(lia)) as [(V & F & _) E1]. destruct (real_int 2 ltac:(lia)) as [(V2 & F2 & _) E2].
  split; [exact fitted_steep |]. split; [exact falling_steep |]. repeat (split; [assumption |]). split; [lra |].
  split; [exact steep_last |]. split; [exact steep_beyond |]. rewrite real_low, real_little. lra.
Qed.

Lemma refute_rises : exists xs ys x x' y y', fitted xs ys /\ rising ys /\ double x /\ finite x /\ double x' /\ finite x' /\
  real x <= real x' /\ evaluate xs ys x 0 = Some (y, 0%nat) /\ evaluate xs ys x' 0 = Some (y', 0%nat) /\ real y' < real y.
Proof.
  exists zero_one, climb, (nofZ F64 1), (nofZ F64 2), high, odd.
  destruct (real_int 1 ltac:(lia)) as [(V & F & _) E1]. destruct (real_int 2 ltac:(lia)) as [(V2 & F2 & _) E2].
  split; [exact fitted_climb |]. split; [exact rising_climb |]. repeat (split; [assumption |]). split; [lra |].
  split; [exact climb_last |]. split; [exact climb_beyond |]. rewrite real_high, real_odd. lra.
Qed.
