(** * Tables in double precision (C98): finding the interval *)
From Coq Require Import ZArith Reals List Lra Lia Floats.SpecFloat.
From Flocq Require Import Core Relative BinarySingleNaN.
From Verif Require Import Num Double_spec Double_proofs Double_proofs2 Deriv_proofs3 Totals Totals_spec
  Totals_proofs Spread Spread_spec Tabled Tabled_spec Tabled_proofs.
Import ListNotations.
Local Open Scope R_scope.
Local Instance p53i : Prec_gt_0 53 := eq_refl.
Local Instance e1024i : Prec_lt_emax 53 1024 := eq_refl.

Lemma ltb_real x y : double x -> double y -> finite x -> finite y -> (nltb F64 x y = true <-> real x < real y).
Proof. intros Vx Vy Fx Fy. apply finite_same in Fx, Fy. now apply (ltb_value 53 1024). Qed.
Lemma leb_real x y : double x -> double y -> finite x -> finite y -> (nleb F64 x y = true <-> real x <= real y).
Proof. intros Vx Vy Fx Fy. apply finite_same in Fx, Fy. now apply (leb_value 53 1024). Qed.
Lemma ltb_real_false x y : double x -> double y -> finite x -> finite y -> (nltb F64 x y = false <-> real y <= real x).
Proof.
  intros Vx Vy Fx Fy. rewrite <- Bool.not_true_iff_false, (ltb_real x y Vx Vy Fx Fy). split; [apply Rnot_lt_le | intros H G; lra].
Qed.
Lemma leb_real_false x y : double x -> double y -> finite x -> finite y -> (nleb F64 x y = false <-> real y < real x).
Proof.
  intros Vx Vy Fx Fy. rewrite <- Bool.not_true_iff_false, (leb_real x y Vx Vy Fx Fy). split; [apply Rnot_le_lt | intros H G; lra].
Qed.

Lemma at_error l i : (i < List.length l)%nat -> nth_error l i = Some (at_ l i).
Proof. intros H. now apply nth_error_nth'. Qed.
Lemma error_at l i x : nth_error l i = Some x -> x = at_ l i /\ (i < List.length l)%nat.
Proof.
  intros H. assert (L : (i < List.length l)%nat) by (apply nth_error_Some; congruence).
  split; [| exact L]. pose proof (at_error l i L). congruence.
Qed.
Lemma at_forall P l i : Forall P l -> (i < List.length l)%nat -> P (at_ l i).
Proof. intros F L. rewrite Forall_forall in F. apply F, nth_In, L. Qed.

Section Table.
  Variables xs ys : list F64.
  Hypothesis fit : fitted xs ys.
  Let n := List.length xs.

  Lemma fit_x i : (i < n)%nat -> between (- bpow radix2 400) (bpow radix2 400) (at_ xs i).
  Proof. intros H. apply at_forall; [apply fit | exact H]. Qed.
  Lemma fit_y i : (i < n)%nat -> amount (at_ ys i).
  Proof. intros H. apply at_forall; [apply fit |]. destruct fit as (E & _). rewrite <- E. exact H. Qed.
  Lemma fit_step i : (S i < n)%nat -> real (at_ xs i) + bpow radix2 (-1000) <= real (at_ xs (S i)).
  Proof. intros H. destruct fit as (_ & _ & _ & _ & X & _). apply (X i); apply at_error; unfold n in H; lia. Qed.
  Lemma fit_apart i : (S i < n)%nat -> apart (at_ ys i) (at_ ys (S i)).
  Proof. intros H. destruct fit as (E & _ & _ & _ & _ & Y). apply (Y i); apply at_error; unfold n in H; lia. Qed.
  Lemma fit_order i j : (i < j)%nat -> (j < n)%nat -> real (at_ xs i) < real (at_ xs j).
  Proof.
    intros H L. induction j as [| j IH]; [lia |]. pose proof (fit_step j L). pose proof (bpow_gt_0 radix2 (-1000)).
    destruct (Nat.eq_dec i j) as [-> | N]; [lra |]. specialize (IH ltac:(lia) ltac:(lia)). lra.
  Qed.
  Lemma fit_long : (2 <= n)%nat.
  Proof. apply fit. Qed.

  Variable x : F64.
  Hypotheses (Vx : double x) (Fx : finite x).

  (** The interval of [x]. *)
  Definition located (i : nat) : Prop :=
    (S i < n)%nat /\ real (at_ xs i) <= real x /\ (real x < real (at_ xs (S i)) \/ real x = real (at_ xs (S i)) /\ S (S i) = n).

  Lemma located_once i j : located i -> located j -> i = j.
  Proof.
    intros (Li & Ai & Bi) (Lj & Aj & Bj). destruct (Nat.lt_trichotomy i j) as [H | [H | H]]; [| exact H |]; exfalso.
    - destruct Bi as [Bi | [_ Bi]]; [| lia]. destruct (Nat.eq_dec (S i) j) as [<- | N]; [lra |].
      pose proof (fit_order (S i) j ltac:(lia) ltac:(lia)). lra.
    - destruct Bj as [Bj | [_ Bj]]; [| lia]. destruct (Nat.eq_dec (S j) i) as [<- | N]; [lra |].
      pose proof (fit_order (S j) i ltac:(lia) ltac:(lia)). lra.
  Qed.

  Lemma below i : (i < n)%nat -> (nltb F64 x (at_ xs i) = true <-> real x < real (at_ xs i)).
  Proof. intros H. destruct (fit_x i H) as (V & F & _). now apply ltb_real. Qed.
  Lemma not_below i : (i < n)%nat -> (nltb F64 x (at_ xs i) = false <-> real (at_ xs i) <= real x).
  Proof. intros H. destruct (fit_x i H) as (V & F & _). now apply ltb_real_false. Qed.
  Lemma above i : (i < n)%nat -> (nltb F64 (at_ xs i) x = true <-> real (at_ xs i) < real x).
  Proof. intros H. destruct (fit_x i H) as (V & F & _). now apply ltb_real. Qed.
  Lemma not_above i : (i < n)%nat -> (nltb F64 (at_ xs i) x = false <-> real x <= real (at_ xs i)).
  Proof. intros H. destruct (fit_x i H) as (V & F & _). now apply ltb_real_false. Qed.

  Lemma bsearch_ok : forall fuel lo hi, (lo < hi < n)%nat -> (hi - lo <= fuel)%nat -> real (at_ xs lo) <= real x ->
    exists i, bsearch fuel xs x lo hi = Some i /\ (lo <= i < hi)%nat /\ real (at_ xs i) <= real x /\ (real x < real (at_ xs (S i)) \/ S i = hi).
  Proof.
    induction fuel as [| fuel IH]; intros lo hi H F L; [lia |]. cbn [bsearch].
    destruct (Nat.ltb_spec (S lo) hi) as [G | G].
    - set (m := ((hi + lo) / 2)%nat).
      assert (M : (lo < m < hi)%nat).
      { split; [apply Nat.div_le_lower_bound; lia | apply Nat.div_lt_upper_bound; lia]. }
      destruct (nltb F64 x (at_ xs m)) eqn:T.
      + apply below in T; [| lia]. destruct (IH lo m ltac:(lia) ltac:(lia) L) as (i & E & B & A1 & A2).
        exists i. split; [exact E |]. split; [lia |]. split; [exact A1 |]. destruct A2 as [A2 | A2]; [now left |]. left. rewrite A2. exact T.
      + apply not_below in T; [| lia]. destruct (IH m hi ltac:(lia) ltac:(lia) T) as (i & E & B & A1 & A2).
        exists i. split; [exact E |]. split; [lia |]. split; [exact A1 | exact A2].
    - exists lo. split; [reflexivity |]. split; [lia |]. split; [exact L |]. right. lia.
  Qed.

  Lemma find_ok cache : (S cache < n)%nat -> real (at_ xs 0) <= real x <= real (at_ xs (n - 1)) ->
    exists i, accel_find xs x cache = Some i /\ located i.
  Proof.
    intros C B. pose proof fit_long as L. unfold accel_find. fold n.
    destruct (nltb F64 x (at_ xs cache)) eqn:T.
    - apply below in T; [| lia]. assert (N : cache <> 0%nat) by (intros ->; lra).
      destruct (bsearch_ok n 0 cache ltac:(lia) ltac:(lia) (proj1 B)) as (i & E & I & A1 & A2).
      exists i. split; [exact E |]. split; [lia |]. split; [exact A1 |]. left. destruct A2 as [A2 | <-]; assumption.
    - apply not_below in T; [| lia]. destruct (fit_x (S cache) C) as (V & F & _).
      destruct (nleb F64 (at_ xs (S cache)) x) eqn:U.
      + destruct (bsearch_ok n cache (n - 1) ltac:(lia) ltac:(lia) T) as (i & E & I & A1 & A2).
        exists i. split; [exact E |]. split; [lia |]. split; [exact A1 |].
        destruct A2 as [A2 | A2]; [now left |]. rewrite A2. destruct (Rlt_or_le (real x) (real (at_ xs (n - 1)))) as [G | G]; [now left |].
        right. split; [lra | lia].
      + apply leb_real_false in U; try assumption. exists cache. split; [reflexivity |]. split; [lia |]. split; [exact T | now left].
  Qed.

  (** What a call does. *)
  Lemma evaluated cache : (S cache < n)%nat ->
    exists y c, evaluate xs ys x cache = Some (y, c) /\ (S c < n)%nat /\
      ((real x < real (at_ xs 0) /\ y = at_ ys 0) \/
       (real (at_ xs (n - 1)) < real x /\ y = at_ ys (n - 1)) \/
       (exists i, located i /\ y = segment (at_ xs i) (at_ xs (S i)) (at_ ys i) (at_ ys (S i)) x)).
  Proof.
    intros C. pose proof fit_long as L. unfold evaluate. fold n.
    destruct (nltb F64 x (at_ xs 0)) eqn:T.
    { apply below in T; [| lia]. do 2 eexists. split; [reflexivity |]. auto. }
    apply not_below in T; [| lia]. destruct (nltb F64 (at_ xs (n - 1)) x) eqn:U.
    { apply above in U; [| lia]. do 2 eexists. split; [reflexivity |]. auto. }
    apply not_above in U; [| lia]. destruct (find_ok cache C (conj T U)) as (i & -> & I).
    do 2 eexists. split; [reflexivity |]. split; [apply I |]. right. right. eauto.
  Qed.

  Lemma located_value i : located i ->
    let y := segment (at_ xs i) (at_ xs (S i)) (at_ ys i) (at_ ys (S i)) x in
    double y /\ finite y /\
    real y = on (real (at_ ys i)) (real (at_ ys (S i))) (part (real (at_ xs i)) (real (at_ xs (S i))) (real x)).
  Proof.
    intros (L & A & B). apply segment_value; try assumption; try (apply fit_x; lia); try (apply fit_y; lia).
    - now apply fit_step.
    - destruct B as [B | [B _]]; lra.
  Qed.

  Lemma located_point i x0 x1 y0 y1 : point xs ys i x0 y0 -> point xs ys (S i) x1 y1 ->
    (S i < n)%nat /\ x0 = real (at_ xs i) /\ x1 = real (at_ xs (S i)) /\ y0 = real (at_ ys i) /\ y1 = real (at_ ys (S i)).
  Proof.
    intros (a & b & A & B & -> & ->) (a' & b' & A' & B' & -> & ->).
    apply error_at in A, B, A', B'. destruct A as [-> _], B as [-> _], A' as [-> L], B' as [-> _]. auto 10.
  Qed.

  Lemma interval_located x0 x1 y0 y1 : interval xs ys (real x) x0 x1 y0 y1 ->
    exists i, located i /\ x0 = real (at_ xs i) /\ x1 = real (at_ xs (S i)) /\ y0 = real (at_ ys i) /\ y1 = real (at_ ys (S i)).
  Proof.
    intros (i & P & Q & A & B). destruct (located_point i _ _ _ _ P Q) as (L & E1 & E2 & E3 & E4). subst.
    exists i. split; [| auto]. split; [exact L |]. split; [exact A | exact B].
  Qed.

  Lemma located_interval i : located i ->
    interval xs ys (real x) (real (at_ xs i)) (real (at_ xs (S i))) (real (at_ ys i)) (real (at_ ys (S i))).
  Proof.
    intros (L & A & B). destruct fit as (E & _). exists i.
    assert (K : forall j, (j < n)%nat -> point xs ys j (real (at_ xs j)) (real (at_ ys j))).
    { intros j J. exists (at_ xs j), (at_ ys j). split; [now apply at_error |]. split; [apply at_error; unfold n in J; lia | auto]. }
    split; [apply K; lia |]. split; [now apply K |]. split; [exact A | exact B].
  Qed.

  Lemma located_inside i : located i -> real (at_ xs 0) <= real x <= real (at_ xs (n - 1)).
  Proof.
    intros (L & A & B). split.
    - destruct i; [exact A |]. pose proof (fit_order 0 (S i) ltac:(lia) ltac:(lia)). lra.
    - destruct B as [B | [B E]].
      + destruct (Nat.eq_dec (S i) (n - 1)) as [<- | N]; [lra |]. pose proof (fit_order (S i) (n - 1) ltac:(lia) ltac:(lia)). lra.
      + replace (n - 1)%nat with (S i) by lia. lra.
  Qed.

  (** The value in an interval. *)
  Lemma evaluated_in cache i y c : (S cache < n)%nat -> located i -> evaluate xs ys x cache = Some (y, c) ->
    y = segment (at_ xs i) (at_ xs (S i)) (at_ ys i) (at_ ys (S i)) x.
  Proof.
    intros C I E. destruct (evaluated cache C) as (y' & c' & E' & _ & D). rewrite E in E'. injection E' as <- <-.
    pose proof (located_inside i I). destruct D as [[D _] | [[D _] | (j & J & ->)]]; [lra | lra |].
    now rewrite (located_once j i J I).
  Qed.
End Table.
