(** * Proofs about numerical derivatives: tables, power laws, rounding *)
From Coquelicot Require Import Coquelicot.
From Coq Require Import Reals List Bool ZArith Lra Lia.
From Verif Require Import Num ER ERmath Functions Functions_spec Functions_proofs Group Annual_spec Deriv Deriv_spec Deriv_proofs.
Import ListNotations.
Local Open Scope R_scope.

(** ** Tables *)
Lemma hd_nth : forall (l : list R), hd 0 l = nth 0 l 0.
Proof. intros [|a l]; reflexivity. Qed.

Lemma last_nth : forall (l : list R), last l 0 = nth (length l - 1) l 0.
Proof.
  intros l. induction l as [|a l IH]; [reflexivity|]. destruct l as [|b l]; [reflexivity|].
  change (last (a :: b :: l) 0) with (last (b :: l) 0). rewrite IH. cbn [length].
  replace (S (S (length l)) - 1)%nat with (S (S (length l) - 1)) by lia. reflexivity.
Qed.

Section Table.
  Variables (us vs : list R) (f : er -> er).
  Hypothesis HT : tabled us vs.
  Hypothesis HF : follows f us vs.

  Lemma value_segment : forall i x, (S i < length us)%nat -> nth i us 0 <= x <= nth (S i) us 0 ->
    f (Fin x) = Fin (nth i vs 0 + gradient us vs i * (x - nth i us 0)).
  Proof.
    intros i x Hi Hx. destruct (HF x) as (y & E & I). rewrite E. f_equal.
    destruct (interpolation_meaning us vs x y HT I) as (_ & _ & _ & _ & U). symmetry. apply U.
    right. exists i. split; [exact Hi|]. split; [exact Hx|]. unfold gradient.
    assert (nth i us 0 < nth (S i) us 0) by (apply HT; lia). field. lra.
  Qed.

  Lemma value_below : forall x, x <= nth 0 us 0 -> f (Fin x) = Fin (nth 0 vs 0).
  Proof.
    intros x Hx. destruct (HF x) as (y & E & I). rewrite E. f_equal.
    destruct (interpolation_meaning us vs x y HT I) as (_ & _ & B & _). rewrite <- hd_nth. apply B. rewrite hd_nth. exact Hx.
  Qed.

  Lemma value_above : forall x, nth (length us - 1) us 0 <= x -> f (Fin x) = Fin (nth (length us - 1) vs 0).
  Proof.
    intros x Hx. destruct (HF x) as (y & E & I). rewrite E. f_equal.
    destruct (interpolation_meaning us vs x y HT I) as (_ & _ & _ & B & _).
    destruct HT as (_ & L & _). rewrite L. rewrite <- last_nth. apply B. rewrite last_nth. exact Hx.
  Qed.

  Lemma slope_inside : forall h i x, 0 < h -> (S i < length us)%nat ->
    nth i us 0 <= x - h -> x + h <= nth (S i) us 0 ->
    derivative_at ER er_pow (Fin h) f (Fin x) = Fin (gradient us vs i).
  Proof.
    intros h i x Hh Hi H1 H2.
    apply slope_quartic with (a0 := nth i vs 0 + gradient us vs i * (x - nth i us 0)) (a2 := 0) (a3 := 0) (a4 := 0); [exact Hh|].
    intros t Ht. rewrite (value_segment i) by (try exact Hi; lra). f_equal. unfold quartic. ring.
  Qed.

  Lemma slope_point : forall h i, 0 < h -> (S (S i) < length us)%nat ->
    nth i us 0 <= nth (S i) us 0 - h -> nth (S i) us 0 + h <= nth (S (S i)) us 0 ->
    derivative_at ER er_pow (Fin h) f (Fin (nth (S i) us 0)) = Fin ((gradient us vs i + gradient us vs (S i)) / 2).
  Proof.
    intros h i Hh Hi H1 H2.
    assert (S1 : nth i us 0 < nth (S i) us 0) by (apply HT; lia).
    assert (E : nth i vs 0 + gradient us vs i * (nth (S i) us 0 - nth i us 0) = nth (S i) vs 0) by (unfold gradient; field; lra).
    apply slope_kink with (y := nth (S i) vs 0); [exact Hh| | |].
    - rewrite (value_segment i) by (try lia; lra). f_equal. exact E.
    - intros t Ht. rewrite (value_segment i) by (try lia; lra). f_equal. rewrite <- E. ring.
    - intros t Ht. rewrite (value_segment (S i)) by (try lia; lra). f_equal. ring.
  Qed.

  Lemma slope_first : forall h, 0 < h -> nth 0 us 0 + h <= nth 1 us 0 ->
    derivative_at ER er_pow (Fin h) f (Fin (nth 0 us 0)) = Fin (gradient us vs 0 / 2).
  Proof.
    intros h Hh H. assert (Hl : (1 < length us)%nat) by (destruct HT; lia).
    replace (gradient us vs 0 / 2) with ((0 + gradient us vs 0) / 2) by field.
    apply slope_kink with (y := nth 0 vs 0); [exact Hh| | |].
    - apply value_below. lra.
    - intros t Ht. rewrite value_below by lra. f_equal. ring.
    - intros t Ht. rewrite (value_segment 0) by (try lia; lra). f_equal. ring.
  Qed.

  Lemma slope_last : forall h n, 0 < h -> length us = S (S n) -> nth n us 0 <= nth (S n) us 0 - h ->
    derivative_at ER er_pow (Fin h) f (Fin (nth (S n) us 0)) = Fin (gradient us vs n / 2).
  Proof.
    intros h n Hh Hl H.
    assert (S1 : nth n us 0 < nth (S n) us 0) by (apply HT; lia).
    assert (E : nth n vs 0 + gradient us vs n * (nth (S n) us 0 - nth n us 0) = nth (S n) vs 0) by (unfold gradient; field; lra).
    replace (gradient us vs n / 2) with ((gradient us vs n + 0) / 2) by field.
    assert (V : forall x, nth (S n) us 0 <= x -> f (Fin x) = Fin (nth (S n) vs 0)).
    { intros x Hx. replace (S n) with (length us - 1)%nat by lia. apply value_above.
      replace (length us - 1)%nat with (S n) by lia. exact Hx. }
    apply slope_kink with (y := nth (S n) vs 0); [exact Hh| | |].
    - apply V. lra.
    - intros t Ht. rewrite (value_segment n) by (try lia; lra). f_equal. rewrite <- E. ring.
    - intros t Ht. rewrite V by lra. f_equal. ring.
  Qed.

  Lemma slope_outside : forall h x, 0 < h -> x + h <= nth 0 us 0 \/ nth (length us - 1) us 0 <= x - h ->
    derivative_at ER er_pow (Fin h) f (Fin x) = Fin 0.
  Proof.
    intros h x Hh [H|H].
    - apply slope_quartic with (a0 := nth 0 vs 0) (a2 := 0) (a3 := 0) (a4 := 0); [exact Hh|].
      intros t Ht. rewrite value_below by lra. f_equal. unfold quartic. ring.
    - apply slope_quartic with (a0 := nth (length us - 1) vs 0) (a2 := 0) (a3 := 0) (a4 := 0); [exact Hh|].
      intros t Ht. rewrite value_above by lra. f_equal. unfold quartic. ring.
  Qed.
End Table.

(** ** Power laws *)
Fixpoint falling (b : R) (k : nat) : R := match k with O => 1 | S k => falling b k * (b - INR k) end.

Lemma power_derive : forall b x u, 0 < x + u -> is_derive (fun t => Rpower (x + t) b) u (b * Rpower (x + u) (b - 1)).
Proof.
  intros b x u Hp. apply is_derive_ext with (f := fun t => exp (b * ln (x + t))); [intros; reflexivity|].
  auto_derive; [lra|]. unfold Rpower.
  replace ((b - 1) * ln (x + u)) with (b * ln (x + u) + - ln (x + u)) by ring. rewrite exp_plus, exp_Ropp, exp_ln by lra. field. lra.
Qed.

Lemma power_derive_n : forall a b x k u, 0 < x + u ->
  Derive_n (fun t => a * Rpower (x + t) b) k u = a * falling b k * Rpower (x + u) (b - INR k) /\
  ex_derive_n (fun t => a * Rpower (x + t) b) k u.
Proof.
  intros a b x k. induction k as [|k IH]; intros u Hu.
  - split; [|exact I]. cbn [Derive_n falling INR]. rewrite Rminus_0_r. ring.
  - assert (D : is_derive (Derive_n (fun t => a * Rpower (x + t) b) k) u
        (a * falling b (S k) * Rpower (x + u) (b - INR (S k)))).
    { apply is_derive_ext_loc with (f := fun t => (a * falling b k) * Rpower (x + t) (b - INR k)).
      - exists (mkposreal (x + u) Hu). intros y Hy. symmetry. apply (IH y).
        assert (B : Rabs (y - u) < x + u) by exact Hy. apply Rabs_lt_between in B. lra.
      - replace (a * falling b (S k) * Rpower (x + u) (b - INR (S k)))
          with ((a * falling b k) * ((b - INR k) * Rpower (x + u) (b - INR k - 1))).
        + apply is_derive_scal. apply power_derive. exact Hu.
        + rewrite S_INR. cbn [falling]. replace (b - (INR k + 1)) with (b - INR k - 1) by ring. ring. }
    split; [apply is_derive_unique; exact D|]. eexists. exact D.
Qed.

Lemma slope_power : forall a b x h M, 0 < h < x ->
  (forall u, - h < u < h -> Rpower (x + u) (b - 5) <= M) ->
  exists r, derivative_at ER er_pow (Fin h) (power_law (Fin a) (Fin b)) (Fin x) = Fin r /\
    Rabs (r - a * b * Rpower x (b - 1)) <= Rabs (a * b * (b - 1) * (b - 2) * (b - 3) * (b - 4)) * M * h ^ 4 / 288.
Proof.
  intros a b x h M Hh HM.
  destruct (slope_smooth (power_law (Fin a) (Fin b)) x h x (fun t => a * Rpower (x + t) b)
              (Rabs (a * b * (b - 1) * (b - 2) * (b - 3) * (b - 4)) * M)) as (r & E & B).
  - exact Hh.
  - intros t Ht. unfold power_law. cbn. unfold Rltb. destruct (Rlt_dec 0 (x + t)); [reflexivity|lra].
  - intros u Hu k _. apply power_derive_n. lra.
  - intros u Hu. destruct (power_derive_n a b x 5 u) as [-> _]; [lra|].
    rewrite Rabs_mult, (Rabs_pos_eq (Rpower _ _)) by (left; apply exp_pos).
    replace (a * falling b 5) with (a * b * (b - 1) * (b - 2) * (b - 3) * (b - 4)) by (cbn [falling INR]; ring).
    apply Rmult_le_compat_l; [apply Rabs_pos|]. replace (INR 5) with 5 by (cbn; ring). apply HM. exact Hu.
  - exists r. split; [exact E|].
    replace (a * b * Rpower x (b - 1)) with (Derive (fun t => a * Rpower (x + t) b) 0); [exact B|].
    change (Derive (fun t => a * Rpower (x + t) b) 0) with (Derive_n (fun t => a * Rpower (x + t) b) 1 0).
    destruct (power_derive_n a b x 1 0) as [-> _]; [lra|]. cbn [falling INR]. rewrite Rplus_0_r. ring.
Qed.

(** ** All cases of a table *)
Lemma slope_table : forall us vs f h, tabled us vs -> follows f us vs -> 0 < h ->
  (forall i, (S i < length us)%nat -> h <= nth (S i) us 0 - nth i us 0) ->
  let d := derivative_at ER er_pow (Fin h) f in
  (forall i x, (S i < length us)%nat -> nth i us 0 + h <= x <= nth (S i) us 0 - h -> d (Fin x) = Fin (gradient us vs i)) /\
  (forall i, (S (S i) < length us)%nat -> d (Fin (nth (S i) us 0)) = Fin ((gradient us vs i + gradient us vs (S i)) / 2)) /\
  d (Fin (nth 0 us 0)) = Fin (gradient us vs 0 / 2) /\
  d (Fin (last us 0)) = Fin (gradient us vs (length us - 2) / 2) /\
  (forall x, x + h <= nth 0 us 0 \/ last us 0 <= x - h -> d (Fin x) = Fin 0).
Proof.
  intros us vs f h HT HF Hh HS d.
  assert (L : (2 <= length us)%nat) by apply HT.
  refine (conj _ (conj _ (conj _ (conj _ _)))).
  - intros i x Hi Hx. apply slope_inside; try assumption; lra.
  - intros i Hi. pose proof (HS i ltac:(lia)). pose proof (HS (S i) ltac:(lia)). apply slope_point; try assumption; lra.
  - pose proof (HS 0%nat ltac:(lia)). apply slope_first; try assumption; lra.
  - rewrite last_nth. pose proof (HS (length us - 2)%nat ltac:(lia)) as Q.
    replace (length us - 1)%nat with (S (length us - 2)) by lia.
    apply slope_last; try assumption; try lia; lra.
  - intros x Hx. rewrite last_nth in Hx. apply (slope_outside us vs); assumption.
Qed.

(** ** Figures *)
Lemma slope_figures : forall h f x d,
  first_number (central (gsl_derivs h) f x) (forward (gsl_derivs h) f x) (backward (gsl_derivs h) f x) d ->
  d = derivative_at ER er_pow h f x.
Proof.
  intros h f x d (A & B & C). unfold derivative_at. cbn [central forward backward gsl_derivs] in *.
  destruct (gsl_central ER er_pow h f x) eqn:E1; try (rewrite A by discriminate; reflexivity).
  cbn [nisnan ER er_isnan]. destruct (gsl_forward ER er_pow h f x) eqn:E2; try (rewrite B by (reflexivity || discriminate); reflexivity).
  cbn [nisnan ER er_isnan]. apply C; reflexivity.
Qed.

Lemma follows_linear : forall us vs, tabled us vs -> exists t, new_linear (map Fin us) (map Fin vs) = Some t /\
  follows (fun x => match linear t x 0 with Some (y, _) => y | None => NaN end) us vs.
Proof.
  intros us vs HT. destruct (linear_value us vs HT) as (t & E & V). exists t. split; [exact E|].
  intros x. destruct (V x 0%nat) as (y & i & -> & _ & I); [destruct HT; lia|]. exists y. auto.
Qed.

Lemma table_case : exists t, new_linear (map Fin [0; 1; 3]) (map Fin [0; 2; 3]) = Some t /\
  derivative_at ER er_pow (Fin (/ 100)) (fun x => match linear t x 0 with Some (y, _) => y | None => NaN end) (Fin 1) = Fin (5 / 4).
Proof.
  assert (HT : tabled [0; 1; 3] [0; 2; 3]).
  { split; [cbn; lia|]. split; [reflexivity|]. intros [|[|[|i]]] [|[|[|j]]] Hi; cbn in Hi; try (exfalso; lia); cbn; lra. }
  destruct (follows_linear _ _ HT) as (t & E & F). exists t. split; [exact E|].
  destruct (slope_table _ _ _ (/ 100) HT F) as (_ & P & _); [lra| |].
  - intros [|[|[|i]]] Hi; cbn in Hi; try (exfalso; lia); cbn; lra.
  - refine (eq_trans (P 0%nat ltac:(cbn; lia)) _). f_equal. cbv [gradient nth]. field.
Qed.

Lemma exp_derives : forall k u, is_derive_n exp k u (exp u).
Proof.
  induction k as [|k IH]; intros u; [reflexivity|].
  cbn. apply (is_derive_ext exp); [intros t; symmetry; apply is_derive_n_unique, IH|].
  auto_derive; [exact I|ring].
Qed.

Lemma smooth_case : exists r,
  derivative_at ER er_pow (Fin (/ 10)) (fun x => match x with Fin a => Fin (exp a) | y => y end) (Fin 0) = Fin r /\
  Rabs (r - 1) <= 1 / 900000.
Proof.
  destruct (slope_smooth (fun x => match x with Fin a => Fin (exp a) | y => y end) 0 (/ 10) 1 exp 3) as (r & E & B).
  - lra.
  - intros t Ht. rewrite Rplus_0_l. reflexivity.
  - intros u Hu k _. destruct k as [|k]; [exact I|]. exists (exp u). apply (exp_derives (S k)).
  - intros u Hu. rewrite (is_derive_n_unique _ _ _ _ (exp_derives 5 u)). rewrite Rabs_pos_eq by (left; apply exp_pos).
    apply Rle_trans with (exp 1); [left; apply exp_increasing; lra|]. apply exp_le_3.
  - exists r. split; [exact E|].
    replace 1 with (Derive exp 0) at 1; [refine (Rle_trans _ _ _ B _); lra|].
    change (Derive exp 0) with (Derive_n exp 1 0). rewrite (is_derive_n_unique _ _ _ _ (exp_derives 1 0)). apply exp_0.
Qed.
