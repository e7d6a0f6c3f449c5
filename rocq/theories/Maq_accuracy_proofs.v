(** * How accurate an integration is *)
From Coq Require Import ZArith Bool.
From Coquelicot Require Import Coquelicot.
From Coq Require Import Reals List Lra Lia.
From Verif Require Import Num ER ER_proofs Maq Maq_spec Maq_search_proofs Maq_loop_proofs Maq_proofs Maq_ER_spec
  Maq_ER_proofs Maq_ER_proofs3 Group Group_proofs2.
Import ListNotations.
Local Open Scope R_scope.

(** ** Close to a polynomial *)
Lemma boole_close : forall u v e ga gd gc ge gb ga' gd' gc' ge' gb', u < v ->
  Rabs (ga - ga') <= e -> Rabs (gd - gd') <= e -> Rabs (gc - gc') <= e -> Rabs (ge - ge') <= e -> Rabs (gb - gb') <= e ->
  boole u v ga' gd' gc' ge' gb' - e * (v - u) <= boole u v ga gd gc ge gb <= boole u v ga' gd' gc' ge' gb' + e * (v - u).
Proof.
  intros u v e ga gd gc ge gb ga' gd' gc' ge' gb' Huv Ha Hd Hc He Hb.
  apply Rabs_le_between in Ha, Hd, Hc, He, Hb. unfold boole.
  set (S := 7 * ga + 32 * gd + 12 * gc + 32 * ge + 7 * gb).
  set (S' := 7 * ga' + 32 * gd' + 12 * gc' + 32 * ge' + 7 * gb').
  assert (- 90 * e <= S - S' <= 90 * e) by (unfold S, S'; lra).
  assert (0 < (v - u) / 90) by lra. split; nra.
Qed.

Theorem accuracy : forall (f : er -> er) (s : settings ER) fuel r a b (p : R -> R) cs e i,
  limits_ok s -> 0 <= a < b -> (length cs <= 6)%nat ->
  (forall t, a <= t <= b -> image f t = Fin (p t)) ->
  (forall t, a <= t <= b -> Rabs (p t - poly cs t) <= e) ->
  is_integral p a b i ->
  MAQ ER f fuel s = Done r -> mr_range r = Some (Fin a, Fin b) -> mr_successful r = true ->
  exists v, mr_integral r = Fin v /\ Rabs (v - i) <= 2 * e * (b - a).
Proof.
  intros f s fuel r a b p cs e i Hs Hab Hl Hp He Hi H Hr Hsucc.
  destruct (poly5 cs Hl) as (c0 & c1 & c2 & c3 & c4 & c5 & Hc).
  set (h := prim5 c0 c1 c2 c3 c4 c5).
  destruct (integral_between f s fuel r a b p (fun t => h t - e * t) (fun t => h t + e * t)) as [v [Ev Hv]]; try assumption.
  - intros u w Hu Hw.
    pose proof (boole_exact (poly cs) c0 c1 c2 c3 c4 c5 u w Hc) as B. fold h in B.
    destruct (boole_close u w e (p u) (p ((3 * u + w) / 4)) (p ((u + w) / 2)) (p ((u + 3 * w) / 4)) (p w)
                (poly cs u) (poly cs ((3 * u + w) / 4)) (poly cs ((u + w) / 2)) (poly cs ((u + 3 * w) / 4)) (poly cs w)) as [L U];
      try apply He; try lra.
  - exists v. split; [exact Ev|].
    pose proof (prim5_RInt (poly cs) c0 c1 c2 c3 c4 c5 a b Hc) as Q. fold h in Q.
    assert (D : Rabs (i - (h b - h a)) <= e * (b - a)).
    { pose proof (is_RInt_minus p (poly cs) a b i (h b - h a) Hi Q) as M.
      apply (norm_RInt_le_const (fun t => minus (p t) (poly cs t)) a b (minus i (h b - h a)) e) in M; [|lra|].
      - change (norm (minus i (h b - h a))) with (Rabs (i - (h b - h a))) in M. lra.
      - intros t Ht. change (norm (minus (p t) (poly cs t))) with (Rabs (p t - poly cs t)). apply He. lra. }
    apply Rabs_le_between in D. apply Rabs_le_between. lra.
Qed.

(** ** Six derivatives *)
Lemma taylor_close : forall (p : R -> R) a b M, a < b ->
  (forall t, a <= t <= b -> forall k, (k <= 6)%nat -> ex_derive_n p k t) ->
  (forall t, a < t < b -> Rabs (Derive_n p 6 t) <= M) ->
  exists cs, (length cs <= 6)%nat /\ forall t, a <= t <= b -> Rabs (p t - poly cs t) <= M * (b - a) ^ 6 / 720.
Proof.
  intros p a b M Hab Hd HM.
  set (d := fun k => Derive_n p k a).
  set (T := fun t => sum_f_R0 (fun m => (t - a) ^ m / INR (fact m) * d m) 5).
  assert (HT : exists cs, (length cs <= 6)%nat /\ forall t, poly cs t = T t).
  { exists [d 0%nat - d 1%nat * a + d 2%nat * a ^ 2 / 2 - d 3%nat * a ^ 3 / 6 + d 4%nat * a ^ 4 / 24 - d 5%nat * a ^ 5 / 120;
            d 1%nat - d 2%nat * a + d 3%nat * a ^ 2 / 2 - d 4%nat * a ^ 3 / 6 + d 5%nat * a ^ 4 / 24;
            d 2%nat / 2 - d 3%nat * a / 2 + d 4%nat * a ^ 2 / 4 - d 5%nat * a ^ 3 / 12;
            d 3%nat / 6 - d 4%nat * a / 6 + d 5%nat * a ^ 2 / 12;
            d 4%nat / 24 - d 5%nat * a / 24;
            d 5%nat / 120].
    split; [cbn; lia|]. intros t. unfold T. cbn [poly sum_f_R0].
    replace (INR (fact 0)) with 1 by (cbn; ring). replace (INR (fact 1)) with 1 by (cbn; ring).
    replace (INR (fact 2)) with 2 by (cbn; ring). replace (INR (fact 3)) with 6 by (cbn; ring).
    replace (INR (fact 4)) with 24 by (cbn; ring). replace (INR (fact 5)) with 120 by (cbn; ring).
    field. }
  destruct HT as (cs & Hl & HT). exists cs. split; [exact Hl|]. intros t Ht. rewrite HT.
  assert (H0 : 0 <= M).
  { apply Rle_trans with (Rabs (Derive_n p 6 ((a + b) / 2))); [apply Rabs_pos|]. apply HM. lra. }
  destruct (Req_dec t a) as [->|N].
  - replace (p a - T a) with 0.
    + rewrite Rabs_R0. apply Rmult_le_pos; [|lra]. apply Rmult_le_pos; [exact H0|]. apply pow_le. lra.
    + unfold T. cbn [sum_f_R0 pow]. replace (a - a) with 0 by ring. change (d 0%nat) with (p a).
      replace (INR (fact 0)) with 1 by (cbn; ring). field. repeat split; apply not_0_INR; apply fact_neq_0.
  - destruct (Taylor_Lagrange p 5 a t) as (z & Hz & Ez); [lra| |].
    + intros x Hx k Hk. apply Hd; [lra|lia].
    + rewrite Ez. fold T. change (sum_f_R0 _ 5) with (T t).
      replace (T t + (t - a) ^ 6 / INR (fact 6) * Derive_n p 6 z - T t) with ((t - a) ^ 6 / INR (fact 6) * Derive_n p 6 z) by ring.
      replace (INR (fact 6)) with 720 by (cbn; ring).
      rewrite Rabs_mult. assert (P : 0 <= (t - a) ^ 6) by (apply pow_le; lra).
      rewrite (Rabs_pos_eq ((t - a) ^ 6 / 720)) by lra.
      assert (P2 : (t - a) ^ 6 <= (b - a) ^ 6) by (apply pow_incr; lra).
      assert (P3 : Rabs (Derive_n p 6 z) <= M) by (apply HM; lra).
      pose proof (Rabs_pos (Derive_n p 6 z)) as P4.
      replace (M * (b - a) ^ 6 / 720) with ((b - a) ^ 6 / 720 * M) by field.
      apply Rmult_le_compat; lra.
Qed.

Theorem accuracy_smooth : forall (f : er -> er) (s : settings ER) fuel r a b (p : R -> R) M i,
  limits_ok s -> 0 <= a < b ->
  (forall t, a <= t <= b -> image f t = Fin (p t)) ->
  (forall t, a <= t <= b -> forall k, (k <= 6)%nat -> ex_derive_n p k t) ->
  (forall t, a < t < b -> Rabs (Derive_n p 6 t) <= M) ->
  is_integral p a b i ->
  MAQ ER f fuel s = Done r -> mr_range r = Some (Fin a, Fin b) -> mr_successful r = true ->
  exists v, mr_integral r = Fin v /\ Rabs (v - i) <= M * (b - a) ^ 7 / 360.
Proof.
  intros f s fuel r a b p M i Hs Hab Hp Hd HM Hi H Hr Hsucc.
  destruct (taylor_close p a b M (proj2 Hab) Hd HM) as (cs & Hl & He).
  destruct (accuracy f s fuel r a b p cs _ i Hs Hab Hl Hp He Hi H Hr Hsucc) as (v & Ev & Hv).
  exists v. split; [exact Ev|]. replace (M * (b - a) ^ 7 / 360) with (2 * (M * (b - a) ^ 6 / 720) * (b - a)) by field. exact Hv.
Qed.

(** ** The substitution *)
Theorem substitution : forall (g : R -> R) a b i, 0 < a < b ->
  (forall x, 1 / b - 1 <= x <= 1 / a - 1 -> continuous g x) ->
  is_integral g (1 / b - 1) (1 / a - 1) i ->
  is_integral (fun t => g (1 / t - 1) / (t * t)) a b i.
Proof.
  intros g a b i Hab Hc Hi. unfold is_integral in *.
  assert (Hm : Rmin a b = a) by (apply Rmin_left; lra). assert (HM : Rmax a b = b) by (apply Rmax_right; lra).
  assert (Ht : forall t, a <= t <= b -> 1 / b - 1 <= 1 / t - 1 <= 1 / a - 1).
  { intros t Ht. assert (/ b <= / t) by (apply Rinv_le_contravar; lra). assert (/ t <= / a) by (apply Rinv_le_contravar; lra).
    unfold Rdiv. lra. }
  pose proof (is_RInt_comp g (fun t => 1 / t - 1) (fun t => - / (t * t)) a b) as C.
  rewrite Hm, HM in C.
  assert (C' : is_RInt (fun y => scal (- / (y * y)) (g (1 / y - 1))) a b (RInt g (1 / a - 1) (1 / b - 1))).
  { apply C.
    - intros x Hx. apply Hc. apply Ht. exact Hx.
    - intros x Hx. split.
      + auto_derive; [lra|]. field. lra.
      + apply (ex_derive_continuous (fun t => - / (t * t))). auto_derive. apply Rmult_integral_contrapositive. lra. }
  apply is_RInt_swap in Hi.
  assert (U : RInt g (1 / a - 1) (1 / b - 1) = opp i).
  { unfold RInt. apply (is_RInt_unique (V := R_CompleteNormedModule)). exact Hi. }
  rewrite U in C'.
  apply is_RInt_opp in C'. rewrite (opp_opp (G := R_AbelianGroup)) in C'.
  eapply is_RInt_ext; [|exact C']. intros t T. rewrite Hm, HM in T. unfold scal, opp. cbn. unfold mult. cbn. field. lra.
Qed.

(** ** The tolerance is no bound *)
Definition bumps : list R := [0; 3 / 32; - (25 / 32); 35 / 16; - (5 / 2); 1].
Definition hidden (K : R) : list R :=
  [1; 0; K * (9 / 1024); K * - (150 / 1024); K * (1045 / 1024); K * - (3980 / 1024); K * (9092 / 1024); K * - (12800 / 1024);
   K * (10880 / 1024); K * - 5; K].

Lemma hidden_is : forall K t, poly (hidden K) t = 1 + K * (poly bumps t * poly bumps t).
Proof. intros K t. unfold hidden, bumps. cbn [poly]. field. Qed.

Lemma range_flat : forall f fuel tol maxeval c0 tr,
  image f 0 = Fin 1 -> image f (1 / 4) = Fin 1 -> image f (1 / 2) = Fin 1 -> image f (3 / 4) = Fin 1 -> image f 1 = Fin 1 ->
  (0 <= c0)%Z -> (c0 + 4 <= maxeval)%Z -> (maxeval < 4294967296)%Z ->
  exists r, integrate_range ER f (S (S fuel)) (Fin tol) maxeval c0 (Fin 0) (Fin 1) tr = Done r /\
    mr_successful r = true /\ mr_integral r = Fin 1.
Proof.
  intros f fuel tol maxeval c0 tr F0 F1 F2 F3 F4 H0 H1 H2.
  assert (M1 : (0 + 1) / 2 = 1 / 2) by lra.
  assert (M2 : (0 + 1 / 2) / 2 = 1 / 4) by lra.
  assert (M3 : (1 + 1 / 2) / 2 = 3 / 4) by lra.
  assert (M4 : (1 / 2 + 1) / 2 = 3 / 4) by lra.
  unfold integrate_range. rewrite eval_left_image, eval_at_image by lra.
  rewrite F0, F4. cbn [nisnan ER er_isnan nadd ndiv nofZ er_add].
  rewrite er_div_fin by lra. rewrite M1. rewrite eval_at_image by lra. rewrite F2.
  cbn [er_isnan]. unfold u32. rewrite Z.mod_small by lia.
  cbn [maq_loop rg_a rg_b rg_c rg_fa rg_fb rg_fc rg_r].
  unfold u32. rewrite Z.mod_small by lia.
  replace (maxeval <? c0 + 3 + 1)%Z with false by (symmetry; apply Z.ltb_ge; lia).
  cbn [nisnan nadd ndiv nofZ ER er_add].
  rewrite !er_div_fin by lra. rewrite ?M2, ?M3, ?M4. rewrite !eval_at_image by lra. rewrite ?F1, ?F3.
  cbn [er_isnan].
  assert (Qf : forall u v w x y z, quad ER (Fin u) (Fin v) (Fin w) (Fin x) (Fin y) (Fin z)
                                = Fin ((v - u) / 6 * (x + 4 * z + y))).
  { intros. unfold quad. cbn [nmul ndiv nsub nadd nofZ ER]. rewrite er_sub_fin, er_div_fin by lra.
    reflexivity. }
  rewrite !Qf. cbn [nsub nabs nleb nmul er_add ER er_mul]. rewrite !er_sub_fin.
  match goal with |- context [er_abs (Fin ?x)] => assert (E0 : x = 0) by lra; rewrite E0 end.
  cbn [er_abs]. rewrite Rabs_R0.
  replace (er_leb (Fin 0) _) with true by (symmetry; apply Rleb_true, Rabs_pos).
  cbn [orb obind maq_loop].
  eexists. split; [reflexivity|]. cbn [mr_successful mr_integral]. split; [reflexivity|].
  rewrite er_div_fin by lra. f_equal. lra.
Qed.

(** The integrand whose image is the polynomial. *)
Definition hider (K : R) (x : er) : er :=
  match x with Fin x => Fin (poly (hidden K) (/ (1 + x)) * (/ (1 + x) * / (1 + x))) | PInf => Fin 1 | _ => NaN end.

Lemma hider_image : forall K t, 0 <= t <= 1 -> image (hider K) t = Fin (poly (hidden K) t).
Proof.
  intros K t Ht. unfold image. destruct (Req_EM_T t 0) as [->|N].
  - cbn [hider]. f_equal. rewrite hidden_is. unfold bumps. cbn [poly]. ring.
  - cbn [hider]. rewrite er_div_fin by (intros Q; apply Rmult_integral in Q; tauto). f_equal.
    replace (1 + (1 / t - 1)) with (/ t) by (field; exact N). rewrite Rinv_inv. field. exact N.
Qed.

Lemma bumps_nodes : poly bumps 0 = 0 /\ poly bumps (1 / 4) = 0 /\ poly bumps (1 / 2) = 0 /\ poly bumps (3 / 4) = 0 /\ poly bumps 1 = 0.
Proof. unfold bumps. cbn [poly]. repeat split; field. Qed.

Lemma hidden_integral : forall K, is_integral (poly (hidden K)) 0 1 (1 + K * (5 / 1419264)).
Proof.
  intros K. unfold is_integral.
  set (F := fun t => t + K * (9 / 1024) * t ^ 3 / 3 + K * - (150 / 1024) * t ^ 4 / 4 + K * (1045 / 1024) * t ^ 5 / 5
     + K * - (3980 / 1024) * t ^ 6 / 6 + K * (9092 / 1024) * t ^ 7 / 7 + K * - (12800 / 1024) * t ^ 8 / 8
     + K * (10880 / 1024) * t ^ 9 / 9 + K * - 5 * t ^ 10 / 10 + K * t ^ 11 / 11).
  replace (1 + K * (5 / 1419264)) with (minus (F 1) (F 0)) by (unfold F, minus, plus, opp; cbn; field).
  apply (is_RInt_derive F).
  - intros t _. unfold F, hidden. cbn [poly]. auto_derive; [trivial|]. cbn [Nat.pred pow INR]. field.
  - intros t _. unfold hidden. cbn [poly]. apply (ex_derive_continuous (V := R_NormedModule)). auto_derive. trivial.
Qed.

Lemma hider_run : forall K, exists r,
  MAQ ER (hider K) (fuel_for ER (default_settings ER)) (default_settings ER) = Done r /\
  mr_successful r = true /\ mr_range r = Some (Fin 0, Fin 1) /\ mr_integral r = Fin 1.
Proof.
  intros K. set (s := default_settings ER). set (f := hider K).
  assert (Hs : limits_ok s) by (split; split; vm_compute; discriminate || reflexivity).
  destruct (integrate_done s f Hs) as [r Er]. unfold integrate in Er. exists r. split; [exact Er|].
  destruct bumps_nodes as (B0 & B1 & B2 & B3 & B4).
  assert (Im : forall t, 0 <= t <= 1 -> poly bumps t = 0 -> image f t = Fin 1).
  { intros t Ht B. unfold f. rewrite hider_image by exact Ht. rewrite hidden_is, B. f_equal. ring. }
  assert (F1 : f (Fin 1) = Fin (1 / 4)).
  { unfold f. cbn [hider]. replace (/ (1 + 1)) with (1 / 2) by field. rewrite hidden_is, B2. f_equal. field. }
  assert (Tol : set_tolerance s = Fin (1 / 1000)).
  { cbn [set_tolerance s default_settings]. unfold tolerance_default. cbn [ndiv nofZ ER]. apply er_div_fin. lra. }
  assert (L : exists k, fuel_for ER s = S (S k)).
  { assert (2 <= fuel_for ER s)%nat by (unfold fuel_for, s; cbn [set_search_limit set_eval_limit default_settings]; lia).
    exists (fuel_for ER s - 2)%nat. lia. }
  destruct L as [k Hk].
  destruct (MAQ_directed f s _ _ r eq_refl F1 ltac:(lra) Er) as [Rr _].
  unfold MAQ in Er. change (set_method s) with DIRECTED in Er. cbn [search] in Er.
  destruct (directed_whole f (fuel_for ER s) (set_search_limit s) (1 / 4) F1 ltac:(lra)) as [tr E']. rewrite E' in Er.
  cbn [obind sr_range sr_evals sr_trace nisnan ER er_isnan] in Er. rewrite Tol, Hk in Er.
  destruct (range_flat f k (1 / 1000) (set_eval_limit s) 2 tr) as (r' & E2 & G1 & G2); try (apply Im; [lra|assumption]).
  - lia.
  - cbn. lia.
  - cbn. lia.
  - rewrite E2 in Er. injection Er as <-. repeat split; assumption.
Qed.

Lemma hidden_continuous : forall K t, continuous (poly (hidden K)) t.
Proof.
  intros K t. unfold hidden. cbn [poly]. apply (ex_derive_continuous (V := R_NormedModule)). auto_derive. trivial.
Qed.

Theorem tolerance_no_bound : forall E, exists (f : er -> er) (p : R -> R) r v i,
  MAQ ER f (fuel_for ER (default_settings ER)) (default_settings ER) = Done r /\
  mr_successful r = true /\ mr_range r = Some (Fin 0, Fin 1) /\ mr_integral r = Fin v /\
  (forall t, 0 <= t <= 1 -> image f t = Fin (p t) /\ 1 <= p t /\ continuous p t) /\
  is_integral p 0 1 i /\ E < Rabs (v - i).
Proof.
  intros E. set (K := 1419264 * (Rabs E + 1)). pose proof (Rabs_pos E) as PE.
  destruct (hider_run K) as (r & Er & G1 & G2 & G3).
  exists (hider K), (poly (hidden K)), r, 1, (1 + K * (5 / 1419264)).
  refine (conj Er (conj G1 (conj G2 (conj G3 (conj _ (conj (hidden_integral K) _)))))).
  - intros t Ht. split; [apply hider_image; exact Ht|]. split; [|apply hidden_continuous].
    rewrite hidden_is. assert (0 <= poly bumps t * poly bumps t) by nra. unfold K. nra.
  - replace (1 - (1 + K * (5 / 1419264))) with (- (5 * (Rabs E + 1))) by (unfold K; field).
    rewrite Rabs_Ropp, Rabs_pos_eq by lra. pose proof (Rle_abs E). lra.
Qed.

(** ** Derivatives of polynomials *)
Fixpoint dpoly (cs : list R) : list R :=
  match cs with
  | [] => []
  | _ :: r => (fix add (a b : list R) := match a, b with
                                         | [], b => b
                                         | a, [] => a
                                         | x :: a, y :: b => x + y :: add a b
                                         end) r (0 :: dpoly r)
  end.

Definition padd := (fix add (a b : list R) := match a, b with
                                         | [], b => b
                                         | a, [] => a
                                         | x :: a, y :: b => x + y :: add a b
                                         end).
Lemma padd_poly : forall a b t, poly (padd a b) t = poly a t + poly b t.
Proof.
  induction a as [|x a IH]; intros b t; [cbn; ring|]. destruct b as [|y b]; [cbn; ring|]. cbn [padd poly]. rewrite IH. ring.
Qed.

Lemma poly_derive : forall cs t, is_derive (poly cs) t (poly (dpoly cs) t).
Proof.
  induction cs as [|c r IH]; intros t.
  - apply (is_derive_ext (fun _ : R => 0)); [reflexivity|]. cbn [dpoly poly]. apply (is_derive_const (V := R_NormedModule)).
  - apply (is_derive_ext (fun t => c + t * poly r t)); [reflexivity|].
    change (dpoly (c :: r)) with (padd r (0 :: dpoly r)). rewrite padd_poly. cbn [poly].
    replace (poly r t + (0 + t * poly (dpoly r) t)) with (plus 0 (plus (mult 1 (poly r t)) (mult t (poly (dpoly r) t))))
      by (unfold plus, mult; cbn; ring).
    apply (is_derive_plus (fun _ => c) (fun t => t * poly r t)); [apply (is_derive_const (V := R_NormedModule))|].
    apply (is_derive_mult (fun t => t) (poly r)); [apply (is_derive_id (K := R_AbsRing))|apply IH|intros; apply Rmult_comm].
Qed.

Lemma poly_derive_n : forall k cs t, Derive_n (poly cs) k t = poly (Nat.iter k dpoly cs) t /\ ex_derive_n (poly cs) k t.
Proof.
  induction k as [|k IH]; intros cs t; [split; [reflexivity|exact I]|]. split.
  - cbn [Derive_n Nat.iter nat_rect]. rewrite (Derive_ext _ (poly (Nat.iter k dpoly cs))) by (intros u; apply IH).
    apply is_derive_unique, poly_derive.
  - cbn [ex_derive_n]. apply (ex_derive_ext (poly (Nat.iter k dpoly cs))); [intros u; symmetry; apply IH|].
    eexists. apply poly_derive.
Qed.

Lemma poly_bounded : forall cs, exists M, forall t, 0 <= t <= 1 -> Rabs (poly cs t) <= M.
Proof.
  induction cs as [|c r [M IH]]; [exists 0; intros t _; cbn [poly]; rewrite Rabs_R0; lra|].
  exists (Rabs c + M). intros t Ht. cbn [poly]. eapply Rle_trans; [apply Rabs_triang|]. apply Rplus_le_compat_l.
  rewrite Rabs_mult, (Rabs_pos_eq t) by lra. specialize (IH t Ht). pose proof (Rabs_pos (poly r t)). nra.
Qed.

Lemma bumps_small : forall t, 0 <= t <= 1 -> Rabs (poly (hidden 1) t - poly [1] t) <= 1.
Proof.
  intros t Ht. rewrite hidden_is. cbn [poly].
  replace (1 + 1 * (poly bumps t * poly bumps t) - (1 + t * 0)) with (poly bumps t * poly bumps t) by ring.
  replace (poly bumps t) with (t * (t - 1 / 4) * (t - 1 / 2) * (t - 3 / 4) * (t - 1)) by (unfold bumps; cbn [poly]; field).
  assert (P : forall x y, Rabs x <= 1 -> Rabs y <= 1 -> Rabs (x * y) <= 1).
  { intros x y Hx Hy. rewrite Rabs_mult. pose proof (Rabs_pos x). pose proof (Rabs_pos y). nra. }
  repeat apply P; apply Rabs_le_between; lra.
Qed.
