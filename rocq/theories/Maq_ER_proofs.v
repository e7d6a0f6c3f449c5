(** * Integration over the extended reals *)
From Coq Require Import ZArith Reals List Bool Lra Lia Permutation.
From Coquelicot Require Import Coquelicot.
From Verif Require Import Num ER ER_proofs Maq Maq_spec Maq_search_proofs Maq_search_proofs2
  Maq_loop_proofs Maq_proofs Maq_ER_spec.
Import ListNotations.
Local Open Scope R_scope.

(** ** Transformed integrand *)
Definition TER (f : er -> er) (t g : er) : Prop := exists r, t = Fin r /\ g = image f r.
Definition QER (lo hi : R) (a b : er) : Prop :=
  exists ra rb, a = Fin ra /\ b = Fin rb /\ lo <= ra /\ ra < rb /\ rb <= hi.

Lemma er_div_one : forall x, er_div x (Fin 1) = x.
Proof.
  intros [| | |x]; cbn; try reflexivity.
  - replace (Rltb 1 0) with false; [reflexivity|symmetry; apply Rltb_false; lra].
  - replace (Rltb 1 0) with false; [reflexivity|symmetry; apply Rltb_false; lra].
  - replace (Reqb 1 0) with false; [|symmetry; apply Reqb_false; lra].
    f_equal. lra.
Qed.

Lemma image_pos : forall f t, t <> 0 -> image f t = er_div (f (Fin (1 / t - 1))) (Fin (t * t)).
Proof. intros f t Ht. unfold image. destruct (Req_EM_T t 0); [contradiction|reflexivity]. Qed.

Lemma x_from_t_fin : forall t, t <> 0 -> x_from_t ER (Fin t) = Fin (1 / t - 1).
Proof.
  intros t Ht. unfold x_from_t. cbn [neqb nofZ ndiv nsub ER].
  cbn [er_eqb]. replace (Reqb t (IZR 0)) with false by (symmetry; apply Reqb_false; exact Ht).
  rewrite er_div_fin by exact Ht. reflexivity.
Qed.

Lemma eval_at_image : forall f t, t <> 0 -> eval_at ER f (Fin t) = image f t.
Proof.
  intros f t Ht. unfold eval_at. rewrite x_from_t_fin by exact Ht.
  rewrite image_pos by exact Ht. reflexivity.
Qed.

Lemma eval_left_image : forall f t, eval_left ER f (Fin t) = image f t.
Proof.
  intros f t. destruct (Req_EM_T t 0) as [->|Ht].
  - unfold eval_left, x_from_t. cbn [neqb nofZ ER er_eqb].
    replace (Reqb 0 (IZR 0)) with true by (symmetry; apply Reqb_true; reflexivity).
    cbn [ndiv ER ninf]. rewrite er_div_one. unfold image.
    destruct (Req_EM_T 0 0); [reflexivity|contradiction].
  - unfold eval_left. cbn [neqb nofZ ER er_eqb].
    replace (Reqb t (IZR 0)) with false by (symmetry; apply Reqb_false; exact Ht).
    rewrite x_from_t_fin by exact Ht. rewrite image_pos by exact Ht. reflexivity.
Qed.

Lemma midpoint_fin : forall a b c, midpoint ER (Fin a) (Fin b) c -> c = Fin ((a + b) / 2).
Proof.
  intros a b c [-> | ->]; cbn [nadd ndiv nofZ ER er_add];
    rewrite er_div_fin by lra; f_equal; lra.
Qed.

Lemma QER_HQ : forall f lo hi, 0 <= lo -> forall a b c, QER lo hi a b -> midpoint ER a b c ->
  QER lo hi a c /\ QER lo hi c b /\ TER f c (eval_at ER f c).
Proof.
  intros f lo hi Hlo a b c [ra [rb [-> [-> [H1 [H2 H3]]]]]] Hm.
  apply midpoint_fin in Hm. subst c.
  repeat split.
  - exists ra, ((ra + rb) / 2). repeat split; lra.
  - exists ((ra + rb) / 2), rb. repeat split; lra.
  - exists ((ra + rb) / 2). split; [reflexivity|]. apply eval_at_image. lra.
Qed.

Lemma MAQ_ER_post : forall f s fuel r a b, limits_ok s -> 0 <= a < b ->
  MAQ ER f fuel s = Done r -> mr_range r = Some (Fin a, Fin b) ->
  exists n0 it, (2 <= Z.of_nat n0 <= search_bound (set_method s) (set_search_limit s))%Z /\
    range_post ER (TER f) (QER a b) (set_tolerance s) (Fin a) (Fin b)
               (set_eval_limit s) (Z.of_nat n0) n0 r it.
Proof.
  intros f s fuel r a b Hs Hab H Hr.
  apply (MAQ_range_post ER f ER_order_ok s fuel r (Fin a) (Fin b) (TER f) (QER a b) Hs);
    try assumption.
  - apply QER_HQ. lra.
  - exists a, b. repeat split; lra.
  - exists a. split; [reflexivity|apply eval_left_image].
  - exists b. split; [reflexivity|]. apply eval_at_image. lra.
Qed.

(** ** Sums over tiles *)
Definition fin (x : er) : R := match x with Fin r => r | _ => 0 end.
Definition sumR (l : list R) : R := fold_right Rplus 0 l.

Lemma sumR_perm : forall l l', Permutation l l' -> sumR l = sumR l'.
Proof.
  intros l l' P. unfold sumR. induction P; cbn [fold_right] in *; lra.
Qed.

Lemma tiles_telescope : forall (h : R -> R) a b l, tiles a b l ->
  sumR (map (fun p : er * er => h (fin (snd p)) - h (fin (fst p))) l) = h (fin b) - h (fin a).
Proof.
  intros h a b l H. induction H as [a b|a c b l H IH]; cbn [map fst snd sumR fold_right].
  - lra.
  - unfold sumR in IH. rewrite IH. lra.
Qed.

Lemma covers_telescope : forall (h : R -> R) a b l, covers a b l ->
  sumR (map (fun p : er * er => h (fin (snd p)) - h (fin (fst p))) l) = h (fin b) - h (fin a).
Proof.
  intros h a b l [l' [P H]]. rewrite <- (tiles_telescope h a b l' H).
  apply sumR_perm. apply Permutation_map. exact P.
Qed.

(** ** The contribution of an accepted region *)
Definition boole (a b ga gd gc ge gb : R) : R :=
  (b - a) / 90 * (7 * ga + 32 * gd + 12 * gc + 32 * ge + 7 * gb).

Definition acc_value (x : accepted ER) : R := fin (ac_q2 x) + fin (ac_corr x).

Lemma simpson_fin : forall a b x y z,
  simpson ER (Fin a) (Fin b) (Fin x) (Fin y) (Fin z) = Fin ((b - a) / 6 * (x + 4 * y + z)).
Proof.
  intros. unfold simpson. cbn [nmul ndiv nsub nadd nofZ ER].
  rewrite er_sub_fin, er_div_fin by lra. reflexivity.
Qed.

Lemma acc_boole : forall f lo hi tol (x : accepted ER) (p : R -> R),
  0 <= lo ->
  (forall t, lo <= t <= hi -> image f t = Fin (p t)) ->
  acc_ok ER (TER f) (QER lo hi) tol x ->
  exists a b, ac_region x = ac_region x /\ acc_interval x = (Fin a, Fin b) /\
    lo <= a < b /\ b <= hi /\
    ac_q2 x = Fin (fin (ac_q2 x)) /\ ac_corr x = Fin (fin (ac_corr x)) /\
    acc_value x = boole a b (p a) (p ((3 * a + b) / 4)) (p ((a + b) / 2))
                        (p ((a + 3 * b) / 4)) (p b).
Proof.
  intros f lo hi tol x p Hlo Hp [HQ HG].
  destruct HQ as [a [b [Ea [Eb [H1 [H2 H3]]]]]].
  unfold good_estimate in HG.
  destruct HG as (c & d & e & ga & gb & gc & gd & ge & Mc & Md & Me & Ta & Tb & Tc & Td & Te & Hq2 & Hcorr & _).
  rewrite Ea, Eb in *.
  apply midpoint_fin in Mc. subst c.
  apply midpoint_fin in Md. subst d.
  apply midpoint_fin in Me. subst e.
  assert (HT : forall t g, lo <= t <= hi -> TER f (Fin t) g -> g = Fin (p t)).
  { intros t g Ht [r [Er Eg]]. injection Er as <-. rewrite Eg. apply Hp. exact Ht. }
  apply HT in Ta; [|lra]. apply HT in Tb; [|lra]. apply HT in Tc; [|lra].
  apply HT in Td; [|lra]. apply HT in Te; [|lra]. subst ga gb gc gd ge.
  rewrite !simpson_fin in Hq2. cbn [nadd ER er_add] in Hq2.
  rewrite Hq2 in Hcorr. rewrite simpson_fin in Hcorr.
  cbn [nsub ndiv nofZ ER] in Hcorr. rewrite er_sub_fin, er_div_fin in Hcorr by lra.
  exists a, b. split; [reflexivity|].
  split; [unfold acc_interval; rewrite Ea, Eb; reflexivity|].
  split; [lra|]. split; [lra|].
  split; [rewrite Hq2; reflexivity|]. split; [rewrite Hcorr; reflexivity|].
  unfold acc_value. rewrite Hq2, Hcorr. cbn [fin]. unfold boole.
  replace ((3 * a + b) / 4) with ((a + (a + b) / 2) / 2) by lra.
  replace ((a + 3 * b) / 4) with (((a + b) / 2 + b) / 2) by lra.
  lra.
Qed.

Lemma running_sum_fin : forall l : list (accepted ER),
  (forall x, In x l -> ac_q2 x = Fin (fin (ac_q2 x)) /\ ac_corr x = Fin (fin (ac_corr x))) ->
  running_sum ER l = Fin (sumR (map acc_value l)).
Proof.
  induction l as [|x l IH]; intros H; [reflexivity|].
  cbn [running_sum map sumR fold_right].
  rewrite IH by (intros y Hy; apply H; right; exact Hy).
  destruct (H x (or_introl eq_refl)) as [E1 E2]. rewrite E1, E2.
  cbn [nadd ER er_add fin]. unfold acc_value. unfold sumR. f_equal. lra.
Qed.

(** If the contribution of every accepted region lies between the increments of two
    functions, so does the result. *)
Lemma integral_between : forall f s fuel r a b (p h1 h2 : R -> R),
  limits_ok s -> 0 <= a < b ->
  (forall t, a <= t <= b -> image f t = Fin (p t)) ->
  (forall u v, a <= u < v -> v <= b ->
     h1 v - h1 u <= boole u v (p u) (p ((3 * u + v) / 4)) (p ((u + v) / 2))
                          (p ((u + 3 * v) / 4)) (p v) <= h2 v - h2 u) ->
  MAQ ER f fuel s = Done r -> mr_range r = Some (Fin a, Fin b) ->
  mr_successful r = true ->
  exists v, mr_integral r = Fin v /\ h1 b - h1 a <= v <= h2 b - h2 a.
Proof.
  intros f s fuel r a b p h1 h2 Hs Hab Hp Hh H Hr Hsucc.
  destruct (MAQ_ER_post f s fuel r a b Hs Hab H Hr) as [n0 [it [_ P]]].
  destruct P as [_ _ _ _ P5 _ _ _ P9].
  apply P5 in Hsucc. destruct (P9 Hsucc) as [G1 [G2 [_ G4]]].
  assert (HA : forall x, In x (mr_accepted r) -> exists u v, acc_interval x = (Fin u, Fin v) /\
    ac_q2 x = Fin (fin (ac_q2 x)) /\ ac_corr x = Fin (fin (ac_corr x)) /\
    h1 v - h1 u <= acc_value x <= h2 v - h2 u).
  { intros x Hx. rewrite Forall_forall in G1.
    destruct (acc_boole f a b (set_tolerance s) x p) as (u & v & _ & Ei & Hu & Hv & E1 & E2 & Ev);
      try assumption; [lra|apply G1; exact Hx|].
    exists u, v. repeat split; try assumption; rewrite Ev; apply Hh; lra. }
  rewrite G4, running_sum_fin by (intros x Hx; destruct (HA x Hx) as (u & v & _ & E1 & E2 & _); auto).
  eexists. split; [reflexivity|].
  pose proof (covers_telescope h1 _ _ _ G2) as T1.
  pose proof (covers_telescope h2 _ _ _ G2) as T2.
  cbn [fin] in T1, T2. rewrite <- T1, <- T2. clear T1 T2 G1 G2 G4 P9 P5 Hr H.
  induction (mr_accepted r) as [|x l IH]; cbn [map sumR fold_right]; [lra|].
  assert (IH' := IH (fun y Hy => HA y (or_intror Hy))).
  destruct (HA x (or_introl eq_refl)) as (u & v & Ei & _ & _ & Hx). rewrite Ei. cbn [fst snd fin].
  unfold sumR in IH'. lra.
Qed.

Lemma boole_mean : forall u v m M ga gd gc ge gb,
  u < v -> m <= ga <= M -> m <= gd <= M -> m <= gc <= M -> m <= ge <= M -> m <= gb <= M ->
  m * v - m * u <= boole u v ga gd gc ge gb <= M * v - M * u.
Proof.
  intros u v m M ga gd gc ge gb Huv Ha Hd Hc He Hb. unfold boole.
  set (S := 7 * ga + 32 * gd + 12 * gc + 32 * ge + 7 * gb).
  assert (90 * m <= S <= 90 * M) by (unfold S; lra).
  assert (0 < (v - u) / 90) by lra.
  split; nra.
Qed.

Lemma integral_bounds : forall f s fuel r a b (p : R -> R) m M,
  limits_ok s -> 0 <= a < b ->
  (forall t, a <= t <= b -> image f t = Fin (p t)) ->
  (forall t, a <= t <= b -> m <= p t <= M) ->
  MAQ ER f fuel s = Done r -> mr_range r = Some (Fin a, Fin b) ->
  mr_successful r = true ->
  exists v, mr_integral r = Fin v /\ m * (b - a) <= v <= M * (b - a).
Proof.
  intros f s fuel r a b p m M Hs Hab Hp Hb H Hr Hsucc.
  destruct (integral_between f s fuel r a b p (fun t => m * t) (fun t => M * t)) as [v [Ev Hv]];
    try assumption.
  - intros x y Hx Hy. apply boole_mean; try apply Hb; lra.
  - exists v. split; [exact Ev|]. lra.
Qed.

Lemma poly5 : forall cs, (length cs <= 6)%nat -> exists c0 c1 c2 c3 c4 c5,
  forall t, poly cs t = c0 + c1 * t + c2 * t ^ 2 + c3 * t ^ 3 + c4 * t ^ 4 + c5 * t ^ 5.
Proof.
  intros cs H.
  exists (nth 0 cs 0), (nth 1 cs 0), (nth 2 cs 0), (nth 3 cs 0), (nth 4 cs 0), (nth 5 cs 0).
  intros t.
  destruct cs as [|c0 [|c1 [|c2 [|c3 [|c4 [|c5 [|c6 cs]]]]]]]; cbn [poly nth]; try ring.
  cbn [length] in H. lia.
Qed.

Definition prim5 (c0 c1 c2 c3 c4 c5 t : R) : R :=
  c0 * t + c1 * t ^ 2 / 2 + c2 * t ^ 3 / 3 + c3 * t ^ 4 / 4 + c4 * t ^ 5 / 5 + c5 * t ^ 6 / 6.

Lemma prim5_RInt : forall (p : R -> R) c0 c1 c2 c3 c4 c5 a b,
  (forall t, p t = c0 + c1 * t + c2 * t ^ 2 + c3 * t ^ 3 + c4 * t ^ 4 + c5 * t ^ 5) ->
  is_RInt p a b (prim5 c0 c1 c2 c3 c4 c5 b - prim5 c0 c1 c2 c3 c4 c5 a).
Proof.
  intros p c0 c1 c2 c3 c4 c5 a b Hp.
  apply (is_RInt_derive (prim5 c0 c1 c2 c3 c4 c5) p a b).
  - intros x _. unfold prim5. rewrite Hp. auto_derive; [exact I|]. field.
  - intros x _. apply continuous_ext with
      (fun t => c0 + c1 * t + c2 * t ^ 2 + c3 * t ^ 3 + c4 * t ^ 4 + c5 * t ^ 5).
    { intros y. symmetry. apply Hp. }
    apply (ex_derive_continuous (fun t => c0 + c1 * t + c2 * t ^ 2 + c3 * t ^ 3 + c4 * t ^ 4 + c5 * t ^ 5)).
    auto_derive. exact I.
Qed.

Lemma boole_exact : forall (p : R -> R) c0 c1 c2 c3 c4 c5 u v,
  (forall t, p t = c0 + c1 * t + c2 * t ^ 2 + c3 * t ^ 3 + c4 * t ^ 4 + c5 * t ^ 5) ->
  boole u v (p u) (p ((3 * u + v) / 4)) (p ((u + v) / 2)) (p ((u + 3 * v) / 4)) (p v)
  = prim5 c0 c1 c2 c3 c4 c5 v - prim5 c0 c1 c2 c3 c4 c5 u.
Proof. intros. unfold boole, prim5. rewrite !H. field. Qed.

Lemma integral_poly : forall f s fuel r a b cs,
  limits_ok s -> 0 <= a < b -> (length cs <= 6)%nat ->
  (forall t, a <= t <= b -> image f t = Fin (poly cs t)) ->
  MAQ ER f fuel s = Done r -> mr_range r = Some (Fin a, Fin b) ->
  mr_successful r = true ->
  exists v, mr_integral r = Fin v /\ is_RInt (poly cs) a b v.
Proof.
  intros f s fuel r a b cs Hs Hab Hl Hp H Hr Hsucc.
  destruct (poly5 cs Hl) as (c0 & c1 & c2 & c3 & c4 & c5 & Hc).
  destruct (integral_between f s fuel r a b (poly cs) (prim5 c0 c1 c2 c3 c4 c5)
              (prim5 c0 c1 c2 c3 c4 c5)) as [v [Ev Hv]]; try assumption.
  - intros u w Hu Hw. rewrite (boole_exact (poly cs) c0 c1 c2 c3 c4 c5 u w Hc). lra.
  - exists v. split; [exact Ev|].
    replace v with (prim5 c0 c1 c2 c3 c4 c5 b - prim5 c0 c1 c2 c3 c4 c5 a) by lra.
    apply prim5_RInt. exact Hc.
Qed.
