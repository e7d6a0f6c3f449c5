(** * The statements of Maq_props.v, assembled from the lemmas *)
From Coq Require Import ZArith List Bool Lia Reals Lra.
From Coq Require Import Floats.SpecFloat.
From Verif Require Import Num Maq Maq_spec Maq_search_proofs Maq_loop_proofs Maq_proofs
  ER ER_proofs Maq_ER_spec Maq_ER_proofs Maq_ER_proofs2 Maq_ER_proofs3 Maq_extreme_proofs
  Stats_conc Stats_conc_proofs Maq_witness.
Import ListNotations.
Local Open Scope Z_scope.

(** ** Settings *)
Lemma settings_claim : forall ops : list (settings_op F64),
  let s := settings_run F64 ops in
  (nltb F64 (nofZ F64 0) (set_tolerance s) = true /\ nisnan F64 (set_tolerance s) = false /\
   1 <= set_eval_limit s < 2 ^ 32 /\ 1 <= set_search_limit s < 2 ^ 32) /\
  set_tolerance s = last_event (tolerance_event F64) (ndiv F64 (nofZ F64 1) (nofZ F64 1000)) ops /\
  set_eval_limit s = last_event (eval_limit_event F64) 2048 ops /\
  set_search_limit s = last_event (search_limit_event F64) 2048 ops /\
  set_method s = last_event (method_event F64) DIRECTED ops.
Proof.
  intros ops s. split.
  - destruct (settings_valid F64 ops) as [H1 [H2 H3]]; [vm_compute; reflexivity|].
    repeat split; try assumption; try (apply H2); try (apply H3).
    fold s in H1. destruct (set_tolerance s); try reflexivity; discriminate H1.
  - unfold s. rewrite settings_run_spec. repeat split.
Qed.

(** ** Termination *)
Lemma terminates_claim : forall (N : Num) (f : N -> N) (s : settings N),
  order_ok N -> limits_ok s ->
  exists r n, (forall fuel, (n <= fuel)%nat -> MAQ N f fuel s = Done r) /\
    Z.of_nat (length (mr_trace r)) <=
      search_bound (set_method s) (set_search_limit s) + 3 + 2 * set_eval_limit s.
Proof.
  intros N f s HO Hs. destruct (MAQ_spec N f HO s Hs) as [r [P H]].
  exists r, (fuel_for N s). split; [exact H|].
  destruct Hs as [Hs1 Hs2]. destruct P as [_ _ _ E _ B|a b n0 it B P]; [lia|].
  pose proof (rp_it _ _ _ _ _ _ _ _ _ _ _ P). pose proof (rp_tr_le _ _ _ _ _ _ _ _ _ _ _ P).
  clear - Hs1 Hs2 B H0 H1. lia.
Qed.

Lemma accepted_claim : forall (ops : list (settings_op F64)) (f : F64 -> F64),
  set_search_limit (settings_run F64 ops) <= 2 ^ 30 -> set_eval_limit (settings_run F64 ops) < 2 ^ 32 - 1 ->
  exists r n, forall fuel, (n <= fuel)%nat -> MAQ F64 f fuel (settings_run F64 ops) = Done r.
Proof.
  intros ops f H1 H2. destruct (settings_claim ops) as [(_ & _ & H3 & H4) _].
  destruct (terminates_claim F64 f (settings_run F64 ops) F64_order_ok) as (r & n & H & _); [|exists r, n; exact H].
  change (2 ^ 30) with 1073741824 in H1. change (2 ^ 32 - 1) with 4294967295 in H2. split; lia.
Qed.

(** ** Evaluation counts *)
Lemma counts_claim : forall (N : Num) (f : N -> N) (s : settings N) fuel r,
  order_ok N -> limits_ok s -> MAQ N f fuel s = Done r ->
  let called := Z.of_nat (length (mr_trace r)) in
  let n := mr_search_evals r in
  2 <= n <= search_bound (set_method s) (set_search_limit s) /\
  ((mr_exit r = ExSearchFail /\ mr_evaluations r = n /\ called = n) \/
   exists k, 0 <= k <= Z.max 0 (set_eval_limit s - n - 3) /\
     ((mr_exit r = ExOk /\ mr_evaluations r = n + 3 + k /\ called = n + 3 + 2 * k) \/
      (mr_exit r = ExLimit /\ mr_evaluations r = n + 4 + k /\ called = n + 3 + 2 * k) \/
      (mr_exit r = ExNan /\ mr_evaluations r = n /\ n + 2 <= called <= n + 3) \/
      (mr_exit r = ExNan /\ mr_evaluations r = n + 3 + k /\ called = n + 3 + 2 * k))).
Proof.
  intros N f s fuel r HO Hs H called n. unfold called, n.
  destruct (MAQ_done_post N f HO s fuel r Hs H) as [E1 _ _ E2 E3 B _ _|a b n0 it B P].
  - split; [lia|]. left. repeat split; [exact E1| |]; lia.
  - destruct P as [P1 P2 P3 P4 P5 P6 P7 P8 P9]. rewrite P2. split; [exact B|]. right.
    exists it. split; [exact P3|]. clear P9 P5 P6 B Hs H.
    destruct P8 as [[Q1 [Q2 Q3]]|[Q0 [[Q1 [Q2 Q3]]|[[Q1 [Q2 Q3]]|[Q1 [Q2 Q3]]]]]].
    + right; right; left. repeat split; [exact Q1|exact Q3| |]; clear - P7 Q2; lia.
    + right; right; right. repeat split; [exact Q1|exact Q3|exact Q0].
    + right; left. repeat split; [exact Q1| |exact Q0]. clear - Q2. lia.
    + left. repeat split; [exact Q1|exact Q2|exact Q0].
Qed.

Lemma counts_refuted_claim :
  (exists f s r, limits_ok s /\ MAQ F64 f 3000 s = Done r /\ mr_successful r = true /\
     mr_evaluations r = 20 /\ Z.of_nat (length (mr_trace r)) = 35) /\
  (exists f s r, limits_ok s /\ MAQ F64 f 3000 s = Done r /\
     set_search_limit s + set_eval_limit s < mr_evaluations r /\
     set_search_limit s + set_eval_limit s < Z.of_nat (length (mr_trace r))).
Proof.
  split.
  - destruct reported_differs as [r [H1 [H2 [H3 H4]]]].
    exists flat, (default_settings F64), r. repeat split; try assumption; cbn; lia.
  - destruct limit_exceeded as [r [H1 [H2 [H3 H4]]]].
    exists flat, one_eval, r. split; [split; cbn; lia|]. split; [exact H1|].
    rewrite H3, H4. cbn. lia.
Qed.

Lemma search_over_claim :
  exists f g : F64 -> F64, exists r1 r2 r3 r4,
    search F64 f BINARY_SUBDIVISION 100 3 = Done r1 /\ sr_evals r1 = 4 /\
    search F64 f REVERSE_BINARY_SUBDIVISION 100 3 = Done r2 /\ sr_evals r2 = 4 /\
    search F64 f LOW_FIRST_REVERSE_BINARY_SUBDIVISION 100 4 = Done r3 /\ sr_evals r3 = 5 /\
    search F64 g DIRECTED 100 3 = Done r4 /\ sr_evals r4 = 4.
Proof.
  exists zero, tiny.
  assert (A : forall o n, search_summary o = Some n -> exists r, o = Done r /\ sr_evals r = snd n).
  { intros [r| |] n H; try discriminate. cbn in H. injection H as <-. exists r. split; reflexivity. }
  destruct (A (search F64 zero BINARY_SUBDIVISION 100 3) (false, 4)) as [r1 [H1 H1']];
    [vm_compute; reflexivity|].
  destruct (A (search F64 zero REVERSE_BINARY_SUBDIVISION 100 3) (false, 4)) as [r2 [H2 H2']];
    [vm_compute; reflexivity|].
  destruct (A (search F64 zero LOW_FIRST_REVERSE_BINARY_SUBDIVISION 100 4) (false, 5))
    as [r3 [H3 H3']]; [vm_compute; reflexivity|].
  destruct (A (search F64 tiny DIRECTED 100 3) (true, 4)) as [r4 [H4 H4']];
    [vm_compute; reflexivity|].
  exists r1, r2, r3, r4. repeat split; assumption.
Qed.

(** ** Ranges *)
Lemma range_claim : forall (f : er -> er) (s : settings ER) fuel r ab,
  limits_ok s -> MAQ ER f fuel s = Done r -> mr_range r = Some ab ->
  good_range (range_promise f (set_method s)) ab.
Proof.
  intros f s fuel r [a b] Hs H Hr.
  destruct (MAQ_range_inv ER f ER_order_ok s fuel r a b Hs H Hr) as [sr [E [Er _]]].
  eapply search_range_ER; [|exact E|exact Er]. destruct Hs. assumption.
Qed.

(** A MAQ result without a range comes from a search without one. *)
Lemma MAQ_none_search : forall (f : er -> er) (s : settings ER) fuel r,
  limits_ok s -> MAQ ER f fuel s = Done r -> mr_range r = None ->
  exists sr, search ER f (set_method s) fuel (set_search_limit s) = Done sr /\ sr_range sr = None.
Proof.
  intros f s fuel r Hs H Hr. unfold MAQ in H.
  destruct (search ER f (set_method s) fuel (set_search_limit s)) as [sr| |] eqn:E; try discriminate.
  exists sr. split; [reflexivity|]. cbn [obind] in H.
  destruct (sr_range sr) as [[a b]|] eqn:Er; [|reflexivity]. exfalso.
  assert (Hlim : 1 <= set_search_limit s <= 1073741824) by (destruct Hs; assumption).
  destruct (search_range_ER f (set_method s) fuel _ sr (a, b) Hlim E Er)
    as [a' [b' [Eab _]]].
  injection Eab as -> ->. cbn [nisnan ER er_isnan] in H.
  unfold integrate_range in H.
  repeat match type of H with
         | context [if ?c then _ else _] => destruct c
         | context [obind ?o _] => destruct o as [[[[[? ?] ?] ?] ?]| |]; cbn [obind] in H
         end; try discriminate; injection H as <-; discriminate.
Qed.

Lemma complete_claim : forall (f : er -> er) (s : settings ER) fuel r u v,
  limits_ok s -> MAQ ER f fuel s = Done r ->
  (0 <= u)%R -> (v <= 1)%R -> (4 / IZR (set_search_limit s) <= v - u)%R -> feature f u v ->
  set_method s = BINARY_SUBDIVISION \/ set_method s = REVERSE_BINARY_SUBDIVISION \/
    (set_method s = LOW_FIRST_REVERSE_BINARY_SUBDIVISION /\ (1 / 2 <= u)%R) ->
  mr_exit r <> ExSearchFail /\ mr_range r <> None.
Proof.
  intros f s fuel r u v Hs H Hu Hv Hw Hf Hm.
  assert (Hn : mr_range r <> None).
  { intros Hr. destruct (MAQ_none_search f s fuel r Hs H Hr) as [sr [E En]].
    assert (Hlim : 1 <= set_search_limit s <= 1073741824) by (destruct Hs; assumption).
    assert (Hw' : (/ IZR (set_search_limit s) <= v - u)%R).
    { assert (0 < / IZR (set_search_limit s))%R
        by (apply Rinv_0_lt_compat, IZR_lt; clear - Hlim; lia).
      unfold Rdiv in Hw. lra. }
    destruct Hm as [Em|[Em|[Em Hu']]]; rewrite Em in E; cbn [search] in E; revert En.
    - eapply binary_complete; eassumption.
    - eapply reverse_complete; eassumption.
    - eapply low_complete; eassumption. }
  split; [|exact Hn]. intros Hex.
  destruct (MAQ_done_post ER f ER_order_ok s fuel r Hs H) as [_ _ _ _ _ _ Q _|a b n0 it _ P].
  - contradiction.
  - exact (rp_exit _ _ _ _ _ _ _ _ _ _ _ P Hex).
Qed.

(** ** Failure *)
Lemma failure_claim : forall (N : Num) (f : N -> N) (s : settings N) fuel r,
  order_ok N -> limits_ok s -> MAQ N f fuel s = Done r ->
  (mr_successful r = false <-> (mr_exit r = ExLimit \/ mr_exit r = ExNan)) /\
  (mr_successful r = false -> mr_integral r = nnan N).
Proof.
  intros N f s fuel r HO Hs H.
  destruct (MAQ_done_post N f HO s fuel r Hs H) as [E1 E2 _ _ _ _ _ _|a b n0 it B P].
  - rewrite E1, E2. split; [split|]; try discriminate. intros [?|?]; discriminate.
  - destruct P as [P1 P2 P3 P4 P5 P6 P7 P8 P9]. split; [|exact P6].
    split; intros Q.
    + destruct (mr_exit r); [congruence|auto|auto|].
      rewrite (proj2 P5 eq_refl) in Q. discriminate.
    + destruct (mr_successful r); [|reflexivity].
      rewrite (proj1 P5 eq_refl) in Q. destruct Q; discriminate.
Qed.

(** ** Tiling *)
Lemma tiling_claim : forall (N : Num) (f : N -> N) (s : settings N) fuel r a b,
  order_ok N -> limits_ok s -> MAQ N f fuel s = Done r ->
  mr_range r = Some (a, b) -> mr_successful r = true ->
  covers a b (map acc_interval (mr_accepted r)) /\
  Forall (fun x => good_estimate N (transformed N f) (set_tolerance s) (ac_before x)
                     (fst (acc_interval x)) (snd (acc_interval x)) (ac_q2 x) (ac_corr x))
         (mr_accepted r) /\
  sums_recorded N (mr_accepted r) /\ mr_integral r = running_sum N (mr_accepted r).
Proof.
  intros N f s fuel r a b HO Hs H Hr Hok.
  destruct (MAQ_done_post N f HO s fuel r Hs H) as [_ _ _ _ _ _ Q _|a' b' n0 it B P];
    [congruence|].
  destruct P as [P1 P2 P3 P4 P5 P6 P7 P8 P9].
  rewrite P1 in Hr. injection Hr as -> ->.
  destruct (P9 (proj1 P5 Hok)) as [Q1 [Q2 [Q3 Q4]]]. repeat split; try assumption.
  eapply Forall_impl; [|exact Q1]. intros x [_ Hx]. exact Hx.
Qed.

Lemma tiles_fin : forall (P : R -> R -> Prop) (x y : er) l', tiles x y l' ->
  forall a b, x = Fin a -> y = Fin b ->
  Forall (fun uv : er * er => exists u v, uv = (Fin u, Fin v) /\ P u v) l' ->
  exists l, tiles a b l /\ Forall (fun uv => P (fst uv) (snd uv)) l /\
            map (fun uv => (Fin (fst uv), Fin (snd uv))) l = l'.
Proof.
  intros P x y l' Ht. induction Ht as [x y|x y z l Ht IH]; intros a b Ex Ez Hall;
    inversion Hall as [|uv l0 [u [v [E Huv]]] Hall']; subst uv l0; injection E as Eu Ev.
  - rewrite Ex in Eu. rewrite Ez in Ev. injection Eu as <-. injection Ev as <-. subst x y.
    exists [(a, b)]. split; [constructor|]. split; [|reflexivity].
    constructor; [exact Huv|constructor].
  - rewrite Ex in Eu. injection Eu as <-. subst x.
    destruct (IH v b Ev Ez Hall') as [l1 [T1 [F1 M1]]]. subst y.
    exists ((a, v) :: l1). split; [constructor; exact T1|]. split; [constructor; assumption|].
    cbn [map fst snd]. rewrite M1. reflexivity.
Qed.

Lemma tiling_exact_claim : forall (f : er -> er) (s : settings ER) fuel r,
  limits_ok s -> MAQ ER f fuel s = Done r -> mr_successful r = true -> mr_range r <> None ->
  exists a b, mr_range r = Some (Fin a, Fin b) /\ (0 <= a < b)%R /\ (b <= 1)%R /\
    exists l : list (R * R),
      tiles a b l /\ Forall (fun uv => a <= fst uv < snd uv /\ snd uv <= b)%R l /\
      Permutation.Permutation (map (fun uv => (Fin (fst uv), Fin (snd uv))) l)
                              (map acc_interval (mr_accepted r)).
Proof.
  intros f s fuel r Hs H Hok Hn. destruct (mr_range r) as [ab|] eqn:Hr; [|congruence].
  destruct (MAQ_range_proper f s fuel r ab Hs H Hr) as [a [b [-> [Hab Hb]]]].
  exists a, b. split; [reflexivity|]. split; [exact Hab|]. split; [exact Hb|].
  destruct (MAQ_ER_post f s fuel r a b Hs Hab H Hr) as [n0 [it [_ P]]].
  destruct P as [P1 P2 P3 P4 P5 P6 P7 P8 P9].
  destruct (P9 (proj1 P5 Hok)) as [Q1 [[l' [Hp Ht]] _]].
  assert (Hall : Forall (fun uv : er * er => exists u v, uv = (Fin u, Fin v) /\
                           (a <= u < v /\ v <= b)%R) l').
  { eapply Permutation.Permutation_Forall; [exact Hp|]. apply Forall_map.
    eapply Forall_impl; [|exact Q1]. intros x [[u [v [E1 [E2 [Q2 [Q3 Q4]]]]]] _].
    exists u, v. unfold acc_interval. rewrite E1, E2. repeat split; assumption. }
  clear - Hp Ht Hall.
  destruct (tiles_fin (fun u v => a <= u < v /\ v <= b)%R _ _ _ Ht a b eq_refl eq_refl Hall)
    as [l [T [F M]]].
  exists l. split; [exact T|]. split; [exact F|].
  rewrite M. apply Permutation.Permutation_sym. exact Hp.
Qed.

(** ** Scaling at the level of MAQ *)
Section TraceIrrelevant.
  Context (N : Num).
  Variable f : N -> N.

  Lemma maq_loop_trace : forall fuel tol maxeval counter i stack tr tr2 acc ex i' c' tr' acc',
    maq_loop N f fuel tol maxeval counter i stack tr acc = Done (ex, i', c', tr', acc') ->
    exists tr2', maq_loop N f fuel tol maxeval counter i stack tr2 acc = Done (ex, i', c', tr2', acc').
  Proof.
    induction fuel as [|k IH]; intros tol maxeval counter i stack tr tr2 acc ex i' c' tr' acc' H;
      [discriminate|].
    destruct stack as [|todo rest]; cbn [maq_loop] in *.
    - injection H as <- <- <- <- <-. eexists. reflexivity.
    - destruct (maxeval <? u32 (counter + 1)).
      { injection H as <- <- <- <- <-. eexists. reflexivity. }
      destruct (nisnan N (eval_at N f (ndiv N (nadd N (rg_a todo) (rg_c todo)) (nofZ N 2)))).
      { injection H as <- <- <- <- <-. eexists. reflexivity. }
      destruct (nisnan N (eval_at N f (ndiv N (nadd N (rg_b todo) (rg_c todo)) (nofZ N 2)))).
      { injection H as <- <- <- <- <-. eexists. reflexivity. }
      match type of H with (if ?c then _ else _) = _ => destruct c end.
      { eapply IH. exact H. }
      match type of H with (if ?c then _ else _) = _ => destruct c end; eapply IH; exact H.
  Qed.

  Lemma integrate_range_trace : forall fuel tol maxeval c0 a b tr tr2 r,
    integrate_range N f fuel tol maxeval c0 a b tr = Done r ->
    exists r2, integrate_range N f fuel tol maxeval c0 a b tr2 = Done r2 /\
      mr_integral r2 = mr_integral r /\ mr_successful r2 = mr_successful r /\
      mr_evaluations r2 = mr_evaluations r /\ mr_exit r2 = mr_exit r.
  Proof.
    intros fuel tol maxeval c0 a b tr tr2 r H. unfold integrate_range in *.
    destruct (nisnan N (eval_left N f a));
      [injection H as <-; eexists; split; [reflexivity|]; repeat split|].
    destruct (nisnan N (eval_at N f b));
      [injection H as <-; eexists; split; [reflexivity|]; repeat split|].
    match type of H with (if ?c then _ else _) = _ => destruct c end;
      [injection H as <-; eexists; split; [reflexivity|]; repeat split|].
    match type of H with obind (maq_loop _ _ _ _ _ ?c ?i ?st ?t _) _ = _ =>
      destruct (maq_loop N f fuel tol maxeval c i st t []) as [[[[[ex i'] c'] tr'] acc']| |] eqn:E
    end; try discriminate.
    cbn [obind] in H. injection H as <-.
    match goal with |- exists _, obind (maq_loop _ _ _ _ _ _ _ _ ?t _) _ = _ /\ _ =>
      destruct (maq_loop_trace _ _ _ _ _ _ _ t _ _ _ _ _ _ E) as [tr2' ->]
    end.
    eexists. split; [reflexivity|]. repeat split.
  Qed.
End TraceIrrelevant.

Lemma scale_claim : forall (k : R) (f : er -> er) (s : settings ER) fuel r1 r2 ab,
  k <> 0%R -> limits_ok s ->
  MAQ ER f fuel s = Done r1 -> MAQ ER (fun x => er_mul (Fin k) (f x)) fuel s = Done r2 ->
  mr_range r1 = Some ab -> mr_range r2 = Some ab -> mr_search_evals r1 = mr_search_evals r2 ->
  mr_integral r2 = er_mul (Fin k) (mr_integral r1) /\
  mr_successful r2 = mr_successful r1 /\ mr_evaluations r2 = mr_evaluations r1 /\
  mr_exit r2 = mr_exit r1.
Proof.
  intros k f s fuel r1 r2 [a b] Hk Hs H1 H2 R1 R2 He.
  destruct (MAQ_range_inv ER f ER_order_ok s fuel r1 a b Hs H1 R1)
    as [s1 [_ [_ [_ [_ [_ I1]]]]]].
  destruct (MAQ_range_inv ER (fun x => er_mul (Fin k) (f x)) ER_order_ok s fuel r2 a b Hs H2 R2)
    as [s2 [_ [_ [_ [_ [_ I2]]]]]].
  assert (E1 : sr_evals s1 = mr_search_evals r1).
  { clear - I1. unfold integrate_range in I1.
    repeat match type of I1 with
         | context [if ?c then _ else _] => destruct c
         | context [obind ?o _] => destruct o as [[[[[? ?] ?] ?] ?]| |]; cbn [obind] in I1
         end; try discriminate; injection I1 as <-; reflexivity. }
  assert (E2 : sr_evals s2 = mr_search_evals r2).
  { clear - I2. unfold integrate_range in I2.
    repeat match type of I2 with
         | context [if ?c then _ else _] => destruct c
         | context [obind ?o _] => destruct o as [[[[[? ?] ?] ?] ?]| |]; cbn [obind] in I2
         end; try discriminate; injection I2 as <-; reflexivity. }
  destruct (range_scale k Hk f _ _ _ _ _ _ _ _ I1) as [r' [I' [Q1 [Q2 [Q3 [Q4 _]]]]]].
  change (kf k f) with (fun x => er_mul (Fin k) (f x)) in I'.
  destruct (integrate_range_trace ER _ _ _ _ _ _ _ _ (sr_trace s2) _ I') as [r3 [I3 [T1 [T2 [T3 T4]]]]].
  rewrite E1, He, <- E2 in I3. 
  pose proof (eq_trans (eq_sym I2) I3) as E3. injection E3 as ->.
  rewrite T1, T2, T3, T4. auto.
Qed.

(** ** Statistics under concurrency *)
Lemma actions_below : forall (N : Num) (m : max_field) (r : maq_result N) v,
  Forall (writes_below m v) (actions r) <->
  (match m with
   | MSearch => mr_search_evals r <= v
   | MIntegration => match mr_exit r with ExLimit | ExOk => mr_evaluations r <= v | _ => True end
   end).
Proof.
  intros N m r v. unfold actions.
  destruct m, (mr_exit r); cbn [app]; split; intros H;
    repeat match goal with
           | H : Forall _ (_ :: _) |- _ => inversion H; subst; clear H
           | |- Forall _ _ => constructor
           end; cbn [writes_below] in *; try tauto; try discriminate; auto; try (intros; discriminate).
Qed.

Lemma fold_max_ge : forall (N : Num) (m : max_field) (rs : list (maq_result N)) st,
  get_max m st <= get_max m (fold_left stats_step rs st) /\
  Forall (Forall (writes_below m (get_max m (fold_left stats_step rs st)))) (map actions rs).
Proof.
  intros N m. induction rs as [|r rs IH]; intros st; cbn [fold_left map].
  - split; [lia|constructor].
  - destruct (IH (stats_step st r)) as [I1 I2].
    assert (S1 : get_max m st <= get_max m (stats_step st r) /\
                 Forall (writes_below m (get_max m (stats_step st r))) (actions r)).
    { rewrite actions_below. unfold stats_step.
      destruct m, (mr_exit r); cbn [get_max st_max_search st_max_integration];
        repeat match goal with |- context [?x <? ?y] => destruct (Z.ltb_spec x y) end; lia. }
    destruct S1 as [S1 S2]. split; [lia|]. constructor; [|exact I2].
    eapply Forall_impl; [|exact S2]. intros [c n|m' w|m' w] Hw; cbn [writes_below] in *; auto;
      intros Em; specialize (Hw Em); lia.
Qed.

Lemma maxima_claim : forall (N : Num) (rs : list (maq_result N)) st st' ps m,
  csteps (st, map actions rs) (st', ps) ->
  get_max m st' <= get_max m (fold_left stats_step rs st).
Proof.
  intros N rs st st' ps m H. destruct (fold_max_ge N m rs st) as [H1 H2].
  exact (proj1 (csteps_max_bound m _ _ _ H H1 H2)).
Qed.

(** ** Sessions *)
Lemma session_claim : forall (ops : list (session_op F64)) (st : session F64),
  session_run F64 (session_start F64) ops = Done st ->
  (exists rs, results_since F64 (rev ops) (se_settings st) rs /\ stats_are F64 (se_stats st) rs) /\
  st_calls (se_stats st) =
    (st_successes (se_stats st) + st_integration_fails (se_stats st) +
     st_search_fails (se_stats st) + st_nans (se_stats st)) mod 2 ^ 32.
Proof.
  intros ops st H. split; [exact (session_stats F64 ops st H)|exact (session_sum F64 ops st H)].
Qed.

Lemma session_refuted_claim :
  (exists ops st, session_run F64 (session_start F64) ops = Done st /\
     st_successes (se_stats st) = 0 /\ 0 < st_max_integration (se_stats st)) /\
  (exists ops st, session_run F64 (session_start F64) ops = Done st /\
     st_search_fails (se_stats st) = st_calls (se_stats st) /\ 0 < st_max_search (se_stats st)).
Proof.
  split.
  - destruct maxima_without_success as [st [H1 [H2 [H3 _]]]]. eexists _, st. eauto.
  - destruct max_search_without_finding as [st [H1 [H2 H3]]]. eexists _, st. eauto.
Qed.

Lemma misses_claim :
  (exists r, MAQ F64 far_box 4200 (with_method DIRECTED 2048) = Done r /\
     mr_successful r = true /\ neqb F64 (mr_integral r) (nofZ F64 0) = true) /\
  (exists r, MAQ F64 far_box 4200 (with_method SCATTERED 2048) = Done r /\
     mr_successful r = true /\ neqb F64 (mr_integral r) (nofZ F64 0) = true) /\
  (exists r, MAQ F64 near_box 4200 (with_method LOW_FIRST_REVERSE_BINARY_SUBDIVISION 2052) = Done r /\
     mr_successful r = true /\ neqb F64 (mr_integral r) (nofZ F64 0) = true).
Proof.
  repeat split.
  - destruct (nothing_inv _ directed_misses) as [r [H1 [H2 [H3 _]]]]. exists r. auto.
  - destruct (nothing_inv _ scattered_misses) as [r [H1 [H2 [H3 _]]]]. exists r. auto.
  - destruct (nothing_inv _ low_first_misses) as [r [H1 [H2 [H3 _]]]]. exists r. auto.
Qed.

Lemma misses_claim2 :
  (31 / 2048 < / 32 - / 63)%R /\ (160 / 2052 < 2 / 9 - / 7)%R /\
  (exists r, MAQ F64 far_box 4200 (with_method DIRECTED 2048) = Done r /\
     mr_successful r = true /\ neqb F64 (mr_integral r) (nofZ F64 0) = true) /\
  (exists r, MAQ F64 far_box 4200 (with_method SCATTERED 2048) = Done r /\
     mr_successful r = true /\ neqb F64 (mr_integral r) (nofZ F64 0) = true) /\
  (exists r, MAQ F64 near_box 4200 (with_method LOW_FIRST_REVERSE_BINARY_SUBDIVISION 2052) = Done r /\
     mr_successful r = true /\ neqb F64 (mr_integral r) (nofZ F64 0) = true).
Proof. split; [lra|]. split; [lra|]. exact misses_claim. Qed.

Lemma extreme_claim :
  (exists (f : F64 -> F64) s, 1 <= set_search_limit s < 2 ^ 32 /\ 1 <= set_eval_limit s < 2 ^ 32 /\
     forall fuel, (40 <= fuel)%nat -> MAQ F64 f fuel s = Ub) /\
  (exists (f : F64 -> F64) s, 1 <= set_search_limit s < 2 ^ 32 /\ 1 <= set_eval_limit s < 2 ^ 32 /\
     forall fuel, MAQ F64 f fuel s = OutOfFuel).
Proof.
  split.
  - exists (fun _ => S754_zero false),
      (mkSettings F64 2048 2000000000 (tolerance_default F64) BINARY_SUBDIVISION).
    split; [cbn; lia|]. split; [cbn; lia|]. intros fuel Hf.
    apply MAQ_overflow; [exact Hf|reflexivity|cbn; lia].
  - exists (fun _ => S754_infinity false),
      (mkSettings F64 4294967295 2048 (tolerance_default F64) BINARY_SUBDIVISION).
    split; [cbn; lia|]. split; [cbn; lia|]. intros fuel. apply MAQ_forever; reflexivity.
Qed.

Lemma search_bound_claim : forall (N : Num) (f : N -> N),
  order_ok N -> forall (m : method) fuel limit,
  1 <= limit <= 1073741824 -> limit + 1 < Z.of_nat fuel ->
  exists r, search N f m fuel limit = Done r /\
    sr_evals r = Z.of_nat (length (sr_trace r)) /\
    2 <= sr_evals r <=
      match m with
      | SCATTERED => Z.max 2 limit
      | DIRECTED => Z.max 2 (limit + 1)
      | _ => Z.max 2 (2 * (limit - 1))
      end.
Proof.
  intros N f HO m fuel limit H1 H2. destruct (search_counts N f HO m fuel limit H1 H2) as [r H].
  exists r. destruct m; exact H.
Qed.

Lemma range_refuted_claim :
  exists (f : F64 -> F64) r a b, directed_search F64 f 3000 2048 = Done r /\
    sr_range r = Some (a, b) /\ neqb F64 a (nofZ F64 0) = false /\
    forall x, gt_eps F64 (f x) = false.
Proof. exists tiny. exact directed_below. Qed.

Lemma max_lost_claim :
  exists (r1 r2 : maq_result F64) st' ps,
    csteps (stats_zero, map actions [r1; r2]) (st', ps) /\ finished (st', ps) /\
    st_max_search st' <> st_max_search (fold_left stats_step [r1; r2] stats_zero).
Proof.
  destruct max_lost as [st' [ps [H1 [H2 [H3 H4]]]]].
  exists small_result, large_result, st', ps. split; [exact H1|]. split; [exact H2|].
  rewrite H3, H4. discriminate.
Qed.

Lemma concurrent_claim : forall (N : Num) (rs : list (maq_result N)) st' ps,
  csteps (stats_zero, map actions rs) (st', ps) -> finished (st', ps) ->
  (forall c, get_counter c st' = get_counter c (fold_left stats_step rs stats_zero)) /\
  (forall m, get_max m st' <= get_max m (fold_left stats_step rs stats_zero)).
Proof.
  intros N rs st' ps H Hf. split.
  - apply (counters_agree N rs stats_zero st' ps); [|exact H|exact Hf]. intros []; reflexivity.
  - intros m. eapply maxima_claim. exact H.
Qed.

Lemma sequential_claim : forall (N : Num) (rs : list (maq_result N)),
  exists ps, csteps (stats_zero, map actions rs) (fold_left stats_step rs stats_zero, ps) /\
             finished (fold_left stats_step rs stats_zero, ps).
Proof.
  intros N rs. exists (map (fun _ => []) rs). split; [|apply seq_finished].
  exact (sequential_schedule N rs stats_zero []).
Qed.

(** ** An integration meeting the hypotheses *)
Lemma integrate_range_shape : forall (N : Num) (f : N -> N) fuel tol maxeval c0 a b tr r,
  integrate_range N f fuel tol maxeval c0 a b tr = Done r ->
  mr_range r = Some (a, b) /\ mr_search_evals r = c0.
Proof.
  intros N f fuel tol maxeval c0 a b tr r H. unfold integrate_range in H.
  repeat match type of H with
         | context [if ?c then _ else _] => destruct c
         | context [obind ?o _] => destruct o as [[[[[? ?] ?] ?] ?]| |]; cbn [obind] in H
         end; try discriminate; injection H as <-; split; reflexivity.
Qed.

Lemma binary_whole : forall (f : er -> er) fuel limit v,
  f (x_from_t ER (Fin 1)) = Fin v -> (1 <= v)%R ->
  exists tr, binary_subdivision ER f fuel limit = Done (mkSR ER (Some (Fin 0, Fin 1)) 2 tr).
Proof.
  intros f fuel limit v E Hv. unfold binary_subdivision, search_start.
  change (nofZ ER 1) with (Fin 1). rewrite E.
  assert (L : le_eps ER (Fin v) = false).
  { unfold le_eps. cbn [nleb neps ER er_leb]. unfold Rleb. destruct (Rle_dec _ _); [|reflexivity]. lra. }
  rewrite L. cbn [andb search_whole ss_a ss_b ss_ev ss_tr]. eexists. reflexivity.
Qed.

Lemma MAQ_whole : forall (f : er -> er) s fuel v r, set_method s = BINARY_SUBDIVISION ->
  f (x_from_t ER (Fin 1)) = Fin v -> (1 <= v)%R -> MAQ ER f fuel s = Done r ->
  mr_range r = Some (Fin 0, Fin 1) /\ mr_search_evals r = 2.
Proof.
  intros f s fuel v r Hm E Hv H. unfold MAQ in H. rewrite Hm in H. cbn [search] in H.
  destruct (binary_whole f fuel (set_search_limit s) v E Hv) as [tr E']. rewrite E' in H.
  cbn [obind sr_range sr_evals sr_trace nisnan ER er_isnan] in H.
  exact (integrate_range_shape _ _ _ _ _ _ _ _ _ _ H).
Qed.

(** 1/(1+x)^2 at finite x (0 at x = -1), 1 at infinity. *)
Definition inverse_square (x : er) : er :=
  match x with Fin x => Fin (/ ((1 + x) * (1 + x))) | _ => Fin 1 end.

Lemma integration_example :
  exists (f : er -> er) (s : settings ER) fuel r r2 a b tol,
    limits_ok s /\ (2 <= fuel)%nat /\ set_tolerance s = Fin tol /\
    MAQ ER f fuel s = Done r /\ MAQ ER (fun x => er_mul (Fin 2) (f x)) fuel s = Done r2 /\
    mr_range r = Some (Fin a, Fin b) /\ mr_range r2 = Some (Fin a, Fin b) /\
    mr_search_evals r = mr_search_evals r2 /\ (0 <= a < b)%R /\
    mr_successful r = true /\ mr_search_evals r + 4 <= set_eval_limit s /\
    set_method s = BINARY_SUBDIVISION /\ feature f (1 / 2) 1 /\
    (4 / IZR (set_search_limit s) <= 1 - 1 / 2)%R /\
    (forall x, exists v, f x = Fin v) /\ (forall x, proper_nonneg (f x)) /\
    (forall t, (a <= t <= b)%R -> image f t = Fin (poly [1%R] t)).
Proof.
  set (f := inverse_square).
  set (s := mkSettings ER 2048 2048 (Fin 1) BINARY_SUBDIVISION).
  assert (Hs : limits_ok s) by (split; cbn; lia).
  destruct (MAQ_spec ER f ER_order_ok s Hs) as [r [_ H1]].
  destruct (MAQ_spec ER (fun x => er_mul (Fin 2) (f x)) ER_order_ok s Hs) as [r2 [_ H2]].
  specialize (H1 (fuel_for ER s + 2)%nat ltac:(lia)).
  specialize (H2 (fuel_for ER s + 2)%nat ltac:(lia)).
  assert (Ef : f (x_from_t ER (Fin 1)) = Fin 1).
  { rewrite x_from_t_fin by lra. unfold f, inverse_square. f_equal. field. }
  destruct (MAQ_whole f s _ 1 r eq_refl Ef ltac:(lra) H1) as [R1 S1].
  destruct (MAQ_whole (fun x => er_mul (Fin 2) (f x)) s (fuel_for ER s + 2)%nat 2 r2 eq_refl) as [R2 S2];
    [rewrite Ef; cbn [er_mul]; f_equal; lra|lra|exact H2|].
  assert (Himg : forall t, (0 <= t <= 1)%R -> image f t = Fin (poly [1%R] t)).
  { intros t Ht. unfold image. cbn [poly]. destruct (Req_EM_T t 0) as [->|Hn].
    - cbn. f_equal. lra.
    - cbn [f inverse_square er_div]. unfold Reqb. destruct (Req_EM_T (t * t) 0) as [Hz|_].
      + exfalso. apply Rmult_integral in Hz. destruct Hz; contradiction.
      + f_equal. field. split; [exact Hn|]. lra. }
  exists f, s, (fuel_for ER s + 2)%nat, r, r2, 0%R, 1%R, 1%R.
  destruct (MAQ_cubic f s (fuel_for ER s + 2)%nat r 0 1 [1%R] 1 Hs ltac:(lia) eq_refl
              ltac:(cbn; lia) H1 R1 Himg) as [Hok _]; [rewrite S1; cbn; lia|].
  split; [exact Hs|]. split; [lia|]. split; [reflexivity|]. split; [exact H1|].
  split; [exact H2|]. split; [exact R1|]. split; [exact R2|]. split; [congruence|].
  split; [lra|]. split; [exact Hok|]. split; [rewrite S1; cbn; lia|]. split; [reflexivity|].
  split; [|split; [|split; [|split; [|exact Himg]]]].
  - intros t Ht Hp. unfold above. cbn [f inverse_square].
    replace (/ ((1 + (1 / t - 1)) * (1 + (1 / t - 1))))%R with (t * t)%R by (field; lra).
    apply Rlt_le_trans with (/ 2 * / 2)%R; [|apply Rmult_le_compat; lra].
    rewrite <- Rinv_mult. apply Rinv_lt_contravar; [|lra]. lra.
  - cbn. lra.
  - intros x. unfold f, inverse_square. destruct x; eexists; reflexivity.
  - intros x. unfold f, inverse_square. destruct x as [| | |x]; cbn; try lra.
    destruct (Req_EM_T (1 + x) 0) as [->|Hn]; [rewrite Rmult_0_l, Rinv_0; lra|].
    left. apply Rinv_0_lt_compat. pose proof (Rsqr_pos_lt _ Hn). exact H.
Qed.
