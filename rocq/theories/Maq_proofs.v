(** * Integration as a whole: termination, counting, settings, statistics *)
From Coq Require Import ZArith List Bool Lia Permutation.
From Coq Require Import ZifyBool ZifyNat.
From Coq Require Import Floats.SpecFloat.
From Verif Require Import Num Maq Maq_spec Maq_search_proofs Maq_search_proofs2 Maq_loop_proofs.
Import ListNotations.
Local Open Scope Z_scope.

Lemma bound_small : forall m limit, 1 <= limit <= 1073741824 -> search_bound m limit <= 2147483648.
Proof. intros m limit H. destruct m; cbn [search_bound]; lia. Qed.

Section P.
  Context (N : Num).
  Variable f : N -> N.
  Hypothesis HO : order_ok N.

  Lemma search_counts : forall m fuel limit,
    1 <= limit <= 1073741824 -> limit + 1 < Z.of_nat fuel ->
    exists r, search N f m fuel limit = Done r /\
              sr_evals r = Z.of_nat (length (sr_trace r)) /\
              2 <= sr_evals r <= search_bound m limit.
  Proof.
    intros m fuel limit Hl Hf. destruct m; cbn [search search_bound].
    - destruct (binary_spec N f HO fuel limit) as [r [E R]]; try (unfold max_limit, max_scattered, max_refined; lia); try (left; lia).
      exists r. split; [exact E|].
      destruct R; cbn [sr_evals sr_trace]; split; (assumption || lia).
    - destruct (reverse_spec N f HO fuel limit) as [r [E R]]; try (unfold max_limit, max_scattered, max_refined; lia); try (left; lia).
      exists r. split; [exact E|].
      destruct R; cbn [sr_evals sr_trace]; split; (assumption || lia).
    - destruct (low_spec N f HO fuel limit) as [r [E R]]; try (unfold max_limit, max_scattered, max_refined; lia); try (left; lia).
      exists r. split; [exact E|].
      destruct R; cbn [sr_evals sr_trace]; split; (assumption || lia).
    - destruct (scattered_spec N f fuel limit HO) as [r [E R]]; try (unfold max_limit, max_scattered, max_refined; lia); try (left; lia).
      exists r. split; [exact E|].
      destruct R; cbn [sr_evals sr_trace]; split; (assumption || lia).
    - destruct (directed_spec N f fuel limit) as [r [E R]]; try (unfold max_limit, max_scattered, max_refined; lia); try (left; lia).
      exists r. split; [exact E|].
      destruct R; cbn [sr_evals sr_trace]; split; (assumption || lia).
  Qed.

  (** ** More fuel does not change a result *)
  Section Fuel.
    Lemma sub_while_fuel : forall cpt apt bpt lo hi limit k k' n s r,
      (k <= k')%nat ->
      sub_while N f cpt apt bpt k lo hi limit n s = Done r ->
      sub_while N f cpt apt bpt k' lo hi limit n s = Done r.
    Proof.
      intros cpt apt bpt lo hi limit. induction k as [|k IH]; intros k' n s r Hk H; [discriminate|].
      destruct k' as [|k']; [lia|]. cbn [Maq.sub_while] in *.
      destruct (_ && _); [|exact H].
      destruct (sub_for N f cpt apt bpt (Z.to_nat n) (lo n) (hi n) n s); try discriminate.
      cbn [obind] in *. apply IH; [lia|exact H].
    Qed.

    Lemma scat_inner_fuel : forall stop limit k k' n i p s r,
      (k <= k')%nat ->
      scat_inner N f stop k limit n i p s = Done r ->
      scat_inner N f stop k' limit n i p s = Done r.
    Proof.
      intros stop limit. induction k as [|k IH]; intros k' n i p s r Hk H; [discriminate|].
      destruct k' as [|k']; [lia|]. cbn [Maq.scat_inner] in *.
      destruct (_ && _); [|exact H].
      destruct (stop _); [exact H|].
      destruct (long_max <? p * 2); [discriminate|]. apply IH; [lia|exact H].
    Qed.

    Lemma scat_outer_fuel : forall stop go limit k k' n kk s r,
      (k <= k')%nat ->
      scat_outer N f stop go k limit n kk s = Done r ->
      scat_outer N f stop go k' limit n kk s = Done r.
    Proof.
      intros stop go limit. induction k as [|k IH]; intros k' n kk s r Hk H; [discriminate|].
      destruct k' as [|k']; [lia|]. cbn [Maq.scat_outer] in *.
      destruct (_ && _); [|exact H].
      destruct (stop _); [exact H|].
      destruct (_ || _); [discriminate|].
      match type of H with obind ?o _ = _ => destruct o as [s2| |] eqn:E end; try discriminate.
      rewrite (scat_inner_fuel _ _ k k' _ _ _ _ _ ltac:(lia) E).
      cbn [obind] in *. apply IH; [lia|exact H].
    Qed.

    Lemma dir_outer_fuel : forall limit k k' s r,
      (k <= k')%nat -> dir_outer N f k limit s = Done r -> dir_outer N f k' limit s = Done r.
    Proof.
      intros limit. induction k as [|k IH]; intros k' s r Hk H; [discriminate|].
      destruct k' as [|k']; [lia|]. cbn [Maq.dir_outer] in *.
      destruct (_ && _); [|exact H].
      match type of H with obind ?o _ = _ => destruct o as [s2| |] eqn:E end; try discriminate.
      rewrite (scat_outer_fuel _ _ _ k k' _ _ _ _ ltac:(lia) E).
      cbn [obind] in *. apply IH; [lia|exact H].
    Qed.

    Lemma dir_refine_fuel : forall limit k k' s r,
      (k <= k')%nat -> dir_refine N f k limit s = Done r -> dir_refine N f k' limit s = Done r.
    Proof.
      intros limit. induction k as [|k IH]; intros k' s r Hk H; [discriminate|].
      destruct k' as [|k']; [lia|]. cbn [Maq.dir_refine] in *.
      destruct (_ && _ && _); [|exact H].
      destruct (gt_eps N _); [exact H|].
      destruct (gt_eps N _); [exact H|]. apply IH; [lia|exact H].
    Qed.

    Lemma maq_loop_fuel : forall tol maxeval k k' counter integral stack tr acc r,
      (k <= k')%nat ->
      maq_loop N f k tol maxeval counter integral stack tr acc = Done r ->
      maq_loop N f k' tol maxeval counter integral stack tr acc = Done r.
    Proof.
      intros tol maxeval.
      induction k as [|k IH]; intros k' counter integral stack tr acc r Hk H; [discriminate|].
      destruct k' as [|k']; [lia|]. cbn [maq_loop] in *.
      destruct stack as [|todo rest]; [exact H|].
      destruct (_ <? _); [exact H|].
      destruct (nisnan N _); [exact H|].
      destruct (nisnan N _); [exact H|].
      destruct (_ || _); [apply IH; [lia|exact H]|].
      destruct (nltb N _ _); (apply IH; [lia|exact H]).
    Qed.

    Lemma search_fuel : forall m limit k k' r,
      (k <= k')%nat -> search N f m k limit = Done r -> search N f m k' limit = Done r.
    Proof.
      intros m limit k k' r Hk H. destruct m; cbn [search] in *.
      - unfold binary_subdivision in *. destruct (search_start N f (c0_mid N)) as [fb s].
        destruct (_ && _); [|exact H].
        match type of H with obind ?o _ = _ => destruct o as [s2| |] eqn:E end; try discriminate.
        rewrite (sub_while_fuel _ _ _ _ _ _ _ k' _ _ _ Hk E). exact H.
      - unfold reverse_binary_subdivision in *. destruct (search_start N f (c0_rev N)) as [fb s].
        destruct (_ && _); [|exact H].
        match type of H with obind ?o _ = _ => destruct o as [s2| |] eqn:E end; try discriminate.
        rewrite (sub_while_fuel _ _ _ _ _ _ _ k' _ _ _ Hk E). exact H.
      - unfold low_first_reverse_binary_subdivision in *.
        destruct (search_start N f (c0_rev N)) as [fb s].
        destruct (_ && _); [|exact H].
        match type of H with obind ?o _ = _ => destruct o as [s2| |] eqn:E end; try discriminate.
        rewrite (sub_while_fuel _ _ _ _ _ _ _ k' _ _ _ Hk E). cbn [obind] in *.
        match type of H with obind ?o _ = _ => destruct o as [s3| |] eqn:E3 end; try discriminate.
        rewrite (sub_while_fuel _ _ _ _ _ _ _ k' _ _ _ Hk E3). exact H.
      - unfold scattered_search in *. destruct (search_start N f (c0_mid N)) as [fb s].
        destruct (_ && _); [|exact H].
        match type of H with obind ?o _ = _ => destruct o as [s2| |] eqn:E end; try discriminate.
        rewrite (scat_outer_fuel _ _ _ _ k' _ _ _ _ Hk E). exact H.
      - unfold directed_search in *. destruct (search_start N f (c0_mid N)) as [fb s].
        destruct (_ && _); [|exact H].
        match type of H with obind ?o _ = _ => destruct o as [s2| |] eqn:E end; try discriminate.
        rewrite (dir_outer_fuel _ _ k' _ _ Hk E). cbn [obind] in *.
        destruct (is_zero N (ss_fc s2)); [exact H|].
        match type of H with obind ?o _ = _ => destruct o as [s3| |] eqn:E3 end; try discriminate.
        rewrite (dir_refine_fuel _ _ k' _ _ Hk E3). exact H.
    Qed.

    Lemma MAQ_fuel : forall s k k' r,
      (k <= k')%nat -> MAQ N f k s = Done r -> MAQ N f k' s = Done r.
    Proof.
      intros s k k' r Hk H. unfold MAQ in *.
      match type of H with obind ?o _ = _ => destruct o as [sr| |] eqn:E end; try discriminate.
      rewrite (search_fuel _ _ _ _ _ Hk E). cbn [obind] in *.
      destruct (sr_range sr) as [[a b]|]; [|exact H].
      destruct (nisnan N a); [exact H|].
      unfold integrate_range in *.
      destruct (nisnan N _); [exact H|].
      destruct (nisnan N _); [exact H|].
      destruct (nisnan N _); [exact H|].
      match type of H with obind ?o _ = _ => destruct o as [[[[[ex ig] cn] tr] ac]| |] eqn:E2 end;
        try discriminate.
      rewrite (maq_loop_fuel _ _ _ _ _ _ _ _ _ _ Hk E2). exact H.
    Qed.
  End Fuel.

  (** ** The result of an integration *)
  (** [it] regions are examined after the search. *)
  Inductive maq_post (s : settings N) (r : maq_result N) : Prop :=
  | mp_nothing :
      mr_exit r = ExSearchFail -> mr_successful r = true -> mr_integral r = nofZ N 0 ->
      mr_evaluations r = Z.of_nat (length (mr_trace r)) ->
      mr_search_evals r = mr_evaluations r ->
      2 <= mr_evaluations r <= search_bound (set_method s) (set_search_limit s) ->
      mr_range r = None -> mr_accepted r = [] ->
      maq_post s r
  | mp_range : forall a b (n0 : nat) it,
      2 <= Z.of_nat n0 <= search_bound (set_method s) (set_search_limit s) ->
      range_post N (transformed N f) (any_interval N) (set_tolerance s) a b (set_eval_limit s) (Z.of_nat n0) n0 r it ->
      maq_post s r.

  Lemma MAQ_spec1 : forall s, limits_ok s ->
    exists r, MAQ N f (fuel_for N s) s = Done r /\ maq_post s r.
  Proof.
    intros s [Hs He]. unfold MAQ.
    destruct (search_counts (set_method s) (fuel_for N s) (set_search_limit s))
      as [sr [E [Hc Hb]]]; [exact Hs|unfold fuel_for; lia|].
    rewrite E. cbn [obind].
    pose proof (bound_small (set_method s) (set_search_limit s) Hs) as Hsm.
    assert (Hnothing : exists r : maq_result N,
      Done (mkMR N (nofZ N 0) true (sr_evals sr) ExSearchFail (sr_evals sr)
                 (sr_trace sr) [] None) = Done r /\ maq_post s r).
    { eexists; split; [reflexivity|]. apply mp_nothing; try reflexivity; try assumption. }
    destruct (sr_range sr) as [[a b]|]; [|exact Hnothing].
    destruct (nisnan N a); [exact Hnothing|].
    destruct (integrate_range_spec N f _ _ (any_HQ N f) (fuel_for N s) (set_tolerance s) (set_eval_limit s)
                (sr_evals sr) a b (sr_trace sr)) as [r [it [E2 P]]]; try lia;
      try exact I; try apply eval_left_transformed; try apply eval_at_transformed.
    { unfold fuel_for; lia. }
    exists r. split; [exact E2|].
    apply mp_range with (a := a) (b := b) (n0 := length (sr_trace sr)) (it := it); [lia|].
    rewrite <- Hc. exact P.
  Qed.

  Lemma MAQ_spec : forall s, limits_ok s ->
    exists r, maq_post s r /\
              (forall fuel, (fuel_for N s <= fuel)%nat -> MAQ N f fuel s = Done r).
  Proof.
    intros s Hs. destruct (MAQ_spec1 s Hs) as [r [E P]].
    exists r. split; [exact P|].
    intros fuel Hf. apply (MAQ_fuel _ _ _ _ Hf E).
  Qed.

  Lemma integrate_range_fuel : forall tol maxeval c0 a b tr k k' r,
    (k <= k')%nat ->
    integrate_range N f k tol maxeval c0 a b tr = Done r ->
    integrate_range N f k' tol maxeval c0 a b tr = Done r.
  Proof.
    intros tol maxeval c0 a b tr k k' r Hk H. unfold integrate_range in *.
    destruct (nisnan N _); [exact H|].
    destruct (nisnan N _); [exact H|].
    destruct (nisnan N _); [exact H|].
    match type of H with obind ?o _ = _ => destruct o as [[[[[ex ig] cn] t2] ac]| |] eqn:E2 end;
      try discriminate.
    rewrite (maq_loop_fuel _ _ _ _ _ _ _ _ _ _ Hk E2). exact H.
  Qed.

  (** A result over a range comes from the search's range. *)
  Lemma MAQ_range_inv : forall s fuel r a b, limits_ok s ->
    MAQ N f fuel s = Done r -> mr_range r = Some (a, b) ->
    exists sr, search N f (set_method s) fuel (set_search_limit s) = Done sr /\
      sr_range sr = Some (a, b) /\ nisnan N a = false /\
      sr_evals sr = Z.of_nat (length (sr_trace sr)) /\
      2 <= sr_evals sr <= search_bound (set_method s) (set_search_limit s) /\
      integrate_range N f fuel (set_tolerance s) (set_eval_limit s) (sr_evals sr) a b
                      (sr_trace sr) = Done r.
  Proof.
    intros s fuel r a b Hs H Hr. unfold MAQ in H.
    destruct (search N f (set_method s) fuel (set_search_limit s)) as [sr| |] eqn:E;
      try discriminate.
    cbn [obind] in H.
    destruct (search_counts (set_method s) (fuel_for N s + fuel) (set_search_limit s))
      as [sr' [E' [Hc Hb]]]; [apply Hs|unfold fuel_for, limits_ok in *; lia|].
    rewrite (search_fuel (set_method s) (set_search_limit s) fuel (fuel_for N s + fuel) sr ltac:(lia) E) in E'.
    injection E' as <-.
    destruct (sr_range sr) as [[a' b']|] eqn:Er.
    2:{ injection H as <-. discriminate. }
    destruct (nisnan N a') eqn:En.
    { injection H as <-. discriminate. }
    assert (Hab : a' = a /\ b' = b).
    { unfold integrate_range in H.
      destruct (nisnan N (eval_left N f a')); [injection H as <-; cbn in Hr; injection Hr as -> ->; split; reflexivity|].
      destruct (nisnan N (eval_at N f b')); [injection H as <-; cbn in Hr; injection Hr as -> ->; split; reflexivity|].
      destruct (nisnan N (eval_at N f (ndiv N (nadd N a' b') (nofZ N 2)))); [injection H as <-; cbn in Hr; injection Hr as -> ->; split; reflexivity|].
      match type of H with obind ?o _ = _ => destruct o as [[[[[ex ig] cn] t2] ac]| |] eqn:E2 end;
        try discriminate.
      injection H as <-. cbn in Hr. injection Hr as -> ->; split; reflexivity. }
    destruct Hab as [<- <-].
    exists sr. repeat split; try assumption; lia.
  Qed.

  Lemma MAQ_range_post : forall s fuel r a b (T Q : N -> N -> Prop), limits_ok s ->
    (forall a b c, Q a b -> midpoint N a b c -> Q a c /\ Q c b /\ T c (eval_at N f c)) ->
    Q a b -> T a (eval_left N f a) -> T b (eval_at N f b) ->
    MAQ N f fuel s = Done r -> mr_range r = Some (a, b) ->
    exists n0 it, 2 <= Z.of_nat n0 <= search_bound (set_method s) (set_search_limit s) /\
      range_post N T Q (set_tolerance s) a b (set_eval_limit s) (Z.of_nat n0) n0 r it.
  Proof.
    intros s fuel r a b T Q Hs HQ Hab Ha Hb H Hr.
    destruct (MAQ_range_inv s fuel r a b Hs H Hr) as [sr [_ [_ [_ [Hc [Hbd E]]]]]].
    pose proof (bound_small (set_method s) (set_search_limit s) (proj1 Hs)) as Hsm.
    destruct (integrate_range_spec N f T Q HQ (fuel_for N s + fuel) (set_tolerance s)
                (set_eval_limit s) (sr_evals sr) a b (sr_trace sr))
      as [r' [it [E' P]]]; try assumption; try (unfold fuel_for, limits_ok in *; lia).
    rewrite (integrate_range_fuel _ _ _ _ _ _ fuel (fuel_for N s + fuel) r ltac:(lia) E) in E'.
    injection E' as <-.
    exists (length (sr_trace sr)), it. split; [lia|]. rewrite <- Hc. exact P.
  Qed.

  Lemma MAQ_done_post : forall s fuel r, limits_ok s ->
    MAQ N f fuel s = Done r -> maq_post s r.
  Proof.
    intros s fuel r Hs H. destruct (MAQ_spec s Hs) as [r' [P E]].
    pose proof (E (Nat.max (fuel_for N s) fuel) ltac:(lia)) as E1.
    rewrite (MAQ_fuel s fuel (Nat.max (fuel_for N s) fuel) r ltac:(lia) H) in E1.
    injection E1 as ->. exact P.
  Qed.
End P.

(** ** The law holds of binary64 *)
Lemma SFcompare_antisym_lt : forall x y, SFcompare x y = Some Lt -> SFcompare y x = Some Gt.
Proof.
  intros x y. unfold SFcompare.
  destruct x as [sx|sx| |sx mx ex], y as [sy|sy| |sy my ey]; try discriminate;
    try (destruct sx); try (destruct sy); try discriminate; try (intros H; reflexivity || discriminate).
  - rewrite (Z.compare_antisym ex ey). destruct (ex ?= ey); cbn; try discriminate; try reflexivity.
    rewrite !Pos.compare_cont_spec. rewrite (Pos.compare_antisym mx my).
    destruct (mx ?= my)%positive; cbn; (discriminate || reflexivity).
  - rewrite (Z.compare_antisym ex ey). destruct (ex ?= ey); cbn; try discriminate; try reflexivity.
    rewrite !Pos.compare_cont_spec. rewrite (Pos.compare_antisym mx my).
    destruct (mx ?= my)%positive; cbn; (discriminate || reflexivity).
Qed.

Lemma F64_order_ok : order_ok F64.
Proof.
  intros x y. cbn [nltb nleb F64]. unfold SFltb, SFleb.
  destruct (SFcompare x y) as [[]|] eqn:E; try discriminate.
  rewrite (SFcompare_antisym_lt _ _ E). reflexivity.
Qed.

(** ** Settings *)
Section SettingsProofs.
  Context (N : Num).

  Lemma last_event_last : forall A B (g : A -> option B) d l x,
    last_event g d (l ++ [x]) = match g x with Some v => v | None => last_event g d l end.
  Proof.
    intros A B g d l x. revert d. induction l as [|y l IH]; intros d; cbn [app last_event].
    - reflexivity.
    - apply IH.
  Qed.

  Definition settings_spec (ops : list (settings_op N)) : settings N :=
    mkSettings N (last_event (eval_limit_event N) 2048 ops)
                 (last_event (search_limit_event N) 2048 ops)
                 (last_event (tolerance_event N) (ndiv N (nofZ N 1) (nofZ N 1000)) ops)
                 (last_event (method_event N) DIRECTED ops).

  Lemma settings_run_spec : forall ops, settings_run N ops = settings_spec ops.
  Proof.
    intros ops. induction ops as [|o ops IH] using rev_ind; [reflexivity|].
    unfold settings_run in *. rewrite fold_left_app, IH. cbn [fold_left].
    unfold settings_spec. rewrite !last_event_last.
    destruct o; cbn [settings_step tolerance_event eval_limit_event search_limit_event method_event
                     set_eval_limit set_search_limit set_tolerance set_method].
    - destruct (nltb N (nofZ N 0) tol); reflexivity.
    - unfold u32. change (2 ^ 32) with 4294967296.
      pose proof (Z.mod_pos_bound evals 4294967296 ltac:(lia)) as Hb.
      destruct (0 <? evals mod 4294967296) eqn:E1, (evals mod 4294967296 =? 0) eqn:E2;
        try reflexivity; lia.
    - unfold u32. change (2 ^ 32) with 4294967296.
      pose proof (Z.mod_pos_bound evals 4294967296 ltac:(lia)) as Hb.
      destruct (0 <? evals mod 4294967296) eqn:E1, (evals mod 4294967296 =? 0) eqn:E2;
        try reflexivity; lia.
    - reflexivity.
    - reflexivity.
    - reflexivity.
    - reflexivity.
  Qed.

  Lemma settings_valid : forall ops,
    nltb N (nofZ N 0) (ndiv N (nofZ N 1) (nofZ N 1000)) = true ->
    nltb N (nofZ N 0) (set_tolerance (settings_run N ops)) = true /\
    1 <= set_eval_limit (settings_run N ops) < 2 ^ 32 /\
    1 <= set_search_limit (settings_run N ops) < 2 ^ 32.
  Proof.
    intros ops Hd. change (2 ^ 32) with 4294967296.
    induction ops as [|o ops IH] using rev_ind.
    - cbn. split; [exact Hd|lia].
    - unfold settings_run in *. rewrite fold_left_app. cbn [fold_left].
      destruct IH as [I1 [I2 I3]].
      destruct o; cbn [settings_step]; try (split; [assumption|split; cbn; assumption || lia]).
      + destruct (nltb N (nofZ N 0) tol) eqn:E; auto.
      + destruct (0 <? u32 evals) eqn:E; auto. cbn. split; [exact I1|].
        unfold u32 in *. pose proof (Z.mod_pos_bound evals 4294967296 ltac:(lia)). lia.
      + destruct (0 <? u32 evals) eqn:E; auto. cbn. split; [exact I1|].
        unfold u32 in *. pose proof (Z.mod_pos_bound evals 4294967296 ltac:(lia)). lia.
  Qed.
End SettingsProofs.

(** ** Statistics *)
Section StatsProofs.
  Context (N : Num).

  Lemma count_snoc : forall p l r,
    count N p (l ++ [r]) = count N p l + (if p r then 1 else 0).
  Proof.
    intros p l r. unfold count. rewrite filter_app, app_length. cbn [filter].
    destruct (p r); cbn [length]; lia.
  Qed.

  Lemma total_snoc : forall g l r, total N g (l ++ [r]) = total N g l + g r.
  Proof.
    intros g l r. unfold total. induction l as [|x l IH]; cbn [app fold_right]; [lia|].
    rewrite IH. lia.
  Qed.

  Lemma maximum_snoc : forall g l r, maximum N g (l ++ [r]) = Z.max (maximum N g l) (Z.max (g r) 0).
  Proof.
    intros g l r. unfold maximum. induction l as [|x l IH]; cbn [app fold_right]; [lia|].
    rewrite IH. lia.
  Qed.

  Lemma maximum_nonneg : forall g l, 0 <= maximum N g l.
  Proof.
    intros g l. unfold maximum. induction l as [|x l IH]; cbn [fold_right]; lia.
  Qed.

  Lemma u32_succ : forall a, u32 (a mod 2 ^ 32 + 1) = (a + 1) mod 2 ^ 32.
  Proof. intros a. unfold u32. change 4294967296 with (2 ^ 32). apply Zplus_mod_idemp_l. Qed.

  Lemma u64_plus : forall a b, u64 (a mod 2 ^ 64 + b) = (a + b) mod 2 ^ 64.
  Proof.
    intros a b. unfold u64. change 18446744073709551616 with (2 ^ 64). apply Zplus_mod_idemp_l.
  Qed.

  Lemma max_if : forall a b, 0 <= a -> (if a <? b then b else a) = Z.max a (Z.max b 0).
  Proof. intros a b H. destruct (a <? b) eqn:E; lia. Qed.

  Lemma stats_step_are : forall st rs r,
    stats_are N st rs -> stats_are N (stats_step st r) (rs ++ [r]).
  Proof.
    intros st rs r [H1 H2 H3 H4 H5 H6 H7 H8 H9].
    pose proof (maximum_nonneg (fun r => mr_search_evals r) rs) as M1.
    pose proof (maximum_nonneg (fun r => mr_evaluations r)
                  (filter (fun r => ok N r || out_of_evals N r) rs)) as M2.
    unfold stats_step.
    destruct (mr_exit r) eqn:Er;
      (constructor; cbn [st_max_integration st_integration_fails st_integration_evals st_max_search
        st_search_fails st_search_evals st_calls st_successes st_nans];
       rewrite ?filter_app, ?app_length, ?count_snoc, ?total_snoc, ?maximum_snoc;
       cbn [filter]; unfold ok, out_of_evals, nothing_found, met_nan in *; rewrite ?Er;
       cbn [negb orb]; rewrite ?app_nil_r, ?total_snoc, ?maximum_snoc;
       rewrite ?H1, ?H2, ?H3, ?H4, ?H5, ?H6, ?H7, ?H8, ?H9;
       rewrite ?u32_succ, ?u64_plus, ?max_if by assumption;
       rewrite ?Z.add_0_r, ?Nat2Z.inj_add; try reflexivity).
  Qed.

  Lemma session_run_app : forall ops1 ops2 st,
    session_run N st (ops1 ++ ops2) =
    obind (session_run N st ops1) (fun st' => session_run N st' ops2).
  Proof.
    induction ops1 as [|o ops1 IH]; intros ops2 st; cbn [app session_run]; [reflexivity|].
    destruct (session_step N st o); cbn [obind]; [apply IH|reflexivity|reflexivity].
  Qed.

  Lemma session_stats : forall ops st,
    session_run N (session_start N) ops = Done st ->
    exists rs, results_since N (rev ops) (se_settings st) rs /\ stats_are N (se_stats st) rs.
  Proof.
    intros ops. induction ops as [|o ops IH] using rev_ind; intros st H.
    - cbn in H. injection H as <-. exists []. split; [constructor|].
      constructor; reflexivity.
    - rewrite session_run_app in H.
      destruct (session_run N (session_start N) ops) as [st1| |] eqn:E; try discriminate.
      cbn [obind session_run] in H.
      destruct (IH st1 eq_refl) as [rs [R A]].
      rewrite rev_app_distr. cbn [rev app].
      destruct o as [f|so|]; cbn [session_step] in H.
      + destruct (MAQ N f (fuel_for N (se_settings st1)) (se_settings st1)) as [r| |] eqn:Em;
          try discriminate.
        cbn [obind] in H. injection H as <-. cbn [se_settings se_stats].
        exists (rs ++ [r]). split; [eapply rs_integrate; eassumption|].
        apply stats_step_are. exact A.
      + cbn [obind] in H. injection H as <-. cbn [se_settings se_stats].
        exists rs. split; [constructor; exact R|exact A].
      + cbn [obind] in H. injection H as <-. cbn [se_settings se_stats].
        exists []. split; [econstructor; exact R|]. constructor; reflexivity.
  Qed.

  Lemma count_partition : forall rs,
    Z.of_nat (length rs) =
    count N (ok N) rs + count N (out_of_evals N) rs + count N (nothing_found N) rs
      + count N (met_nan N) rs.
  Proof.
    intros rs. induction rs as [|r rs IH] using rev_ind; [reflexivity|].
    rewrite !count_snoc, app_length. cbn [length].
    unfold ok, out_of_evals, nothing_found, met_nan in *. destruct (mr_exit r); lia.
  Qed.

  Lemma session_sum : forall ops st,
    session_run N (session_start N) ops = Done st ->
    st_calls (se_stats st) =
    (st_successes (se_stats st) + st_integration_fails (se_stats st)
     + st_search_fails (se_stats st) + st_nans (se_stats st)) mod 2 ^ 32.
  Proof.
    intros ops st H. destruct (session_stats ops st H) as [rs [_ A]].
    destruct A as [H1 H2 H3 H4 H5 _ _ _ _].
    rewrite H1, H2, H3, H4, H5, (count_partition rs).
    change (2 ^ 32) with 4294967296.
    rewrite (Zplus_mod (_ + _ + _) (count N (met_nan N) rs mod _)).
    rewrite (Zplus_mod (_ + _) (count N (nothing_found N) rs mod _)).
    rewrite (Zplus_mod (count N (ok N) rs mod _)).
    rewrite !Zmod_mod.
    rewrite <- (Zplus_mod (count N (ok N) rs)).
    rewrite <- (Zplus_mod (count N (ok N) rs + _)).
    rewrite <- (Zplus_mod (count N (ok N) rs + _ + _)). reflexivity.
  Qed.
End StatsProofs.
