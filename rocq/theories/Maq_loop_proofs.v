(** * Lemmas about the integration loop *)
From Coq Require Import ZArith List Bool Lia Permutation.
From Coq Require Import ZifyBool ZifyNat.
From Verif Require Import Num Maq Maq_spec Maq_search_proofs Maq_search_proofs2.
Import ListNotations.
Local Open Scope Z_scope.

Section P.
  Context (N : Num).
  Variable f : N -> N.

  Notation region := (region N).
  Notation accepted := (accepted N).

  (** [T t g]: [g] is the transformed integrand at [t].  [Q a b]: a property of the
      intervals examined, inherited by the two halves. *)
  Variable T : N -> N -> Prop.
  Variable Q : N -> N -> Prop.
  Hypothesis HQ : forall a b c, Q a b -> midpoint N a b c ->
    Q a c /\ Q c b /\ T c (eval_at N f c).

  Definition rg_interval (r : region) : N * N := (rg_a r, rg_b r).

  (** A region on the stack holds the mid point, values of the transformed integrand and
      the one-panel estimate. *)
  Definition region_ok (r : region) : Prop :=
    Q (rg_a r) (rg_b r) /\
    midpoint N (rg_a r) (rg_b r) (rg_c r) /\
    T (rg_a r) (rg_fa r) /\ T (rg_b r) (rg_fb r) /\ T (rg_c r) (rg_fc r) /\
    rg_r r = simpson N (rg_a r) (rg_b r) (rg_fa r) (rg_fc r) (rg_fb r).

  Definition acc_ok (tol : N) (x : accepted) : Prop :=
    Q (rg_a (ac_region x)) (rg_b (ac_region x)) /\
    good_estimate N T tol (ac_before x) (rg_a (ac_region x)) (rg_b (ac_region x))
                  (ac_q2 x) (ac_corr x).

  Lemma tiles_split : forall (l1 l2 : list (N * N)) a b x y z,
    tiles a b (l1 ++ (x, z) :: l2) -> tiles a b (l1 ++ (x, y) :: (y, z) :: l2).
  Proof.
    induction l1 as [|[u v] l1 IH]; intros l2 a b x y z H; cbn [app] in *.
    - inversion H; subst.
      + apply tiles_cons, tiles_one.
      + apply tiles_cons, tiles_cons. assumption.
    - inversion H; subst.
      + destruct l1; discriminate.
      + apply tiles_cons. apply IH. assumption.
  Qed.

  Lemma covers_split : forall (l : list (N * N)) a b x y z,
    covers a b ((x, z) :: l) -> covers a b ((x, y) :: (y, z) :: l).
  Proof.
    intros l a b x y z [l' [P Ht]].
    destruct (in_split (x, z) l') as [l1 [l2 ->]].
    { apply (Permutation_in _ P). left. reflexivity. }
    exists (l1 ++ (x, y) :: (y, z) :: l2). split.
    - apply Permutation_cons_app_inv in P.
      transitivity ((x, y) :: (y, z) :: l1 ++ l2).
      + do 2 apply perm_skip. exact P.
      + transitivity ((x, y) :: l1 ++ (y, z) :: l2).
        * apply perm_skip. apply Permutation_middle.
        * apply Permutation_middle.
    - apply tiles_split. exact Ht.
  Qed.

  Lemma covers_perm : forall (l l' : list (N * N)) a b,
    Permutation l l' -> covers a b l -> covers a b l'.
  Proof.
    intros l l' a b P [m [Pm Ht]]. exists m. split; [|exact Ht].
    transitivity l; [symmetry; exact P|exact Pm].
  Qed.

  (** Everything the loop preserves. *)
  Record loop_inv (tol a b : N) (integral : N) (stack : list region) (acc : list accepted)
    : Prop := mkLI {
    li_stack : Forall region_ok stack;
    li_acc : Forall (acc_ok tol) acc;
    li_cover : covers a b (map rg_interval stack ++ map acc_interval acc);
    li_sums : sums_recorded N acc;
    li_integral : integral = running_sum N acc
  }.

  (** What the loop returns. [it] is the number of regions examined. *)
  Record loop_post (tol a b : N) (counter : Z) (tr : list N) (maxeval : Z)
         (ex : exit_kind) (integral : N) (counter' : Z) (tr' : list N) (acc' : list accepted)
         (it : Z) : Prop := mkLP {
    lp_it : 0 <= it <= Z.max 0 (maxeval - counter);
    lp_tr : Z.of_nat (length tr') = Z.of_nat (length tr) + 2 * it;
    lp_exit : ex = ExOk \/ ex = ExNan \/ ex = ExLimit;
    lp_limit : ex = ExLimit ->
               integral = nnan N /\ counter' = counter + it + 1 /\ maxeval < counter';
    lp_nan : ex = ExNan -> integral = nnan N /\ counter' = counter + it /\ 0 < it;
    lp_ok : ex = ExOk ->
            counter' = counter + it /\ counter' <= Z.max counter maxeval /\
            Forall (acc_ok tol) acc' /\ covers a b (map acc_interval acc') /\
            sums_recorded N acc' /\ integral = running_sum N acc'
  }.

  Lemma loop_post_shift : forall tol a b counter tr maxeval ex integral counter' tr' acc' it x y,
    0 <= counter < maxeval ->
    loop_post tol a b (counter + 1) (x :: y :: tr) maxeval ex integral counter' tr' acc' it ->
    loop_post tol a b counter tr maxeval ex integral counter' tr' acc' (it + 1).
  Proof.
    intros tol a b counter tr maxeval ex integral counter' tr' acc' it x y Hlt [H1 H2 H3 H4 H5 H6].
    constructor.
    - lia.
    - cbn [length] in H2. lia.
    - exact H3.
    - intros E. destruct (H4 E) as [G1 [G2 G3]]. repeat split; try assumption; lia.
    - intros E. destruct (H5 E) as [G1 [G2 G3]]. repeat split; try assumption; lia.
    - intros E. destruct (H6 E) as [G1 [G2 [G3 [G4 [G5 G6]]]]].
      repeat split; try assumption; lia.
  Qed.

  Lemma maq_loop_spec : forall fuel tol maxeval counter integral stack tr acc a b,
    maxeval < 4294967295 -> 0 <= counter < 4294967295 ->
    loop_inv tol a b integral stack acc ->
    Z.max 0 (maxeval - counter) + 1 < Z.of_nat fuel ->
    exists ex integral' counter' tr' acc' it,
      maq_loop N f fuel tol maxeval counter integral stack tr acc
        = Done (ex, integral', counter', tr', acc') /\
      loop_post tol a b counter tr maxeval ex integral' counter' tr' acc' it.
  Proof.
    induction fuel as [|fu IH];
      intros tol maxeval counter integral stack tr acc a b Hmax Hcnt HI Hfuel; [lia|].
    cbn [maq_loop]. destruct HI as [I1 I2 I3 I4 I5].
    destruct stack as [|todo rest].
    - do 6 eexists. split; [reflexivity|].
      apply mkLP with (it := 0); try (intros; discriminate); try lia; auto.
      intros _. cbn [map app] in I3. repeat split; try assumption; lia.
    - rewrite u32_small by lia.
      destruct (maxeval <? counter + 1) eqn:El.
      + do 6 eexists. split; [reflexivity|].
        apply mkLP with (it := 0); try (intros; discriminate); try lia; auto.
        intros _. repeat split; lia.
      + inversion I1 as [|todo' rest' [R0 [R1 [R2 [R3 [R4 R5]]]]] I1' Ee]; subst todo' rest'.
        set (a' := rg_a todo) in *. set (b' := rg_b todo) in *. set (c' := rg_c todo) in *.
        set (d := ndiv N (nadd N a' c') (nofZ N 2)).
        set (e := ndiv N (nadd N b' c') (nofZ N 2)).
        set (fd := eval_at N f d). set (fe := eval_at N f e).
        destruct (HQ _ _ _ R0 R1) as [Qac [Qcb Tc]].
        assert (Md : midpoint N a' c' d) by (left; reflexivity).
        assert (Me : midpoint N c' b' e) by (right; reflexivity).
        destruct (HQ _ _ _ Qac Md) as [_ [_ Td]].
        destruct (HQ _ _ _ Qcb Me) as [_ [_ Te]].
        destruct (nisnan N fd).
        { do 6 eexists. split; [reflexivity|].
          apply mkLP with (it := 1); try (intros; discriminate); try (cbn [length]; lia); auto.
          intros _. repeat split; lia. }
        destruct (nisnan N fe).
        { do 6 eexists. split; [reflexivity|].
          apply mkLP with (it := 1); try (intros; discriminate); try (cbn [length]; lia); auto.
          intros _. repeat split; lia. }
        set (r2 := quad N a' c' d (rg_fa todo) (rg_fc todo) fd).
        set (r3 := quad N c' b' e (rg_fc todo) (rg_fb todo) fe).
        set (q2 := nadd N r2 r3).
        set (x := x_from_t N e). set (y := x_from_t N d).
        assert (Hstep : forall integral stack acc,
          loop_inv tol a b integral stack acc ->
          exists ex integral' counter' tr' acc' it,
            maq_loop N f fu tol maxeval (counter + 1) integral stack (x :: y :: tr) acc
              = Done (ex, integral', counter', tr', acc') /\
            loop_post tol a b counter tr maxeval ex integral' counter' tr' acc' it).
        { intros ig st ac HI'.
          destruct (IH tol maxeval (counter + 1) ig st (x :: y :: tr) ac a b)
            as (ex & i' & c'' & t' & ac' & it & E & P); try assumption; try lia.
          exists ex, i', c'', t', ac', (it + 1). split; [exact E|].
          eapply loop_post_shift; [lia|exact P]. }
        destruct (nleb N (nabs N (nsub N q2 (rg_r todo))) (nabs N (nmul N tol q2)) ||
                  nleb N (nabs N (nsub N q2 (rg_r todo))) (nabs N (nmul N tol integral))) eqn:Eacc.
        * apply Hstep. constructor.
          -- exact I1'.
          -- constructor; [|exact I2].
             unfold acc_ok. cbn [ac_before ac_region ac_q2 ac_corr].
             split; [exact R0|]. unfold good_estimate. fold a' b'. cbn zeta.
             exists c', d, e, (rg_fa todo), (rg_fb todo), (rg_fc todo), fd, fe.
             repeat split; try assumption.
             ++ rewrite R5. reflexivity.
             ++ rewrite <- R5. apply orb_prop in Eacc. exact Eacc.
          -- cbn [map app] in I3 |- *.
             eapply covers_perm; [|exact I3].
             apply Permutation_middle.
          -- cbn [sums_recorded ac_before]. split; assumption.
          -- cbn [running_sum ac_q2 ac_corr]. rewrite I5. reflexivity.
        * assert (Hlo : region_ok (mkRegion N a' c' d (rg_fa todo) (rg_fc todo) fd r2)).
          { repeat split; assumption. }
          assert (Hhi : region_ok (mkRegion N c' b' e (rg_fc todo) (rg_fb todo) fe r3)).
          { repeat split; assumption. }
          assert (Hcov : covers a b ((a', c') :: (c', b') :: map rg_interval rest
                                       ++ map acc_interval acc)).
          { apply covers_split. exact I3. }
          destruct (nltb N (nabs N r3) (nabs N r2)).
          -- apply Hstep. constructor; try assumption.
             constructor; [exact Hlo|]. constructor; [exact Hhi|exact I1'].
          -- apply Hstep. constructor; try assumption.
             ++ constructor; [exact Hhi|]. constructor; [exact Hlo|exact I1'].
             ++ eapply covers_perm; [|exact Hcov]. cbn [map app]. apply perm_swap.
  Qed.

  (** ** From the range found by the search to the result *)
  Definition start_region_inv : forall tol a b fa fb fc c,
    Q a b -> midpoint N a b c -> T a fa -> T b fb -> T c fc ->
    loop_inv tol a b (nofZ N 0) [mkRegion N a b c fa fb fc (quad N a b c fa fb fc)] [].
  Proof.
    intros tol a b fa fb fc c Hq Hm Ha Hb Hc. constructor.
    - constructor; [|constructor]. repeat split; assumption.
    - constructor.
    - exists [(a, b)]. split; [reflexivity|apply tiles_one].
    - exact I.
    - reflexivity.
  Qed.

  (** Result of integrating over a given range.  [n0] is the number of calls made by the
      search. *)
  Record range_post (tol a b : N) (maxeval counter0 : Z) (n0 : nat) (r : maq_result N)
         (it : Z) : Prop := mkRP {
    rp_range : mr_range r = Some (a, b);
    rp_search : mr_search_evals r = counter0;
    rp_it : 0 <= it <= Z.max 0 (maxeval - counter0 - 3);
    rp_exit : mr_exit r <> ExSearchFail;
    rp_success : mr_successful r = true <-> mr_exit r = ExOk;
    rp_fail : mr_successful r = false -> mr_integral r = nnan N;
    rp_tr_le : Z.of_nat n0 + 2 <= Z.of_nat (length (mr_trace r)) <= Z.of_nat n0 + 3 + 2 * it;
    rp_early : mr_exit r = ExNan /\ it = 0 /\ mr_evaluations r = counter0
               \/ Z.of_nat (length (mr_trace r)) = Z.of_nat n0 + 3 + 2 * it /\
                  (mr_exit r = ExNan /\ 0 < it /\ mr_evaluations r = counter0 + 3 + it \/
                   mr_exit r = ExLimit /\ mr_evaluations r = counter0 + 3 + it + 1 /\
                     maxeval < mr_evaluations r \/
                   mr_exit r = ExOk /\ mr_evaluations r = counter0 + 3 + it /\
                     mr_evaluations r <= Z.max (counter0 + 3) maxeval);
    rp_ok : mr_exit r = ExOk ->
            Forall (acc_ok tol) (mr_accepted r) /\
            covers a b (map acc_interval (mr_accepted r)) /\
            sums_recorded N (mr_accepted r) /\ mr_integral r = running_sum N (mr_accepted r)
  }.

  Lemma integrate_range_spec : forall fuel tol maxeval counter0 a b tr,
    0 <= maxeval < 4294967295 -> 0 <= counter0 < 4294967292 ->
    Q a b -> T a (eval_left N f a) -> T b (eval_at N f b) ->
    maxeval + 1 < Z.of_nat fuel ->
    exists r it, integrate_range N f fuel tol maxeval counter0 a b tr = Done r /\
                 range_post tol a b maxeval counter0 (length tr) r it.
  Proof.
    intros fuel tol maxeval counter0 a b tr Hm Hc HQab HTa HTb Hf. unfold integrate_range.
    destruct (nisnan N (eval_left N f a)).
    { exists (mkMR N (nnan N) false counter0 ExNan counter0
                (x_from_t N b :: x_from_t N a :: tr) [] (Some (a, b))), 0.
      split; [reflexivity|].
      constructor; cbn; try reflexivity; try lia; try discriminate; try (split; discriminate).
      left. repeat split. }
    destruct (nisnan N (eval_at N f b)).
    { exists (mkMR N (nnan N) false counter0 ExNan counter0
                (x_from_t N b :: x_from_t N a :: tr) [] (Some (a, b))), 0.
      split; [reflexivity|].
      constructor; cbn; try reflexivity; try lia; try discriminate; try (split; discriminate).
      left. repeat split. }
    set (c := ndiv N (nadd N a b) (nofZ N 2)).
    destruct (nisnan N (eval_at N f c)).
    { exists (mkMR N (nnan N) false counter0 ExNan counter0
                (x_from_t N c :: x_from_t N b :: x_from_t N a :: tr) [] (Some (a, b))), 0.
      split; [reflexivity|].
      constructor; cbn [mr_range mr_search_evals mr_exit mr_successful mr_integral mr_trace
        mr_evaluations mr_accepted length];
        try reflexivity; try lia; try discriminate; try (split; discriminate).
      left. repeat split. }
    rewrite u32_small by lia.
    destruct (maq_loop_spec fuel tol maxeval (counter0 + 3) (nofZ N 0)
                [mkRegion N a b c (eval_left N f a) (eval_at N f b) (eval_at N f c)
                   (quad N a b c (eval_left N f a) (eval_at N f b) (eval_at N f c))]
                (x_from_t N c :: x_from_t N b :: x_from_t N a :: tr) [] a b)
      as (ex & ig & cn & t' & ac & it & E & P); try lia.
    { assert (Mc : midpoint N a b c) by (left; reflexivity).
      apply start_region_inv; try assumption. apply (HQ _ _ _ HQab Mc). }
    rewrite E. cbn [obind].
    eexists; exists it. split; [reflexivity|].
    destruct P as [P1 P2 P3 P4 P5 P6].
    constructor; cbn [mr_range mr_search_evals mr_exit mr_successful mr_integral mr_trace
      mr_evaluations mr_accepted length] in *; try reflexivity.
    - lia.
    - destruct P3 as [->|[->| ->]]; discriminate.
    - destruct P3 as [->|[->| ->]]; split; intros; congruence.
    - destruct P3 as [->|[->| ->]]; intros Hs; try discriminate.
      + apply (P5 eq_refl).
      + apply (P4 eq_refl).
    - lia.
    - right. split; [lia|].
      destruct P3 as [->|[->| ->]].
      + right. right. destruct (P6 eq_refl) as [G1 [G2 _]]. repeat split; lia.
      + left. destruct (P5 eq_refl) as [G1 [G2 G3]]. repeat split; lia.
      + right. left. destruct (P4 eq_refl) as [G1 [G2 G3]]. repeat split; lia.
    - intros ->. destruct (P6 eq_refl) as [G1 [G2 [G3 [G4 [G5 G6]]]]]. repeat split; assumption.
  Qed.
End P.

(** Nothing assumed about the arithmetic: [T] is [transformed], [Q] holds always. *)
Section Generic.
  Context (N : Num).
  Variable f : N -> N.

  Lemma eval_at_transformed : forall t, transformed N f t (eval_at N f t).
  Proof. intros t. left. reflexivity. Qed.

  Lemma eval_left_transformed : forall t, transformed N f t (eval_left N f t).
  Proof.
    intros t. unfold transformed, eval_left, x_from_t.
    destruct (neqb N t (nofZ N 0)) eqn:E; [right|left]; auto.
  Qed.

  Definition any_interval (a b : N) : Prop := True.

  Lemma any_HQ : forall a b c : N, any_interval a b -> midpoint N a b c ->
    any_interval a c /\ any_interval c b /\ transformed N f c (eval_at N f c).
  Proof.
    intros a b c _ _. repeat split. apply eval_at_transformed.
  Qed.
End Generic.
