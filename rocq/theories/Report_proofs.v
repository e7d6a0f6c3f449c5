(** * Proofs about the numbers in the report on integrations (C93) *)
From Coq Require Import ZArith Bool Ascii String List Reals Floats.SpecFloat Lia Lra.
From Flocq Require Import Core BinarySingleNaN.
From Verif Require Import Num Maq Report Double_spec Report_spec.
Import ListNotations.
Local Open Scope list_scope.
Local Open Scope Z_scope.

(** ** Digits *)

Definition dig (d : Z) : Prop := 0 <= d <= 9.

(** What digits are worth. *)
Definition val (l : list Z) : Z := fold_left (fun n d => 10 * n + d) l 0.

Lemma digit_is d : dig d -> is_digit (digit d) d.
Proof.
  intros H. assert (C : d = 0 \/ d = 1 \/ d = 2 \/ d = 3 \/ d = 4 \/ d = 5 \/ d = 6 \/ d = 7 \/ d = 8 \/ d = 9)
    by (unfold dig in H; lia).
  repeat (destruct C as [-> | C]; [constructor |]). subst. constructor.
Qed.

Lemma val_from l : forall n, fold_left (fun n d => 10 * n + d) l n = n * 10 ^ Z.of_nat (List.length l) + val l.
Proof.
  induction l as [|d l IH]; intros n; unfold val; cbn [fold_left List.length]; [cbn; lia|].
  rewrite (IH (10 * n + d)), (IH (10 * 0 + d)), Nat2Z.inj_succ, Z.pow_succ_r by lia. lia.
Qed.

Lemma val_app a b : val (a ++ b) = val a * 10 ^ Z.of_nat (List.length b) + val b.
Proof. unfold val at 1. rewrite fold_left_app. apply val_from. Qed.

Lemma val_cons d l : val (d :: l) = d * 10 ^ Z.of_nat (List.length l) + val l.
Proof. change (d :: l) with ([d] ++ l). rewrite val_app. unfold val at 1. cbn. lia. Qed.

Lemma val_zeros n : val (repeat 0 n) = 0.
Proof. induction n; [reflexivity|]. cbn [repeat]. rewrite val_cons, IHn. lia. Qed.

Lemma reads_val l : Forall dig l -> reads (map digit l) (val l).
Proof.
  induction l as [|d l IH] using rev_ind; intros H; [constructor|].
  apply Forall_app in H; destruct H as [H1 H2]. inversion H2; subst.
  replace (val (l ++ [d])) with (10 * val l + d) by (rewrite val_app; change (val [d]) with (10 * 0 + d); cbn [List.length Z.of_nat]; lia).
  rewrite map_app.
  constructor; [now apply IH | now apply digit_is].
Qed.

Lemma digit_nought d : dig d -> digit d = "0"%char -> d = 0.
Proof.
  intros H E. pose proof (digit_is d H) as I. rewrite E in I. now inversion I.
Qed.

(** No nought in front. *)
Definition fronted (l : list Z) : Prop := l = [0] \/ exists d r, l = d :: r /\ d <> 0.

Lemma number_val l : Forall dig l -> fronted l -> number (map digit l) (val l).
Proof.
  intros H F. split; [now apply reads_val | split].
  - destruct F as [-> | (d & r & -> & _)]; discriminate.
  - intros r E. destruct F as [-> | (d & r' & -> & N)]; cbn [map] in E; [now injection E as <-|].
    injection E as E1 E2. inversion H; subst. now destruct N; apply digit_nought.
Qed.

Lemma digits_ok fuel : forall n, 0 <= n < 2 ^ Z.of_nat fuel -> fuel <> O ->
  Forall dig (digits fuel n) /\ val (digits fuel n) = n /\
  (digits fuel n = [0] \/ exists d r, digits fuel n = d :: r /\ d <> 0).
Proof.
  induction fuel as [|k IH]; intros n H F; [congruence|]. cbn [digits].
  destruct (n <? 10) eqn:E.
  - apply Z.ltb_lt in E. split; [constructor; [unfold dig; lia | constructor] | split; [unfold val; cbn; lia |]].
    destruct (Z.eq_dec n 0) as [-> | N]; [now left | right; eauto].
  - apply Z.ltb_ge in E.
    assert (K : k <> O) by (intros ->; cbn in H; lia).
    assert (B : 0 <= n / 10 < 2 ^ Z.of_nat k).
    { rewrite Nat2Z.inj_succ, Z.pow_succ_r in H by lia. split; [apply Z.div_pos; lia |].
      apply Z.div_lt_upper_bound; lia. }
    destruct (IH _ B K) as (A1 & A2 & A3).
    assert (M : 0 <= n mod 10 < 10) by (apply Z.mod_pos_bound; lia).
    split; [apply Forall_app; split; [exact A1 | constructor; [unfold dig; lia | constructor]] | split].
    + rewrite val_app, A2. unfold val. cbn. pose proof (Z.div_mod n 10). lia.
    + destruct A3 as [A3 | (d & r & A3 & N)].
      * exfalso. rewrite A3 in A2. cbn in A2. pose proof (Z.div_le_lower_bound n 10 1). lia.
      * right. exists d, (r ++ [n mod 10]). rewrite A3. auto.
Qed.

Lemma unsigned_digits n : 0 <= n -> exists l, unsigned n = map digit l /\ Forall dig l /\ val l = n /\ fronted l.
Proof.
  intros H. unfold unsigned.
  destruct (digits_ok (S (Z.to_nat (Z.log2 n))) n) as (A & B & C).
  - split; [exact H|]. rewrite Nat2Z.inj_succ, Z2Nat.id by apply Z.log2_nonneg.
    destruct (Z.eq_dec n 0) as [-> | N]; [cbn; lia |]. apply Z.log2_spec. lia.
  - discriminate.
  - eexists; split; [reflexivity | auto].
Qed.

Lemma unsigned_number n : 0 <= n -> number (unsigned n) n.
Proof.
  intros H. destruct (unsigned_digits n H) as (l & -> & A & B & C). rewrite <- B. now apply number_val.
Qed.

(** ** Powers of ten *)

Local Open Scope R_scope.

Lemma ten_Z z : (0 <= z)%Z -> powerRZ 10 z = IZR (10 ^ z).
Proof.
  intros H. change 10 with (IZR (Build_radix 10 eq_refl)) at 1. rewrite <- bpow_powerRZ, <- IZR_Zpower by exact H. reflexivity.
Qed.

Lemma ten_pos z : 0 < powerRZ 10 z.
Proof. apply powerRZ_lt. lra. Qed.

Lemma ten_plus a b : powerRZ 10 (a + b) = powerRZ 10 a * powerRZ 10 b.
Proof. apply powerRZ_add. lra. Qed.

Lemma ten_neg z : powerRZ 10 (- z) = / powerRZ 10 z.
Proof.
  apply Rmult_eq_reg_r with (powerRZ 10 z); [| apply Rgt_not_eq, ten_pos].
  rewrite <- ten_plus, Rinv_l by apply Rgt_not_eq, ten_pos. replace (- z + z)%Z with 0%Z by lia. reflexivity.
Qed.

Lemma ten_nat n : powerRZ 10 (Z.of_nat n) = 10 ^ n.
Proof. now rewrite <- pow_powerRZ. Qed.

(** ** Texts of decimals *)

Lemma plain_pointed a b : Forall dig a -> Forall dig b -> fronted a ->
  plain (pointed a b) (IZR (val (a ++ b)) * powerRZ 10 (- Z.of_nat (List.length b))).
Proof.
  intros A B F. unfold pointed. destruct b as [|d b].
  - rewrite !app_nil_r. cbn [List.length Z.of_nat Z.opp powerRZ]. rewrite Rmult_1_r. constructor. now apply number_val.
  - replace (IZR (val (a ++ d :: b)) * powerRZ 10 (- Z.of_nat (List.length (d :: b))))
      with (IZR (val a) + IZR (val (d :: b)) / 10 ^ List.length (map digit (d :: b))).
    + apply plain_point; [now apply number_val | now apply reads_val | discriminate].
    + rewrite map_length, val_app, plus_IZR, mult_IZR, <- ten_Z, ten_neg, ten_nat by lia. field.
      apply pow_nonzero. lra.
Qed.

Lemma fronted_firstn n d r : d <> 0%Z -> fronted (firstn (S n) (d :: r) ++ repeat 0%Z (S n - List.length (d :: r))).
Proof. intros H. right. cbn [firstn]. exists d. eexists. split; [reflexivity | exact H]. Qed.

Lemma layout_ok d r x : Forall dig (d :: r) -> d <> 0%Z ->
  decimal (layout (d :: r) x) (IZR (val (d :: r)) * powerRZ 10 (x + 1 - Z.of_nat (List.length (d :: r)))).
Proof.
  intros D N. unfold layout.
  destruct ((x <? -4) || (6 <=? x))%Z eqn:E.
  - (* exponent *)
    cbn [firstn skipn]. inversion D as [|? ? D1 D2]; subst.
    assert (P := plain_pointed [d] r (Forall_cons _ D1 (Forall_nil _)) D2 ltac:(right; eauto)).
    cbn [app] in P.
    destruct (unsigned_digits (Z.abs x) ltac:(lia)) as (l & Ul & Dl & Vl & Fl).
    set (t := (if (Z.abs x <? 10)%Z then [digit 0] else []) ++ unsigned (Z.abs x)).
    assert (T : reads t (Z.abs x) /\ t <> []).
    { unfold t. rewrite Ul. destruct (Z.abs x <? 10)%Z.
      - change ([digit 0] ++ map digit l) with (map digit (0%Z :: l)). split; [|discriminate].
        rewrite <- Vl. replace (val l) with (val (0%Z :: l)) by (rewrite val_cons; lia).
        apply reads_val. constructor; [unfold dig; lia | exact Dl].
      - cbn [app]. rewrite <- Vl. split; [now apply reads_val |].
        destruct Fl as [-> | (? & ? & -> & _)]; discriminate. }
    destruct T as [T1 T2].
    replace (x + 1 - Z.of_nat (List.length (d :: r)))%Z with (- Z.of_nat (List.length r) + x)%Z by (cbn [List.length]; lia).
    rewrite ten_plus, <- Rmult_assoc. unfold exponent_text. fold t.
    destruct (x <? 0)%Z eqn:S.
    + apply Z.ltb_lt in S. replace (powerRZ 10 x) with (powerRZ 10 (- Z.abs x)) by (f_equal; lia). now apply decimal_small.
    + apply Z.ltb_ge in S. replace (powerRZ 10 x) with (powerRZ 10 (Z.abs x)) by (f_equal; lia). now apply decimal_large.
  - apply orb_false_elim in E; destruct E as [E1 E2]. apply Z.ltb_ge in E1. apply Z.leb_gt in E2.
    destruct (x <? 0)%Z eqn:S.
    + apply Z.ltb_lt in S. apply decimal_plain.
      assert (P := plain_pointed [0%Z] (repeat 0%Z (Z.to_nat (- x - 1)) ++ d :: r)
        ltac:(constructor; [unfold dig; lia | constructor]) ltac:(apply Forall_app; split;
          [apply Forall_forall; intros z Hz; apply repeat_spec in Hz; subst; unfold dig; lia | exact D])
        ltac:(now left)).
      rewrite !val_app, val_zeros, app_length, repeat_length in P.
      replace (val [0%Z]) with 0%Z in P by reflexivity. rewrite !Z.mul_0_l, !Z.add_0_l in P.
      replace (x + 1 - Z.of_nat (List.length (d :: r)))%Z with (- Z.of_nat (Z.to_nat (- x - 1) + List.length (d :: r)))%Z by lia.
      exact P.
    + apply Z.ltb_ge in S. apply decimal_plain.
      set (n := Z.to_nat (x + 1)). assert (Hn : exists k, n = Datatypes.S k) by (exists (Z.to_nat x); unfold n; lia).
      destruct Hn as [k Hk].
      assert (P := plain_pointed (firstn n (d :: r) ++ repeat 0%Z (n - List.length (d :: r))) (skipn n (d :: r))).
      assert (Q := firstn_skipn n (d :: r)).
      assert (Dd : Forall dig (firstn n (d :: r)) /\ Forall dig (skipn n (d :: r))) by (rewrite <- Q in D; now apply Forall_app in D).
      destruct Dd as [Da Db].
      specialize (P ltac:(apply Forall_app; split; [exact Da | apply Forall_forall; intros z Hz; apply repeat_spec in Hz; subst; unfold dig; lia]) Db).
      specialize (P ltac:(rewrite Hk; now apply fronted_firstn)).
      destruct (Nat.le_gt_cases (List.length (d :: r)) n) as [L | L].
      * rewrite skipn_all2 in P |- * by exact L. rewrite app_nil_r in P.
        rewrite firstn_all2 in P |- * by exact L.
        rewrite val_app, val_zeros, repeat_length in P. cbn [List.length Z.of_nat Z.opp] in P. rewrite Z.add_0_r in P.
        replace (x + 1 - Z.of_nat (List.length (d :: r)))%Z with (Z.of_nat (n - List.length (d :: r))) by (unfold n in *; lia).
        rewrite mult_IZR, <- ten_Z in P by lia. change (powerRZ 10 0) with 1 in P. rewrite Rmult_1_r in P. exact P.
      * replace (n - List.length (d :: r))%nat with O in P |- * by lia. cbn [repeat] in P |- *. rewrite app_nil_r in P |- *.
        rewrite Q in P. rewrite skipn_length in P.
        replace (x + 1 - Z.of_nat (List.length (d :: r)))%Z with (- Z.of_nat (List.length (d :: r) - n))%Z by (unfold n in *; lia).
        exact P.
Qed.

(** ** Rounding *)

Lemma nearest_ok p q : (0 < q)%Z -> Rabs (IZR (nearest p q) - IZR p / IZR q) <= / 2.
Proof.
  intros H.
  assert (E : (2 * Z.abs (q * nearest p q - p) <= q)%Z).
  { unfold nearest. pose proof (Z.div_mod p q ltac:(lia)) as D. pose proof (Z.mod_pos_bound p q H) as M.
    destruct (2 * (p mod q) <? q)%Z eqn:A; [apply Z.ltb_lt in A; lia | apply Z.ltb_ge in A].
    destruct (q <? 2 * (p mod q))%Z eqn:B; [apply Z.ltb_lt in B; lia | apply Z.ltb_ge in B].
    destruct (Z.even (p / q)); lia. }
  assert (Q : 0 < IZR q) by (now apply IZR_lt).
  replace (IZR (nearest p q) - IZR p / IZR q) with (IZR (q * nearest p q - p) / IZR q)
    by (rewrite minus_IZR, mult_IZR; field; lra).
  unfold Rdiv. rewrite Rabs_mult, (Rabs_right (/ IZR q)) by (apply Rle_ge, Rlt_le, Rinv_0_lt_compat, Q).
  apply Rmult_le_reg_r with (IZR q); [exact Q |]. rewrite Rmult_assoc, Rinv_l, Rmult_1_r by lra.
  rewrite <- abs_IZR. apply IZR_le in E. rewrite mult_IZR in E. lra.
Qed.

Lemma scaled_ok p q k : (0 < q)%Z -> Rabs (IZR (scaled p q k) - IZR p / IZR q * powerRZ 10 k) <= / 2.
Proof.
  intros H. assert (Q : 0 < IZR q) by (now apply IZR_lt). unfold scaled. destruct (0 <=? k)%Z eqn:E.
  - apply Z.leb_le in E. rewrite ten_Z by exact E.
    replace (IZR p / IZR q * IZR (10 ^ k)) with (IZR (p * 10 ^ k) / IZR q) by (rewrite mult_IZR; field; lra).
    now apply nearest_ok.
  - apply Z.leb_gt in E. replace (powerRZ 10 k) with (/ IZR (10 ^ - k)) by (rewrite <- ten_Z, <- ten_neg by lia; f_equal; lia).
    assert (T : 0 < IZR (10 ^ - k)) by (apply IZR_lt, Z.pow_pos_nonneg; lia).
    replace (IZR p / IZR q * / IZR (10 ^ - k)) with (IZR p / IZR (q * 10 ^ - k)) by (rewrite mult_IZR; field; lra).
    apply nearest_ok. apply Z.mul_pos_pos; [exact H | apply Z.pow_pos_nonneg; lia].
Qed.

Lemma at_least_ok p q x : (0 < p)%Z -> (0 < q)%Z ->
  if at_least p q x then powerRZ 10 x <= IZR p / IZR q else IZR p / IZR q < powerRZ 10 x.
Proof.
  intros P Q. assert (Q' : 0 < IZR q) by (now apply IZR_lt). unfold at_least.
  destruct (0 <=? x)%Z eqn:E.
  - apply Z.leb_le in E. rewrite ten_Z by exact E. destruct (q * 10 ^ x <=? p)%Z eqn:F.
    + apply Z.leb_le, IZR_le in F. rewrite mult_IZR in F. apply Rmult_le_reg_r with (IZR q); [exact Q'|].
      unfold Rdiv. rewrite Rmult_assoc, Rinv_l; lra.
    + apply Z.leb_gt, IZR_lt in F. rewrite mult_IZR in F. apply Rmult_lt_reg_r with (IZR q); [exact Q'|].
      unfold Rdiv. rewrite Rmult_assoc, Rinv_l; lra.
  - apply Z.leb_gt in E. replace (powerRZ 10 x) with (/ IZR (10 ^ - x)) by (rewrite <- ten_Z, <- ten_neg by lia; f_equal; lia).
    assert (T : 0 < IZR (10 ^ - x)) by (apply IZR_lt, Z.pow_pos_nonneg; lia).
    destruct (q <=? p * 10 ^ - x)%Z eqn:F.
    + apply Z.leb_le, IZR_le in F. rewrite mult_IZR in F.
      apply Rmult_le_reg_r with (IZR q * IZR (10 ^ - x)); [now apply Rmult_lt_0_compat|].
      replace (/ IZR (10 ^ - x) * (IZR q * IZR (10 ^ - x))) with (IZR q) by (field; lra).
      replace (IZR p / IZR q * (IZR q * IZR (10 ^ - x))) with (IZR p * IZR (10 ^ - x)) by (field; lra). exact F.
    + apply Z.leb_gt, IZR_lt in F. rewrite mult_IZR in F.
      apply Rmult_lt_reg_r with (IZR q * IZR (10 ^ - x)); [now apply Rmult_lt_0_compat|].
      replace (/ IZR (10 ^ - x) * (IZR q * IZR (10 ^ - x))) with (IZR q) by (field; lra).
      replace (IZR p / IZR q * (IZR q * IZR (10 ^ - x))) with (IZR p * IZR (10 ^ - x)) by (field; lra). exact F.
Qed.

Lemma exponent_ok p q : (0 < p)%Z -> (0 < q)%Z -> forall fuel x,
  IZR p / IZR q < powerRZ 10 (x + 1) -> powerRZ 10 (x - Z.of_nat fuel) <= IZR p / IZR q ->
  powerRZ 10 (exponent fuel p q x) <= IZR p / IZR q < powerRZ 10 (exponent fuel p q x + 1).
Proof.
  intros P Q. induction fuel as [|k IH]; intros x U L; cbn [exponent].
  - replace (x - Z.of_nat 0)%Z with x in L by lia. split; assumption.
  - pose proof (at_least_ok p q x P Q) as A. destruct (at_least p q x); [split; assumption|].
    apply IH; [now replace (x - 1 + 1)%Z with x by lia |].
    replace (x - 1 - Z.of_nat k)%Z with (x - Z.of_nat (S k))%Z by lia. exact L.
Qed.

(** ** Zeros at the end *)

Lemma trimmed_ok l : exists n, l = trimmed l ++ repeat 0%Z n.
Proof.
  induction l as [|d l [n IH]]; [now exists O|]. cbn [trimmed]. destruct (trimmed l) as [|e r] eqn:E.
  - destruct (d =? 0)%Z eqn:F.
    + apply Z.eqb_eq in F. subst d. exists (S n). cbn [repeat app]. f_equal. exact IH.
    + exists n. cbn [app] in *. f_equal. exact IH.
  - exists n. cbn [app] in *. f_equal. exact IH.
Qed.

Lemma six_ok d : (100000 <= d < 1000000)%Z -> Forall dig (six d) /\ val (six d) = d /\ List.length (six d) = 6%nat /\
  exists e r, six d = e :: r /\ e <> 0%Z.
Proof.
  intros H. unfold six.
  assert (D : forall k, (0 < k)%Z -> (0 <= d / k mod 10 <= 9)%Z) by (intros k K; pose proof (Z.mod_pos_bound (d / k) 10); lia).
  assert (F : (1 <= d / 100000 <= 9)%Z).
  { split; [apply Z.div_le_lower_bound; lia |]. enough (d / 100000 < 10)%Z by lia. apply Z.div_lt_upper_bound; lia. }
  split.
  - repeat (apply Forall_cons; [unfold dig; try (apply D; lia); try lia; pose proof (Z.mod_pos_bound d 10); lia |]). constructor.
  - split; [| split; [reflexivity | eexists _, _; split; [reflexivity | lia]]].
    unfold val. cbn [fold_left].
    pose proof (Z.div_mod d 10 ltac:(lia)). pose proof (Z.div_mod (d / 10) 10 ltac:(lia)).
    pose proof (Z.div_mod (d / 100) 10 ltac:(lia)). pose proof (Z.div_mod (d / 1000) 10 ltac:(lia)).
    pose proof (Z.div_mod (d / 10000) 10 ltac:(lia)).
    assert (d / 100 = d / 10 / 10)%Z by (rewrite Z.div_div by lia; reflexivity).
    assert (d / 1000 = d / 100 / 10)%Z by (rewrite Z.div_div by lia; reflexivity).
    assert (d / 10000 = d / 1000 / 10)%Z by (rewrite Z.div_div by lia; reflexivity).
    assert (d / 100000 = d / 10000 / 10)%Z by (rewrite Z.div_div by lia; reflexivity).
    lia.
Qed.

Lemma general_ok p q : (0 < p)%Z -> (0 < q)%Z -> powerRZ 10 (-324) <= IZR p / IZR q -> IZR p / IZR q < powerRZ 10 309 ->
  exists v, decimal (general p q) v /\ Rabs (v - IZR p / IZR q) <= IZR p / IZR q * (5 / 1000000).
Proof.
  intros P Q L U. unfold general.
  assert (X := exponent_ok p q P Q 632 308 U L).
  set (x := exponent 632 p q 308) in *. clearbody x. set (v := IZR p / IZR q) in *. destruct X as [X1 X2].
  assert (S := scaled_ok p q (5 - x) Q). fold v in S. set (d := scaled p q (5 - x)) in *. clearbody d.
  assert (T : powerRZ 10 x * powerRZ 10 (5 - x) = 100000) by (rewrite <- ten_plus; replace (x + (5 - x))%Z with 5%Z by lia; rewrite ten_Z by lia; reflexivity).
  assert (T' : powerRZ 10 (x + 1) * powerRZ 10 (5 - x) = 1000000) by (rewrite <- ten_plus; replace (x + 1 + (5 - x))%Z with 6%Z by lia; rewrite ten_Z by lia; reflexivity).
  assert (Pp := ten_pos (5 - x)).
  assert (B1 : 100000 <= v * powerRZ 10 (5 - x)) by (rewrite <- T; apply Rmult_le_compat_r; lra).
  assert (B2 : v * powerRZ 10 (5 - x) < 1000000) by (rewrite <- T'; apply Rmult_lt_compat_r; lra).
  assert (D : (100000 <= d <= 1000000)%Z).
  { apply Rabs_le_inv in S. split.
    - enough (99999 < d)%Z by lia. apply lt_IZR. lra.
    - enough (d < 1000001)%Z by lia. apply lt_IZR. lra. }
  (* the error *)
  assert (Er : Rabs (IZR d * powerRZ 10 (x - 5) - v) <= v * (5 / 1000000)).
  { assert (I : powerRZ 10 (5 - x) * powerRZ 10 (x - 5) = 1) by (rewrite <- ten_plus; replace (5 - x + (x - 5))%Z with 0%Z by lia; reflexivity).
    replace (IZR d * powerRZ 10 (x - 5) - v) with ((IZR d - v * powerRZ 10 (5 - x)) * powerRZ 10 (x - 5))
      by (rewrite Rmult_minus_distr_r, Rmult_assoc, I; ring).
    rewrite Rabs_mult, (Rabs_right (powerRZ 10 (x - 5))) by (apply Rle_ge, Rlt_le, ten_pos).
    apply Rle_trans with (/ 2 * powerRZ 10 (x - 5)); [apply Rmult_le_compat_r; [apply Rlt_le, ten_pos | exact S] |].
    replace (powerRZ 10 (x - 5)) with (powerRZ 10 x * / 100000)
      by (replace (x - 5)%Z with (x + - (5))%Z by lia; rewrite ten_plus, ten_neg, (ten_Z 5) by lia; reflexivity).
    lra. }
  exists (IZR d * powerRZ 10 (x - 5)). split; [| exact Er].
  destruct (d =? 1000000)%Z eqn:E.
  - apply Z.eqb_eq in E. subst d.
    replace (IZR 1000000 * powerRZ 10 (x - 5)) with (IZR (val [1%Z]) * powerRZ 10 (x + 1 + 1 - Z.of_nat (List.length [1%Z]))).
    + apply layout_ok; [constructor; [unfold dig; lia | constructor] | lia].
    + change (val [1%Z]) with 1%Z. replace (x + 1 + 1 - Z.of_nat (List.length [1%Z]))%Z with (6 + (x - 5))%Z by (change (Z.of_nat (List.length [1%Z])) with 1%Z; lia).
      rewrite ten_plus, (ten_Z 6) by lia. change (10 ^ 6)%Z with 1000000%Z. ring.
  - apply Z.eqb_neq in E. destruct (six_ok d ltac:(lia)) as (F1 & F2 & F3 & e & r & F4 & F5).
    destruct (trimmed_ok (six d)) as [n F6].
    destruct (trimmed (six d)) as [|e' r'] eqn:G.
    + exfalso. rewrite F6 in F2. cbn [app] in F2. rewrite val_zeros in F2. lia.
    + assert (e' = e) by (rewrite F6 in F4; now injection F4). subst e'.
      replace (IZR d * powerRZ 10 (x - 5)) with (IZR (val (e :: r')) * powerRZ 10 (x + 1 - Z.of_nat (List.length (e :: r')))).
      * apply layout_ok; [| exact F5]. rewrite F6 in F1. now apply Forall_app in F1.
      * rewrite <- F2, F6, val_app, val_zeros, Z.add_0_r, repeat_length, mult_IZR, <- ten_Z by lia.
        rewrite Rmult_assoc, <- ten_plus. f_equal. f_equal.
        rewrite F6, app_length, repeat_length in F3. lia.
Qed.
