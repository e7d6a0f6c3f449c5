(** * Log-log tables in double precision (C101): tables *)
From Coq Require Import ZArith Reals List Bool Lra Lia Floats.SpecFloat.
From Flocq Require Import Core Relative BinarySingleNaN.
From Verif Require Import Num Double_spec Double_proofs Double_proofs2 Maq_double_proofs Deriv_proofs3 Totals Totals_spec
  Totals_proofs Totals_proofs2 Totals_proofs4 Totals_proofs6 Totals_proofs7 Spread Spread_spec Spread_proofs Spread_proofs4
  Tabled Tabled_spec Tabled_proofs Tabled_proofs2 Hyperbola_spec Hyperbola_proofs Hyperbola_proofs2 Hyperbola_proofs3 Loglog Loglog_spec Loglog_proofs.
Import ListNotations.
Local Open Scope R_scope.
Local Instance p53i : Prec_gt_0 53 := eq_refl.
Local Instance e1024i : Prec_lt_emax 53 1024 := eq_refl.
Local Instance fx : Valid_exp (SpecFloat.fexp 53 1024) := fexp_correct 53 1024 p53i.

Lemma at_map (f : F64 -> F64) l i : (i < List.length l)%nat -> at_ (map f l) i = f (at_ l i).
Proof. intros H. unfold at_. rewrite (nth_indep _ _ (f (nnan F64))) by (now rewrite map_length). apply map_nth. Qed.

Lemma e_tiny : e <= / 1000000000.
Proof. apply Rle_trans with (bpow radix2 (-30)); [apply bpow_le; lia | change (bpow radix2 (-30)) with (/ IZR 1073741824); apply Rinv_le; lra]. Qed.

Lemma increasing_at l : Forall (fun x => double x /\ finite x) l ->
  (forall i, (S i < List.length l)%nat -> real (at_ l i) < real (at_ l (S i))) -> increasing l = true.
Proof.
  induction l as [| a l IH]; [reflexivity |]. destruct l as [| b l]; [reflexivity |]. intros F H.
  change (nltb F64 a b && increasing (b :: l) = true). apply andb_true_intro. inversion F as [| ? ? Fa F']; subst. inversion F' as [| ? ? Fb _]; subst. split.
  - apply ltb_real; try apply Fa; try apply Fb. exact (H 0%nat ltac:(cbn; lia)).
  - apply IH; [exact F' |]. intros i Hi. exact (H (S i) ltac:(cbn in *; lia)).
Qed.

(** What the check finds. *)
Lemma at_increasing l : Forall (fun x => double x /\ finite x) l -> increasing l = true ->
  forall i, (S i < List.length l)%nat -> real (at_ l i) < real (at_ l (S i)).
Proof.
  induction l as [| a l IH]; [cbn; lia |]. destruct l as [| b l]; [cbn; lia |]. intros F H i Hi.
  change (nltb F64 a b && increasing (b :: l) = true) in H. apply andb_prop in H. destruct H as [H1 H2].
  inversion F as [| ? ? Fa F']; subst. inversion F' as [| ? ? Fb _]; subst. destruct i as [| i].
  - apply ltb_real in H1; try apply Fa; try apply Fb. exact H1.
  - apply (IH F' H2 i). cbn in *. lia.
Qed.

(** Arguments whose logarithms differ. *)
Definition steps (log : F64 -> F64) (xs : list F64) : Prop :=
  forall i, (S i < List.length xs)%nat -> real (at_ (map log xs) i) + bpow radix2 (-1000) <= real (at_ (map log xs) (S i)).

Section Table.
  Variables (log ex : F64 -> F64) (xs ys : list F64).
  Hypotheses (LL : rising_log log) (LE : exponential ex) (PL : plotted xs ys) (ST : steps log xs).
  Let n := List.length xs.
  Let lx := map log xs.
  Let ly := map log ys.
  Let zs := map (fun _ : F64 => nofZ F64 0) xs.

  Lemma len_y : List.length ys = n.
  Proof. symmetry. apply PL. Qed.
  Lemma len : (2 <= n)%nat.
  Proof. apply PL. Qed.
  Lemma ord_x i : (i < n)%nat -> ordinary (at_ xs i).
  Proof. intros H. apply at_forall; [apply PL | exact H]. Qed.
  Lemma ord_y i : (i < n)%nat -> ordinary (at_ ys i).
  Proof. intros H. apply at_forall; [apply PL | now rewrite len_y]. Qed.
  Lemma lx_at i : (i < n)%nat -> at_ lx i = log (at_ xs i).
  Proof. intros H. now apply at_map. Qed.
  Lemma ly_at i : (i < n)%nat -> at_ ly i = log (at_ ys i).
  Proof. intros H. apply at_map. now rewrite len_y. Qed.
  Lemma lx_len : List.length lx = n.
  Proof. apply map_length. Qed.
  Lemma lx_log i : (i < n)%nat -> logged (at_ lx i).
  Proof. intros H. rewrite lx_at by exact H. apply log_ordinary; [exact LL | now apply ord_x]. Qed.
  Lemma ly_log i : (i < n)%nat -> logged (at_ ly i).
  Proof. intros H. rewrite ly_at by exact H. apply log_ordinary; [exact LL | now apply ord_y]. Qed.

  Lemma log_step i : (S i < n)%nat -> real (at_ lx i) + bpow radix2 (-1000) <= real (at_ lx (S i)) /\ real (at_ lx i) < real (at_ lx (S i)).
  Proof. intros H. pose proof (ST i H) as S1. fold lx in S1. pose proof (bpow_gt_0 radix2 (-1000)). split; lra. Qed.
  Lemma thousand_e : bpow radix2 (-1000) <= e.
  Proof. apply bpow_le. lia. Qed.

  Lemma fit : fitted lx zs.
  Proof.
    split; [unfold lx, zs; now rewrite !map_length |]. split; [rewrite lx_len; exact len |].
    assert (B : 361 <= bpow radix2 400) by (apply Rle_trans with (bpow radix2 10); [cbn; lra | apply bpow_le; lia]).
    split; [| split; [| split]].
    - apply Forall_forall. intros l I. apply in_map_iff in I. destruct I as (x & <- & I). destruct PL as (_ & _ & O & _). rewrite Forall_forall in O.
      destruct (log_ordinary log x LL (O x I)) as ((V & F & R) & _). split; [exact V |]. split; [exact F | lra].
    - apply Forall_forall. intros l I. apply in_map_iff in I. destruct I as (x & <- & I). apply (small_int 0). lia.
    - intros i x x' X X'. apply error_at in X, X'. destruct X as [-> _], X' as [-> H]. rewrite lx_len in H. pose proof (log_step i H). pose proof thousand_e. pose proof e_pos. lra.
    - intros i y y' Y Y'. apply error_at in Y, Y'. destruct Y as [-> H], Y' as [-> H']. unfold zs in *. rewrite map_length in *. left. now rewrite !at_map by assumption.
  Qed.

  Lemma accepted : loglog_new log xs ys = Some (lx, ly).
  Proof.
    unfold loglog_new. fold lx. fold ly. rewrite increasing_at; [reflexivity | |].
    - apply Forall_forall. intros l I. apply In_nth with (d := nnan F64) in I. destruct I as (i & H & <-). rewrite lx_len in H.
      destruct (lx_log i H) as (V & F & _). split; assumption.
    - intros i H. rewrite lx_len in H. pose proof (log_step i H). pose proof e_pos. lra.
  Qed.

  Lemma order i j : (i <= j)%nat -> (j < n)%nat -> real (at_ xs i) <= real (at_ xs j).
  Proof.
    intros H L. induction H as [| j H IH]; [lra |]. specialize (IH ltac:(lia)).
    destruct PL as (_ & _ & _ & _ & O). pose proof (O j _ _ (at_error xs j ltac:(unfold n in L; lia)) (at_error xs (S j) L)). lra.
  Qed.

  Lemma mono x y : double x -> finite x -> double y -> finite y -> 0 < real x <= real y -> real (log x) <= real (log y).
  Proof. apply LL. Qed.

  Section At.
    Variable x : F64.
    Hypotheses (V : double x) (F : finite x).

    (** Within the table. *)
    Hypothesis B : real (at_ xs 0) <= real x <= real (at_ xs (n - 1)).

    Lemma x_ordinary : ordinary x.
    Proof.
      pose proof len. destruct (ord_x 0 ltac:(lia)) as (_ & _ & O1). destruct (ord_x (n - 1) ltac:(lia)) as (_ & _ & O2). split; [exact V |]. split; [exact F | lra].
    Qed.

    Lemma log_inside i : (i < n)%nat -> real (at_ xs i) <= real x -> real (at_ lx i) <= real (log x).
    Proof.
      intros H L. rewrite lx_at by exact H. destruct (ord_x i H) as (V1 & F1 & O1). pose proof (bpow_gt_0 radix2 (-400)). apply mono; try assumption. lra.
    Qed.
    Lemma log_inside' i : (i < n)%nat -> real x <= real (at_ xs i) -> real (log x) <= real (at_ lx i).
    Proof.
      intros H L. rewrite lx_at by exact H. destruct (ord_x i H) as (V1 & F1 & O1). destruct x_ordinary as (_ & _ & O). pose proof (bpow_gt_0 radix2 (-400)). apply mono; try assumption. lra.
    Qed.

    Lemma spline cache : (S cache < n)%nat ->
      exists j, located lx (log x) j /\
        spline_eval lx ly (log x) cache = Some (segment (at_ lx j) (at_ lx (S j)) (at_ ly j) (at_ ly (S j)) (log x), j).
    Proof.
      intros C. pose proof len as N. destruct (log_ordinary log x LL x_ordinary) as ((Vl & Fl & _) & _).
      pose proof (log_inside 0 ltac:(lia) (proj1 B)) as A1. pose proof (log_inside' (n - 1) ltac:(lia) (proj2 B)) as A2.
      destruct (find_ok lx zs fit (log x) Vl Fl cache) as (j & E & J); [now rewrite lx_len | rewrite lx_len; split; assumption |].
      exists j. split; [exact J |]. unfold spline_eval. rewrite lx_len.
      destruct (lx_log 0 ltac:(lia)) as (V0 & F0 & _). destruct (lx_log (n - 1) ltac:(lia)) as (V1 & F1 & _).
      rewrite (proj2 (ltb_real_false _ _ Vl V0 Fl F0) A1), (proj2 (ltb_real_false _ _ V1 Vl F1 Fl) A2), E. reflexivity.
    Qed.

    (** The number whose exponential is taken, in any interval with [x]. *)
    Lemma spline_near cache i : (S cache < n)%nat -> (S i < n)%nat -> real (at_ xs i) <= real x <= real (at_ xs (S i)) ->
      exists s j, spline_eval lx ly (log x) cache = Some (s, j) /\ (S j < n)%nat /\ double s /\ finite s /\ -400 <= real s <= 400 /\
        Rabs (real s - (real (at_ ly i) + (real (log x) - real (at_ lx i)) / (real (at_ lx (S i)) - real (at_ lx i)) * (real (at_ ly (S i)) - real (at_ ly i)))) <= 4200 * e.
    Proof.
      intros C H X. destruct (spline cache C) as (j & (Lj & Aj & Bj) & E). rewrite lx_len in Lj, Bj. pose proof e_pos as Ep. pose proof e_tiny as Et. pose proof thousand_e.
      destruct (log_ordinary log x LL x_ordinary) as ((Vl & Fl & _) & _).
      assert (Bj' : real (log x) <= real (at_ lx (S j))) by (destruct Bj as [Bj | [Bj _]]; lra).
      pose proof (log_step j Lj) as Sj.
      destruct (segment_near (at_ lx j) (at_ lx (S j)) (at_ ly j) (at_ ly (S j)) (log x)) as (Vs & Fs & Ns); try assumption; try (apply lx_log; lia); try (apply ly_log; lia); try lra.
      set (s := segment _ _ _ _ _) in *. exists s, j. split; [exact E |]. split; [exact Lj |]. split; [exact Vs |]. split; [exact Fs |].
      assert (Q : forall k, (S k < n)%nat -> real (at_ lx k) <= real (log x) <= real (at_ lx (S k)) ->
        0 <= (real (log x) - real (at_ lx k)) / (real (at_ lx (S k)) - real (at_ lx k)) <= 1).
      { intros k Hk K. pose proof (log_step k Hk). split; [apply Rmult_le_pos; [lra | apply Rlt_le, Rinv_0_lt_compat; lra] |].
        apply Rmult_le_reg_r with (real (at_ lx (S k)) - real (at_ lx k)); [lra |]. unfold Rdiv. rewrite Rmult_assoc, Rinv_l by lra. lra. }
      split.
      { pose proof (Q j Lj (conj Aj Bj')) as Qj. set (q := _ / _) in *. destruct (ly_log j ltac:(lia)) as (_ & _ & Y0). destruct (ly_log (S j) Lj) as (_ & _ & Y1).
        set (y0 := real (at_ ly j)) in *. set (y1 := real (at_ ly (S j))) in *.
        assert (M : -361 <= y0 + q * (y1 - y0) <= 361).
        { replace (y0 + q * (y1 - y0)) with ((1 - q) * y0 + q * y1) by ring.
          assert ((1 - q) * y0 <= (1 - q) * 361) by (apply Rmult_le_compat_l; lra). assert (q * y1 <= q * 361) by (apply Rmult_le_compat_l; lra).
          assert ((1 - q) * -361 <= (1 - q) * y0) by (apply Rmult_le_compat_l; lra). assert (q * -361 <= q * y1) by (apply Rmult_le_compat_l; lra). lra. }
        apply Rabs_le_inv in Ns. lra. }
      pose proof (log_inside i ltac:(lia) (proj1 X)) as Ai. pose proof (log_inside' (S i) H (proj2 X)) as Bi.
      (* the interval found is [i], or the next with the logarithm at its beginning, or the one before with it at its end *)
      assert (ord : forall a b, (a < b)%nat -> (b < n)%nat -> real (at_ lx a) < real (at_ lx b)).
      { intros a b Hab Hb. apply (fit_order lx zs fit); [exact Hab | now rewrite lx_len]. }
      destruct (Nat.lt_trichotomy i j) as [G | [<- | G]]; [| exact Ns |].
      - assert (J : j = S i).
        { destruct (Nat.eq_dec j (S i)) as [G' | G']; [exact G' |]. pose proof (ord (S i) j ltac:(lia) ltac:(lia)). lra. }
        subst j. assert (Ex : real (log x) = real (at_ lx (S i))) by lra. pose proof (log_step i H).
        rewrite Ex in Ns |- *. replace ((real (at_ lx (S i)) - real (at_ lx i)) / (real (at_ lx (S i)) - real (at_ lx i))) with 1 by (field; lra).
        rewrite (Rminus_diag_eq (real (at_ lx (S i))) _ eq_refl) in Ns. unfold Rdiv in Ns. rewrite !Rmult_0_l, Rplus_0_r in Ns.
        replace (real (at_ ly i) + 1 * (real (at_ ly (S i)) - real (at_ ly i))) with (real (at_ ly (S i))) by ring. exact Ns.
      - exfalso. destruct Bj as [Bj | [Bj Ej]]; [| lia].
        destruct (Nat.eq_dec i (S j)) as [-> | G']; [lra |]. pose proof (ord (S j) i ltac:(lia) ltac:(lia)). lra.
    Qed.
  End At.
End Table.

(** Spaced arguments have logarithms that differ; so have those of a table that is accepted. *)
Lemma ln_spaced log xs ys i : rising_log log -> plotted xs ys -> spaced xs -> (S i < List.length xs)%nat -> 8192 * e <= ln (real (at_ xs (S i))) - ln (real (at_ xs i)).
Proof.
  intros LL PL SP H. apply ln_step; [apply (log_ordinary log); [exact LL | apply (ord_x xs ys PL); lia] |]. apply (SP i); apply at_error; lia.
Qed.

Lemma spaced_step log xs ys i : rising_log log -> plotted xs ys -> spaced xs -> (S i < List.length xs)%nat ->
  real (at_ (map log xs) i) + 5312 * e <= real (at_ (map log xs) (S i)).
Proof.
  intros LL PL SP H. pose proof (ln_spaced log xs ys i LL PL SP H) as S1.
  destruct (log_ordinary log _ LL (ord_x xs ys PL i ltac:(lia))) as (_ & A & _). destruct (log_ordinary log _ LL (ord_x xs ys PL (S i) H)) as (_ & B & _).
  rewrite !at_map by lia. apply Rabs_le_inv in A. apply Rabs_le_inv in B. pose proof e_pos. lra.
Qed.

Lemma spaced_steps log xs ys : rising_log log -> plotted xs ys -> spaced xs -> steps log xs.
Proof.
  intros LL PL SP i H. pose proof (spaced_step log xs ys i LL PL SP H). pose proof e_pos. assert (bpow radix2 (-1000) <= e) by (apply bpow_le; lia). lra.
Qed.

Lemma accepted_steps log xs ys lx ly : rising_log log -> plotted xs ys -> loglog_new log xs ys = Some (lx, ly) ->
  lx = map log xs /\ ly = map log ys /\ steps log xs.
Proof.
  intros LL PL. unfold loglog_new. destruct (increasing (map log xs)) eqn:I; [| discriminate]. intros H. injection H as <- <-. split; [reflexivity |]. split; [reflexivity |].
  assert (F : Forall (fun x => double x /\ finite x) (map log xs)).
  { apply Forall_forall. intros l J. apply in_map_iff in J. destruct J as (x & <- & J). destruct PL as (_ & _ & O & _). rewrite Forall_forall in O.
    destruct (log_ordinary log x LL (O x J)) as ((V & Fi & _) & _). split; assumption. }
  intros i Hi. pose proof (at_increasing _ F I i ltac:(now rewrite map_length)) as L. rewrite !at_map in * by lia.
  pose proof (ord_x xs ys PL i ltac:(lia)) as O1. pose proof (ord_x xs ys PL (S i) Hi) as O2.
  destruct (log_ordinary log _ LL O1) as ((V1 & _ & _) & _). destruct (log_ordinary log _ LL O2) as ((V2 & _ & _) & _).
  apply double_gap; [exact (value_format 53 1024 _ V1) | exact (value_format 53 1024 _ V2) | now apply log_min | now apply log_min | exact L].
Qed.
