(** * Probabilistic functions in double precision (C103): proofs *)
From Coq Require Import ZArith Reals List Lra Lia Floats.SpecFloat.
From Flocq Require Import Core Relative BinarySingleNaN.
From Verif Require Import Num Double_spec Double_proofs Double_proofs2 Maq_double_proofs Deriv_proofs3 Lognormal Functions Totals Totals_spec
  Totals_proofs Totals_proofs2 Totals_proofs4 Totals_proofs6 Totals_proofs7 Spread Spread_spec Spread_proofs Spread_proofs2 Spread_proofs3 Spread_proofs4
  Tabled_proofs Tabled_proofs2 Hyperbola_spec Hyperbola_proofs Hyperbola_proofs2 Hyperbola_proofs3 Loglog_spec Loglog_proofs Loglog_proofs2 Loglog_proofs4
  Probfn Probfn_spec.
Local Open Scope R_scope.
Local Instance p53i : Prec_gt_0 53 := eq_refl.
Local Instance e1024i : Prec_lt_emax 53 1024 := eq_refl.
Local Instance fx : Valid_exp (SpecFloat.fexp 53 1024) := fexp_correct 53 1024 p53i.

Ltac deep := match goal with
  | H : (_ <= ?f)%nat |- _ => do 4 (destruct f as [| f]; [exfalso; lia |])
  end.

(** The distribution, kind by kind. *)
Lemma dist_ln log ex fuel mu s : (4 <= fuel)%nat -> dist_at log ex fuel MEAN_LN_X SD_LN_X mu s = Some (mu, s).
Proof. intros H. deep. reflexivity. Qed.
Lemma dist_mean log ex fuel mu s : (4 <= fuel)%nat -> dist_at log ex fuel MEAN_X SD_LN_X mu s = Some (with_spread log mu s).
Proof. intros H. deep. reflexivity. Qed.
Lemma dist_median log ex fuel mu s : (4 <= fuel)%nat -> dist_at log ex fuel MEDIAN_X SD_LN_X mu s = Some (log mu, s).
Proof. intros H. deep. reflexivity. Qed.

Lemma neq_zero m : double m -> finite m -> 0 < real m -> neqb F64 m (nofZ F64 0) = false.
Proof. intros V F P. destruct m as [s | s | | [] p k]; try (now destruct F); try reflexivity. cbn in P. lra. Qed.

Lemma dist_both log ex fuel mu s : (4 <= fuel)%nat -> double mu -> finite mu -> 0 < real mu ->
  dist_at log ex fuel MEAN_X SD_X mu s = Some (Totals.made log (Cost mu s)).
Proof. intros H V F P. deep. unfold Totals.made. cbn [c_mean c_sd]. rewrite (neq_zero mu V F P). reflexivity. Qed.

(** Without a mean, calls go on for ever. *)
Lemma endless log ex mt mu s : mt <> MEAN_X -> forall fuel,
  dist_at log ex fuel mt SD_X mu s = None.
Proof.
  intros N fuel. assert (K : forall n, member_of log ex n mt SD_X mu s M_sigma_lnX = None /\ member_of log ex n mt SD_X mu s M_mean_X = None).
  { induction n as [| n [I1 I2]]; [split; reflexivity |]. cbn [member_of]. rewrite I1, I2. split.
    - destruct (member_of log ex n mt SD_X mu s M_sigma_X); reflexivity.
    - destruct mt; [| congruence |]; destruct (member_of log ex n _ SD_X mu s M_mean_lnX); reflexivity. }
  unfold dist_at. rewrite (proj1 (K fuel)). destruct (member_of _ _ _ _ _ _ _ M_mean_lnX); reflexivity.
Qed.

(** [exp] of [log]. *)
Lemma exp_log log ex m : accurate log -> exponential ex -> location m -> nearly (ex (log m)) m.
Proof.
  intros [L Acc] LE (V & F & B). pose proof (bpow_gt_0 radix2 (-60)) as P60. destruct (L m V F ltac:(lra)) as (Vl & Fl & _). pose proof (Acc m V F ltac:(lra)) as A.
  assert (LB : Rabs (ln (real m)) <= 360).
  { assert (ln (bpow radix2 (-60)) <= ln (real m)) by (apply ln_le; lra). assert (ln (real m) <= ln (bpow radix2 400)) by (apply ln_le; lra).
    rewrite !ln_bpow in *. pose proof ln2_top. pose proof ln_lt_2. apply Rabs_le. lra. }
  pose proof e_pos. pose proof e_tiny. rewrite e50 in A.
  assert (A' : Rabs (real (log m) - ln (real m)) <= 1440 * e).
  { apply Rle_trans with (1 := A). apply Rle_trans with (4 * e * 360); [apply Rmult_le_compat_l; lra | lra]. }
  assert (Bl : -400 <= real (log m) <= 400) by (apply Rabs_le_inv in A'; apply Rabs_le_inv in LB; lra).
  destruct (exp_logged ex (log m) LE Vl Fl Bl) as (Ve & Fe & Pe & Ne). split; [exact Ve |]. split; [exact Fe |].
  apply Rabs_le_inv in A'. apply Rabs_le_inv in Ne.
  pose proof (near_log (real (ex (log m))) (real m) (5645 * e) Pe ltac:(lra) ltac:(lra) ltac:(lra)).
  pose proof (near_log_below (real (ex (log m))) (real m) (5645 * e) Pe ltac:(lra) ltac:(lra) ltac:(lra)). apply Rabs_le. lra.
Qed.

Lemma given_ln log ex mu s :
  gives (fun n => fn_mean_ln log ex n MEAN_LN_X SD_LN_X mu s) mu /\ gives (fun n => fn_sd_ln log ex n MEAN_LN_X SD_LN_X mu s) s.
Proof. split; exists 4%nat; intros fuel H; unfold fn_mean_ln, fn_sd_ln; rewrite dist_ln by exact H; reflexivity. Qed.

Lemma given_mean log ex mu s : accurate log -> exponential ex -> location mu -> log_width s ->
  gives (fun n => fn_sd_ln log ex n MEAN_X SD_LN_X mu s) s /\ exists m, gives (fun n => fn_mean log ex n MEAN_X SD_LN_X mu s) m /\ nearly m mu.
Proof.
  intros LL LE (V & F & B) W. assert (B' : between (bpow radix2 (-60)) (bpow radix2 430) mu).
  { split; [exact V |]. split; [exact F |]. assert (bpow radix2 400 <= bpow radix2 430) by (apply bpow_le; lia). lra. }
  split; [exists 4%nat; intros fuel H; unfold fn_sd_ln; rewrite dist_mean by exact H; reflexivity |].
  exists (mean_of ex (with_spread log mu s)). split; [exists 4%nat; intros fuel H; unfold fn_mean; rewrite dist_mean by exact H; reflexivity |].
  exact (proj2 (spread_back log ex mu s LL LE B' W)).
Qed.

Lemma given_median log ex mu s : accurate log -> exponential ex -> location mu ->
  gives (fun n => fn_sd_ln log ex n MEDIAN_X SD_LN_X mu s) s /\ exists m, gives (fun n => fn_median log ex n MEDIAN_X SD_LN_X mu s) m /\ nearly m mu.
Proof.
  intros LL LE B. split; [exists 4%nat; intros fuel H; unfold fn_sd_ln; rewrite dist_median by exact H; reflexivity |].
  exists (ex (log mu)). split; [exists 4%nat; intros fuel H; unfold fn_median; rewrite dist_median by exact H; reflexivity | now apply exp_log].
Qed.

Lemma given_both log ex mu s : accurate log -> exponential ex -> location mu -> width s ->
  (exists m, gives (fun n => fn_mean log ex n MEAN_X SD_X mu s) m /\ nearly m mu) /\
  (real s <= bpow radix2 300 * real mu -> exists d, gives (fun n => fn_sd log ex n MEAN_X SD_X mu s) d /\ double d /\ finite d /\ 0 <= real d /\
    Rabs (real d * real d - real s * real s) <= bpow radix2 (-34) * (real mu * real mu + real s * real s)).
Proof.
  intros LL LE (V & F & B) (Vs & Fs & Bs). pose proof (bpow_gt_0 radix2 (-60)).
  assert (B' : between (bpow radix2 (-60)) (bpow radix2 430) (c_mean (Cost mu s))).
  { split; [exact V |]. split; [exact F |]. cbn [c_mean]. assert (bpow radix2 400 <= bpow radix2 430) by (apply bpow_le; lia). lra. }
  assert (S' : between 0 (bpow radix2 420) (c_sd (Cost mu s))).
  { split; [exact Vs |]. split; [exact Fs |]. cbn [c_sd]. assert (bpow radix2 400 <= bpow radix2 420) by (apply bpow_le; lia). lra. }
  split.
  - exists (mean_of ex (Totals.made log (Cost mu s))). split; [exists 4%nat; intros fuel H'; unfold fn_mean; rewrite dist_both by (try assumption; lra); reflexivity |].
    exact (made_back log ex (Cost mu s) LL LE B' S').
  - intros Q. exists (sd_of ex (Totals.made log (Cost mu s))). split; [exists 4%nat; intros fuel H'; unfold fn_sd; rewrite dist_both by (try assumption; lra); reflexivity |].
    exact (made_deviation log ex (Cost mu s) LL LE B' S' Q).
Qed.

(** A mean of zero. *)
Lemma zero_mean log ex z s : (forall b, log (S754_zero b) = S754_infinity true) -> log_width s ->
  gives (fun n => fn_mean log ex n MEAN_X SD_LN_X (S754_zero z) s) (nofZ F64 0) /\
  gives (fun n => fn_sd log ex n MEAN_X SD_LN_X (S754_zero z) s) (nofZ F64 0).
Proof.
  intros L W. destruct (half_square _ W) as (_ & _ & Vh & Fh & _).
  assert (E : fst (with_spread log (S754_zero z) s) = S754_infinity true).
  { unfold with_spread. cbn [fst]. rewrite L. set (h := ndiv F64 _ _) in *. destruct h; try discriminate Fh; reflexivity. }
  assert (D : with_spread log (S754_zero z) s = (S754_infinity true, s)) by (unfold with_spread in *; cbn [fst] in E; now rewrite E).
  split; exists 4%nat; intros fuel H; unfold fn_mean, fn_sd; rewrite dist_mean by exact H; rewrite D; reflexivity.
Qed.

(** A mean and a deviation of zero. *)
Lemma zero_both log ex z z' : (forall b, log (S754_zero b) = S754_infinity true) -> log S754_nan = S754_nan -> ex S754_nan = S754_nan ->
  let mu := S754_zero z in let s := S754_zero z' in
  gives (fun n => fn_mean log ex n MEAN_X SD_X mu s) S754_nan /\ gives (fun n => fn_sd log ex n MEAN_X SD_X mu s) S754_nan.
Proof.
  intros L N X mu s. assert (D : forall fuel, (4 <= fuel)%nat -> dist_at log ex fuel MEAN_X SD_X mu s = Some (S754_nan, S754_nan)).
  { intros fuel H. deep.
    change (Some (nsub F64 (log (S754_zero z)) (ndiv F64 (nmul F64 (root (log S754_nan)) (root (log S754_nan))) (nofZ F64 2)), root (log S754_nan)) = Some (S754_nan, S754_nan)).
    rewrite N, L. reflexivity. }
  split; exists 4%nat; intros fuel H; unfold fn_mean, fn_sd; rewrite D by exact H; cbn [option_map]; f_equal; unfold sd_of, mean_of; cbn [neqb F64 SFeqb];
    change (nadd F64 S754_nan (ndiv F64 (nmul F64 S754_nan S754_nan) (nofZ F64 2))) with S754_nan; rewrite X; reflexivity.
Qed.

(** No exponential gives every median back. *)
Lemma refute_median log ex : rising_log log -> rising_exp ex -> exists mu m, location mu /\
  (forall s, gives (fun n => fn_median log ex n MEDIAN_X SD_LN_X mu s) m) /\ real m <> real mu.
Proof.
  intros LL (LE & _ & M). destruct (collision log LL) as (a & b & Oa & Ob & L & E & N & B1 & Lo).
  assert (Loc : forall x, ordinary x -> bpow radix2 (-60) <= real x -> location x) by (intros x (V & F & B) H; split; [exact V | split; [exact F | lra]]).
  destruct (log_ordinary log a LL Oa) as ((Va & Fa & _) & _). destruct (log_ordinary log b LL Ob) as ((Vb & Fb & _) & _).
  assert (Q : real (ex (log a)) = real (ex (log b))) by (apply Rle_antisym; apply M; try assumption; lra).
  assert (G : forall x s, gives (fun n => fn_median log ex n MEDIAN_X SD_LN_X x s) (ex (log x))) by (intros x s; exists 4%nat; intros fuel H; unfold fn_median; rewrite dist_median by exact H; reflexivity).
  destruct (Req_dec (real (ex (log a))) (real a)) as [Y | Y].
  - exists b, (ex (log b)). split; [apply Loc; [exact Ob | lra] |]. split; [apply G | lra].
  - exists a, (ex (log a)). split; [apply Loc; [exact Oa | exact Lo] |]. split; [apply G | exact Y].
Qed.

(** Deviations that are lost. *)
Lemma small_both log ex mu s : accurate log -> exponential ex -> location mu -> width s -> real s <= bpow radix2 (-27) * real mu ->
  exists d, gives (fun n => fn_sd log ex n MEAN_X SD_X mu s) d /\ real d = 0.
Proof.
  intros LL LE (V & F & B) (Vs & Fs & Bs) Q. pose proof (bpow_gt_0 radix2 (-60)).
  assert (B' : between (bpow radix2 (-60)) (bpow radix2 430) (c_mean (Cost mu s))).
  { split; [exact V |]. split; [exact F |]. cbn [c_mean]. assert (bpow radix2 400 <= bpow radix2 430) by (apply bpow_le; lia). lra. }
  assert (S' : between 0 (bpow radix2 420) (c_sd (Cost mu s))).
  { split; [exact Vs |]. split; [exact Fs |]. cbn [c_sd]. assert (bpow radix2 400 <= bpow radix2 420) by (apply bpow_le; lia). lra. }
  exists (sd_of ex (Totals.made log (Cost mu s))). split; [exists 4%nat; intros fuel H'; unfold fn_sd; rewrite dist_both by (try assumption; lra); reflexivity |].
  exact (proj2 (small_lost log ex (Cost mu s) LL LE B' S' Q)).
Qed.

(** Numbers to try it on. *)
Lemma probfn_example : accurate rounded_log /\ exponential rounded_exp /\ location (nofZ F64 3) /\ width (nofZ F64 2) /\ log_width (nofZ F64 2) /\
  real (nofZ F64 3) = 3 /\ real (nofZ F64 2) = 2 /\ real (nofZ F64 2) <= bpow radix2 300 * real (nofZ F64 3).
Proof.
  split; [exact rounded_accurate |]. split; [exact rounded_exponential |].
  destruct (small_int 3 ltac:(lia)) as [(V3 & F3 & B3) E3]. destruct (small_int 2 ltac:(lia)) as [(V2 & F2 & B2) E2].
  assert (bpow radix2 (-60) <= 1) by (change 1 with (bpow radix2 0); apply bpow_le; lia).
  assert (1 <= bpow radix2 300) by (change 1 with (bpow radix2 0); apply bpow_le; lia).
  split; [split; [exact V3 | split; [exact F3 | lra]] |]. split; [split; [exact V2 | split; [exact F2 | lra]] |]. split; [split; [exact V2 | split; [exact F2 | lra]] |].
  split; [exact E3 |]. split; [exact E2 |]. rewrite E2, E3. lra.
Qed.

Lemma probfn_ends : (forall b, rounded_log (S754_zero b) = S754_infinity true) /\ rounded_log S754_nan = S754_nan /\ rounded_exp S754_nan = S754_nan.
Proof. repeat split. Qed.

Lemma probfn_small : location (nofZ F64 (2 ^ 30)) /\ width (nofZ F64 1) /\ 0 < real (nofZ F64 1) <= bpow radix2 (-27) * real (nofZ F64 (2 ^ 30)).
Proof.
  destruct (small_int 1 ltac:(lia)) as [A1 E1]. assert (E : real (nofZ F64 (2 ^ 30)) = bpow radix2 30) by (vm_compute; lra).
  split; [| split; [exact A1 |]].
  - split; [vm_compute; reflexivity |]. split; [vm_compute; exact I |]. rewrite E. split; apply bpow_le; lia.
  - rewrite E1, E, <- bpow_plus. change (bpow radix2 (-27 + 30)) with 8. lra.
Qed.
