(** * What distributions made of parameters give back (C104): proofs *)
From Coq Require Import ZArith Reals List Lra Lia Floats.SpecFloat.
From Flocq Require Import Core Relative BinarySingleNaN.
From Verif Require Import Num Double_spec Lognormal Functions Totals Totals_spec Totals_proofs7 Spread Spread_spec Spread_proofs4
  Loglog_spec Probfn Probfn_spec Probfn_proofs Make Make_spec Make_proofs.
Local Open Scope R_scope.

Lemma gives_same (f : nat -> option F64) x y : gives f x -> gives f y -> x = y.
Proof. intros [n H] [k J]. pose proof (H (n + k)%nat ltac:(lia)) as P. rewrite (J (n + k)%nat ltac:(lia)) in P. now injection P. Qed.

Lemma made_back_mean log ex mu s : accurate log -> exponential ex -> location mu -> log_width s ->
  nearly (mean_of ex (made_by log mu MEAN_X s SD_LN_X)) mu.
Proof.
  intros A X L W. destruct (given_mean log ex mu s A X L W) as [_ (m & G & N)].
  pose proof (proj1 (same_figures log ex (fun _ _ _ => S754_nan) (fun _ _ _ => S754_nan) mu s MEAN_X SD_LN_X (or_introl eq_refl) (or_introl eq_refl))) as H.
  now rewrite (gives_same _ _ _ H G).
Qed.

Lemma location_some mu : location mu -> some_mean mu.
Proof. intros (V & F & B) b ->. pose proof (bpow_gt_0 radix2 (-60)). change (real (S754_zero b)) with 0 in B. lra. Qed.

Lemma made_back_both log ex mu s : accurate log -> exponential ex -> location mu -> width s ->
  let d := made_by log mu MEAN_X s SD_X in
  nearly (mean_of ex d) mu /\
  (real s <= bpow radix2 300 * real mu -> double (sd_of ex d) /\ finite (sd_of ex d) /\ 0 <= real (sd_of ex d) /\
    Rabs (real (sd_of ex d) * real (sd_of ex d) - real s * real s) <= bpow radix2 (-34) * (real mu * real mu + real s * real s)).
Proof.
  intros A X L W d. destruct (given_both log ex mu s A X L W) as [(m & G & N) D].
  destruct (same_figures log ex (fun _ _ _ => S754_nan) (fun _ _ _ => S754_nan) mu s MEAN_X SD_X (or_intror eq_refl) (or_intror (location_some mu L))) as (H & K & _).
  split; [now rewrite (gives_same _ _ _ H G : mean_of ex d = m) |]. intros Q. destruct (D Q) as (v & G' & N'). now rewrite (gives_same _ _ _ K G' : sd_of ex d = v).
Qed.

Lemma made_back_all log ex : accurate log -> exponential ex ->
  (forall mu s, made_by log mu MEAN_LN_X s SD_LN_X = (mu, s)) /\
  (forall mu mt s, snd (made_by log mu mt s SD_LN_X) = s) /\
  (forall mu s, location mu -> nearly (ex (fst (made_by log mu MEDIAN_X s SD_LN_X))) mu) /\
  (forall mu s, location mu -> log_width s -> nearly (mean_of ex (made_by log mu MEAN_X s SD_LN_X)) mu) /\
  (forall mu s, location mu -> width s -> let d := made_by log mu MEAN_X s SD_X in
    nearly (mean_of ex d) mu /\
    (real s <= bpow radix2 300 * real mu -> double (sd_of ex d) /\ finite (sd_of ex d) /\ 0 <= real (sd_of ex d) /\
      Rabs (real (sd_of ex d) * real (sd_of ex d) - real s * real s) <= bpow radix2 (-34) * (real mu * real mu + real s * real s))).
Proof.
  intros A X. split; [reflexivity |]. split; [intros mu [] s; reflexivity |]. split; [intros mu s L; now apply exp_log |].
  split; [intros mu s; now apply made_back_mean | intros mu s; now apply made_back_both].
Qed.

Lemma made_zero log ex z s : (forall b, log (S754_zero b) = S754_infinity true) ->
  let d := made_by log (S754_zero z) MEAN_X s SD_X in mean_of ex d = S754_zero false /\ sd_of ex d = S754_zero false.
Proof.
  intros L d. assert (E : d = (S754_infinity true : F64, nofZ F64 0)).
  { unfold d. change (made_by log (S754_zero z) MEAN_X s SD_X) with (nsub F64 (log (S754_zero z)) (nofZ F64 0), nofZ F64 0). now rewrite L. }
  rewrite E. split; reflexivity.
Qed.
