(** * Distributions and functions with the same parameters (C104): proofs *)
From Coq Require Import ZArith Reals List Lia Floats.SpecFloat.
From Verif Require Import Num Double_spec Lognormal Functions Totals Spread Totals_proofs7 Spread_proofs4 Probfn Probfn_spec Probfn_proofs Make Make_spec.

Lemma zero_test m : some_mean m -> neqb F64 m (nofZ F64 0) = false.
Proof. intros H. destruct m as [b | [] | | [] p k]; try reflexivity. now destruct (H b). Qed.

Lemma same_dist log ex mu s mt st : usable mt st -> (st = SD_LN_X \/ some_mean mu) -> forall fuel, (4 <= fuel)%nat ->
  dist_at log ex fuel mt st mu s = Some (made_by log mu mt s st).
Proof.
  intros [-> | ->] M fuel H; [destruct mt | destruct st].
  - now apply dist_ln.
  - now apply dist_mean.
  - now apply dist_median.
  - now apply dist_mean.
  - destruct M as [M | M]; [discriminate |]. deep. unfold made_by, Totals.made. cbn [c_mean c_sd]. rewrite (zero_test mu M). reflexivity.
Qed.

Lemma same_figures log ex Q Pinv mu s mt st : usable mt st -> (st = SD_LN_X \/ some_mean mu) ->
  let d := made_by log mu mt s st in
  gives (fun n => fn_mean log ex n mt st mu s) (mean_of ex d) /\ gives (fun n => fn_sd log ex n mt st mu s) (sd_of ex d) /\
  gives (fun n => fn_median log ex n mt st mu s) (ex (fst d)) /\
  gives (fun n => fn_mean_ln log ex n mt st mu s) (fst d) /\ gives (fun n => fn_sd_ln log ex n mt st mu s) (snd d) /\
  (forall y, gives (fun n => exceedence log ex Q n mt st mu s y) (at_least Q d y)) /\
  (forall p, gives (fun n => x_at_exceedence log ex Pinv n mt st mu s p) (at_chance Pinv d p)).
Proof.
  intros U M d. repeat split; try intros y; exists 4%nat; intros fuel H; unfold fn_mean, fn_sd, fn_median, fn_mean_ln, fn_sd_ln, exceedence, x_at_exceedence;
    rewrite (same_dist log ex mu s mt st U M fuel H); reflexivity.
Qed.

Lemma refute_same log ex : (forall b, log (S754_zero b) = S754_infinity true) -> log S754_nan = S754_nan -> ex S754_nan = S754_nan ->
  exists mu s m, gives (fun n => fn_mean log ex n MEAN_X SD_X mu s) m /\ m <> mean_of ex (made_by log mu MEAN_X s SD_X).
Proof.
  intros L N X. exists (S754_zero false), (S754_zero false), S754_nan. split; [exact (proj1 (zero_both log ex false false L N X)) |].
  replace (made_by log (S754_zero false) MEAN_X (S754_zero false) SD_X) with (S754_infinity true : F64, nofZ F64 0); [discriminate |].
  change (made_by log (S754_zero false) MEAN_X (S754_zero false) SD_X) with (nsub F64 (log (S754_zero false)) (nofZ F64 0), nofZ F64 0). now rewrite L.
Qed.

Lemma unusable log ex mu s mt st : ~ usable mt st -> made_by log mu mt s st = (S754_nan, S754_nan) /\ forall fuel, dist_at log ex fuel mt st mu s = None.
Proof.
  intros U. destruct st; [now destruct U; left |]. assert (N : mt <> MEAN_X) by (intros ->; apply U; now right).
  split; [destruct mt; try reflexivity; now destruct N | now apply endless].
Qed.

Lemma clipped_ok r : no_negative (not_below r).
Proof. unfold not_below. destruct r as [[] | [] | | [] p k]; exact I. Qed.

Lemma never_negative Q P Pinv d x : no_negative (at_least Q d x) /\ no_negative (at_most P d x) /\ no_negative (at_chance Pinv d x).
Proof.
  split; [| split; [unfold at_most; destruct (andb _ _); [exact I | apply clipped_ok] | apply clipped_ok]]. unfold at_least. destruct (nisnan F64 (fst d)); [| apply clipped_ok]. destruct (nisnan F64 (snd d)); exact I.
Qed.

Lemma clipped_same r : no_negative r -> not_below r = r.
Proof. destruct r as [[] | [] | | [] p k]; try reflexivity; intros []. Qed.

Lemma same_chance Q P Pinv d x :
  (fst d <> S754_nan -> no_negative (Q x (fst d) (snd d)) -> at_least Q d x = Q x (fst d) (snd d)) /\
  (fst d <> S754_nan -> no_negative (P x (fst d) (snd d)) -> at_most P d x = P x (fst d) (snd d)) /\
  (no_negative (Pinv x (fst d) (snd d)) -> at_chance Pinv d x = Pinv x (fst d) (snd d)).
Proof.
  destruct d as [m v]. cbn [fst snd]. split; [| split; [| apply clipped_same]]; intros N C; unfold at_least, at_most; cbn [fst snd];
    (destruct m as [b | b | | b p k]; try (now destruct N); exact (clipped_same _ C)).
Qed.

Lemma missing Q P v x : at_least Q (S754_nan, S754_nan) x = S754_nan /\ at_most P (S754_nan, S754_nan) x = S754_nan /\
  (v <> S754_nan -> at_least Q (S754_nan, v) x = S754_zero false).
Proof. split; [reflexivity |]. split; [reflexivity |]. intros N. destruct v; try reflexivity. now destruct N. Qed.
