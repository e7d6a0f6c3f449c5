(** * Proofs about programs that ask for reports, and about reading them (C93) *)
From Coq Require Import ZArith Bool Ascii String List Reals Floats.SpecFloat Lia.
From Flocq Require Import Core BinarySingleNaN.
From Verif Require Import Num Maq Report Double_spec Report_spec Report_proofs Report_proofs2.
Import ListNotations.
Local Open Scope list_scope.
Local Open Scope Z_scope.

(** ** What is in force is sane *)

Lemma u32_nonneg z : 0 <= u32 z.
Proof. unfold u32. apply Z.mod_pos_bound. reflexivity. Qed.
Lemma u64_nonneg z : 0 <= u64 z.
Proof. unfold u64. apply Z.mod_pos_bound. reflexivity. Qed.

Lemma positive_good x : double x -> nltb F64 (nofZ F64 0) x = true -> good x.
Proof.
  intros D P. split; [exact D|]. destruct x as [s | s | | s m e]; cbn in P; try discriminate.
  - destruct s; [discriminate | now left].
  - destruct s; [discriminate | right; eauto].
Qed.

Lemma default_good : good (tolerance_default F64).
Proof. apply positive_good; vm_compute; reflexivity. Qed.

Lemma start_sane : sane (default_settings F64) stats_zero.
Proof. split; [exact default_good |]. cbn. repeat (apply Forall_cons; [lia |]). constructor. Qed.

Lemma setting_sane s c o : sane s c -> proper (Happens (SSetting F64 o)) -> sane (settings_step F64 s o) c.
Proof.
  intros [G N] P. destruct o as [x | n | n | m | | |]; cbn [settings_step].
  - destruct (nltb F64 (nofZ F64 0) x) eqn:E; [| split; assumption]. split; [now apply positive_good | exact N].
  - destruct (0 <? u32 n); [| split; assumption]. split; [exact G |].
    inversion N; subst. constructor; [apply u32_nonneg | assumption].
  - destruct (0 <? u32 n); [| split; assumption]. split; [exact G |].
    inversion N as [|? ? N1 N2]; inversion N2; subst. constructor; [assumption | constructor; [apply u32_nonneg | assumption]].
  - split; assumption.
  - split; [exact default_good | exact N].
  - split; [exact G |]. inversion N; subst. constructor; [cbn; lia | assumption].
  - split; [exact default_good |]. inversion N as [|? ? N1 N2]; inversion N2; subst. constructor; [cbn; lia | constructor; [cbn; lia | assumption]].
Qed.

Lemma stats_sane s c (r : maq_result F64) : sane s c -> sane s (stats_step c r).
Proof.
  intros [G N]. split; [exact G |].
  repeat match goal with H : Forall _ (_ :: _) |- _ => inversion H; clear H; subst end.
  unfold stats_step. destruct (mr_exit r); cbn;
  repeat (apply Forall_cons; [try assumption; try apply u32_nonneg; try apply u64_nonneg |]); try constructor;
  match goal with |- context [?a <? ?b] => destruct (a <? b) eqn:?E; [apply Z.ltb_lt in E; lia | assumption] end.
Qed.

Lemma reset_sane s c : sane s c -> sane s stats_zero.
Proof.
  intros [G N]. split; [exact G |].
  repeat match goal with H : Forall _ (_ :: _) |- _ => inversion H; clear H; subst end.
  cbn. repeat (apply Forall_cons; [try assumption; lia |]). constructor.
Qed.

Lemma step_sane se o se' : sane (se_settings se) (se_stats se) -> proper (Happens o) ->
  session_step F64 se o = Done se' -> sane (se_settings se') (se_stats se').
Proof.
  intros G P. destruct o as [f | o |]; cbn [session_step].
  - destruct (MAQ F64 f _ _); cbn [obind]; [| discriminate ..]. intros [= <-]. now apply stats_sane.
  - intros [= <-]. cbn. now apply setting_sane.
  - intros [= <-]. cbn. now apply reset_sane with (c := se_stats se).
Qed.

(** ** Programs *)

Lemma run_app l : forall st m, event_run st (l ++ m) = obind (event_run st l) (fun st' => event_run st' m).
Proof.
  induction l as [|e l IH]; intros st m; [reflexivity|]. cbn [app event_run].
  destruct (event_step st e); cbn [obind]; [apply IH | reflexivity ..].
Qed.

Lemma run_sane l : forall se c out se' c' out', Forall proper l -> sane (se_settings se) (se_stats se) ->
  event_run (se, c, out) l = Done (se', c', out') -> sane (se_settings se') (se_stats se').
Proof.
  induction l as [|e l IH]; intros se c out se' c' out' P G R; cbn [event_run] in R.
  - now injection R as <- <- <-.
  - inversion P as [|? ? P1 P2]; subst. destruct e as [o |]; cbn [event_step] in R.
    + destruct (session_step F64 se o) as [se1 | |] eqn:E; cbn [obind] in R; try discriminate.
      eapply IH; [exact P2 | | exact R]. eapply step_sane; eassumption.
    + cbn [obind] in R. eapply IH; [exact P2 | exact G | exact R].
Qed.

(** What a report says is in force when it is asked for. *)
Lemma last_report l se c out : Forall proper l ->
  event_run event_start (l ++ [Asked]) = Done (se, c, out) ->
  exists out' t, out = out' ++ [t] /\ reported t (se_settings se) (se_stats se).
Proof.
  intros P R. rewrite run_app in R.
  destruct (event_run event_start l) as [[[se1 c1] out1] | |] eqn:E; cbn [obind] in R; try discriminate.
  cbn [event_run event_step obind] in R. injection R as -> <- <-.
  eexists _, _. split; [reflexivity |]. apply report_reads.
  eapply run_sane; [exact P | | exact E]. apply start_sane.
Qed.

(** Reports change nothing, and there are as many as were asked for. *)
Lemma run_session l : forall se c out,
  (forall se' c' out', event_run (se, c, out) l = Done (se', c', out') ->
     session_run F64 se (other l) = Done se' /\ exists new, out' = out ++ new /\ List.length new = asked l) /\
  (forall se', session_run F64 se (other l) = Done se' -> exists c' out', event_run (se, c, out) l = Done (se', c', out')).
Proof.
  induction l as [|e l IH]; intros se c out.
  - split.
    + intros se' c' out' [= <- <- <-]. split; [reflexivity | exists []; split; [now rewrite app_nil_r | reflexivity]].
    + intros se' [= <-]. eexists _, _. reflexivity.
  - destruct e as [o |]; cbn [event_run event_step other asked session_run].
    + destruct (session_step F64 se o) as [se1 | |] eqn:E; cbn [obind]; [apply IH | split; discriminate ..].
    + cbn [obind]. destruct (IH se (get_statistics (se_settings se) c) (out ++ [report_text (get_statistics (se_settings se) c) (se_stats se)])) as [A B].
      split; [| exact B]. intros se' c' out' R. destruct (A _ _ _ R) as (S & new & -> & L). split; [exact S |].
      eexists. rewrite <- app_assoc. split; [reflexivity |]. cbn. now rewrite L.
Qed.

Lemma reports_harmless l :
  (forall se c out, event_run event_start l = Done (se, c, out) ->
     session_run F64 (session_start F64) (other l) = Done se /\ List.length out = asked l) /\
  (forall se, session_run F64 (session_start F64) (other l) = Done se ->
     exists c out, event_run event_start l = Done (se, c, out)).
Proof.
  destruct (run_session l (session_start F64) controls_start []) as [A B]. split; [| exact B].
  intros se c out R. destruct (A _ _ _ R) as (S & new & -> & L). split; [exact S | exact L].
Qed.

(** ** Reading is unambiguous *)

Lemma digit_one c d d' : is_digit c d -> is_digit c d' -> d = d'.
Proof. intros [] H; inversion H; reflexivity. Qed.

Lemma reads_inv s n : reads s n -> (s = [] /\ n = 0) \/ exists r c d m, s = r ++ [c] /\ reads r m /\ is_digit c d /\ n = 10 * m + d.
Proof. intros [|r m c d R D]; [now left | right]. exists r, c, d, m. auto. Qed.

Lemma reads_one s n : reads s n -> forall m, reads s m -> n = m.
Proof.
  induction 1 as [|s n c d R IH D]; intros m H; apply reads_inv in H; destruct H as [[E ->] | (r & c' & d' & m' & E & R' & D' & ->)].
  - reflexivity.
  - now apply app_cons_not_nil in E.
  - symmetry in E. now apply app_cons_not_nil in E.
  - apply app_inj_tail in E. destruct E as [<- <-]. rewrite (IH _ R'), (digit_one _ _ _ D D'). reflexivity.
Qed.

Lemma split_at (k : ascii) (a b : list ascii) x y : ~ In k a -> ~ In k b -> a ++ k :: x = b ++ k :: y -> a = b /\ x = y.
Proof.
  revert b. induction a as [|c a IH]; intros [|d b] A B E; cbn [app] in E; [injection E as -> | injection E as E1 E2 ..].
  - auto.
  - subst d. destruct B. now left.
  - subst c. destruct A. now left.
  - destruct (IH b) as [-> ->]; [intros H; apply A; now right | intros H; apply B; now right | exact E2 |].
    now subst.
Qed.

Lemma lines_one ls : forall t ls', lines t ls -> lines t ls' -> ls = ls'.
Proof.
  induction ls as [|l ls IH]; intros t [|l' ls'] [E N] [E' N']; subst t; cbn [map concat] in E'.
  - reflexivity.
  - rewrite <- app_assoc in E'. cbn in E'. now apply app_cons_not_nil in E'.
  - rewrite <- app_assoc in E'. cbn in E'. symmetry in E'. now apply app_cons_not_nil in E'.
  - rewrite <- !app_assoc in E'. inversion N; subst. inversion N'; subst. apply split_at in E'; [| assumption ..].
    destruct E' as [<- E']. f_equal. eapply IH; [split; [reflexivity | assumption] | split; [exact E' | assumption]].
Qed.

Lemma shows_one t lab v v' : shows t lab v -> shows t lab v' -> v = v'.
Proof.
  intros (b & a & L & O) (b' & a' & L' & O'). pose proof (lines_one _ _ _ L L') as E.
  assert (I : In (list_ascii_of_string (lab ++ ": ") ++ v') (b ++ (list_ascii_of_string (lab ++ ": ") ++ v) :: a))
    by (rewrite E; apply in_or_app; right; now left).
  apply in_app_or in I. destruct I as [I | [I | I]].
  - exfalso. eapply O; [apply in_or_app; left; exact I | reflexivity].
  - now apply app_inv_head in I.
  - exfalso. eapply O; [apply in_or_app; right; exact I | reflexivity].
Qed.

Lemma counts_one t lab n m : counts t lab n -> counts t lab m -> n = m.
Proof.
  intros (s & S & N & _) (s' & S' & N' & _). pose proof (shows_one _ _ _ _ S S'). subst. eapply reads_one; eassumption.
Qed.

(** Characters that are in no whole number. *)
Lemma reads_without k s n : (forall d, ~ is_digit k d) -> reads s n -> ~ In k s.
Proof.
  intros K. induction 1 as [|s n c d R IH D]; [intros [] |]. intros I. apply in_app_or in I.
  destruct I as [I | [<- | []]]; [now apply IH | now apply K in D].
Qed.
Lemma no_point d : ~ is_digit "." d. Proof. intros H; inversion H. Qed.
Lemma no_e d : ~ is_digit "e" d. Proof. intros H; inversion H. Qed.
Lemma no_i d : ~ is_digit "i" d. Proof. intros H; inversion H. Qed.

Lemma plain_without k s v : (forall d, ~ is_digit k d) -> k <> "."%char -> plain s v -> ~ In k s.
Proof.
  intros K P [s' n [R _] | a x b y [R _] R' _].
  - eapply reads_without; eassumption.
  - intros I. apply in_app_or in I. destruct I as [I | [I | I]].
    + eapply (reads_without k a); eassumption.
    + congruence.
    + eapply (reads_without k b); eassumption.
Qed.

Lemma decimal_no_i s v : decimal s v -> ~ In "i"%char s.
Proof.
  intros [s' v' P | s' v' t n P R _ | s' v' t n P R _].
  - eapply plain_without; [exact no_i | discriminate | eassumption].
  - intros I. apply in_app_or in I. destruct I as [I | [I | [I | I]]]; try discriminate.
    + eapply plain_without; [exact no_i | discriminate | eassumption | exact I].
    + eapply reads_without; [exact no_i | eassumption | exact I].
  - intros I. apply in_app_or in I. destruct I as [I | [I | [I | I]]]; try discriminate.
    + eapply plain_without; [exact no_i | discriminate | eassumption | exact I].
    + eapply reads_without; [exact no_i | eassumption | exact I].
Qed.

Lemma plain_inv s v : plain s v -> (exists n, number s n /\ v = IZR n) \/
  exists a x b y, s = a ++ "."%char :: b /\ number a x /\ reads b y /\ v = (IZR x + IZR y / 10 ^ List.length b)%R.
Proof. intros [s' n N | a x b y N R _]; [left; eauto | right]. exists a, x, b, y. auto. Qed.

Lemma plain_one s v v' : plain s v -> plain s v' -> v = v'.
Proof.
  intros P P'. apply plain_inv in P. apply plain_inv in P'.
  destruct P as [(n & [N _] & ->) | (a & x & b & y & E & [N _] & R & ->)];
  destruct P' as [(n' & [N' _] & ->) | (a' & x' & b' & y' & E' & [N' _] & R' & ->)].
  - now rewrite (reads_one _ _ N _ N').
  - exfalso. subst s. eapply (reads_without "." _ _ no_point N). apply in_or_app. right. now left.
  - exfalso. subst s. eapply (reads_without "." _ _ no_point N'). apply in_or_app. right. now left.
  - subst s. apply split_at in E'; [| eapply reads_without; [exact no_point | eassumption] ..].
    destruct E' as [<- <-]. now rewrite (reads_one _ _ N _ N'), (reads_one _ _ R _ R').
Qed.

Lemma decimal_inv s v : decimal s v -> plain s v \/
  (exists p w t n, s = p ++ "e"%char :: "+"%char :: t /\ plain p w /\ reads t n /\ v = (w * powerRZ 10 n)%R) \/
  exists p w t n, s = p ++ "e"%char :: "-"%char :: t /\ plain p w /\ reads t n /\ v = (w * powerRZ 10 (- n))%R.
Proof.
  intros [s' v' P | s' v' t n P R _ | s' v' t n P R _]; [now left | right; left | right; right];
  exists s', v', t, n; auto.
Qed.

Lemma plain_no_e s v : plain s v -> ~ In "e"%char s.
Proof. apply plain_without; [exact no_e | discriminate]. Qed.

Lemma decimal_one s v v' : decimal s v -> decimal s v' -> v = v'.
Proof.
  intros D D'. apply decimal_inv in D. apply decimal_inv in D'.
  assert (X : forall p k t, In "e"%char (p ++ "e"%char :: k :: t)) by (intros; apply in_or_app; right; now left).
  destruct D as [P | [(p & w & t & n & E & P & R & ->) | (p & w & t & n & E & P & R & ->)]];
  destruct D' as [P' | [(p' & w' & t' & n' & E' & P' & R' & ->) | (p' & w' & t' & n' & E' & P' & R' & ->)]];
  try (exfalso; apply plain_no_e in P; subst s; apply P, X);
  try (exfalso; apply plain_no_e in P'; subst s; apply P', X); [now apply plain_one with s | ..];
  rewrite E in E'; apply split_at in E'; try (eapply plain_no_e; eassumption); destruct E' as [<- E']; try discriminate;
  injection E' as <-; now rewrite (plain_one _ _ _ P P'), (reads_one _ _ R _ R').
Qed.

Lemma called_one m m' : list_ascii_of_string (called m) = list_ascii_of_string (called m') -> m = m'.
Proof. destruct m, m'; intros H; try reflexivity; discriminate H. Qed.

Lemma tolerance_one w x y : tolerance_shown w x -> tolerance_shown w y ->
  x = y \/ (Rabs (SF2R radix2 x - SF2R radix2 y) <= (SF2R radix2 x + SF2R radix2 y) * (5 / 1000000))%R.
Proof.
  intros [[-> Ew] | (v & D & B)] [[-> Ew'] | (v' & D' & B')].
  - now left.
  - exfalso. apply decimal_no_i in D'. apply D'. subst w. now left.
  - exfalso. apply decimal_no_i in D. apply D. subst w. now left.
  - right. rewrite (decimal_one _ _ _ D D') in B.
    replace (SF2R radix2 x - SF2R radix2 y)%R with ((v' - SF2R radix2 y) - (v' - SF2R radix2 x))%R by ring.
    eapply Rle_trans; [apply Rabs_triang |]. rewrite Rabs_Ropp. rewrite Rmult_plus_distr_r, Rplus_comm. now apply Rplus_le_compat.
Qed.

(** Two states with the same report have the same counters and settings, but for the
    tolerance, which agrees to five digits. *)
Lemma report_one t s c s' c' : reported t s c -> reported t s' c' ->
  c = c' /\ set_method s = set_method s' /\ set_eval_limit s = set_eval_limit s' /\ set_search_limit s = set_search_limit s' /\
  (set_tolerance s = set_tolerance s' \/
   (Rabs (SF2R radix2 (set_tolerance s) - SF2R radix2 (set_tolerance s')) <=
    (SF2R radix2 (set_tolerance s) + SF2R radix2 (set_tolerance s')) * (5 / 1000000))%R).
Proof.
  intros (A1 & (w & A0 & AT) & A2 & A3 & A4 & A5 & A6 & A7 & A8 & A9 & A10 & A11 & A12)
         (B1 & (w' & B0 & BT) & B2 & B3 & B4 & B5 & B6 & B7 & B8 & B9 & B10 & B11 & B12).
  split; [| split; [apply called_one; eapply shows_one; eassumption | split; [eapply counts_one; eassumption | split; [eapply counts_one; eassumption |]]]].
  - destruct c as [c1 c2 c3 c4 c5 c6 c7 c8 c9], c' as [e1 e2 e3 e4 e5 e6 e7 e8 e9]. cbn in *.
    f_equal; eapply counts_one; eassumption.
  - rewrite (shows_one _ _ _ _ B0 A0) in BT. now apply tolerance_one with w.
Qed.

(** ** Tolerances that look the same *)

Lemma set_and_ask x :
  let s := settings_step F64 (default_settings F64) (OpSetTolerance F64 x) in
  event_run event_start [Happens (SSetting F64 (OpSetTolerance F64 x)); Asked] =
  Done (mkSession F64 s stats_zero, get_statistics s controls_start, [report_text (get_statistics s controls_start) stats_zero]).
Proof. reflexivity. Qed.

Lemma refute_tolerance :
  exists x y se se' c c' out, double x /\ double y /\
    event_run event_start [Happens (SSetting F64 (OpSetTolerance F64 x)); Asked] = Done (se, c, out) /\
    event_run event_start [Happens (SSetting F64 (OpSetTolerance F64 y)); Asked] = Done (se', c', out) /\
    se_settings se <> se_settings se'.
Proof.
  exists (S754_finite false 4722366482869645 (-62)), (S754_finite false 4722366482869646 (-62)).
  eexists _, _, _, _, _. split; [reflexivity | split; [reflexivity |]].
  split; [apply set_and_ask |]. split.
  - rewrite set_and_ask. apply f_equal. apply f_equal. vm_compute. reflexivity.
  - intros E. apply (f_equal (fun s : settings F64 => SFcompare (set_tolerance s : spec_float) (S754_finite false 4722366482869645 (-62)))) in E.
    vm_compute in E. discriminate E.
Qed.

(** Two programs with the same report. *)
Lemma programs_one l l' se se' c c' b b' t : Forall proper l -> Forall proper l' ->
  event_run event_start (l ++ [Asked]) = Done (se, c, b ++ [t]) ->
  event_run event_start (l' ++ [Asked]) = Done (se', c', b' ++ [t]) ->
  let s := se_settings se in let s' := se_settings se' in
  se_stats se = se_stats se' /\ set_method s = set_method s' /\ set_eval_limit s = set_eval_limit s' /\
  set_search_limit s = set_search_limit s' /\
  (set_tolerance s = set_tolerance s' \/
   (Rabs (SF2R radix2 (set_tolerance s) - SF2R radix2 (set_tolerance s')) <=
    (SF2R radix2 (set_tolerance s) + SF2R radix2 (set_tolerance s')) * (5 / 1000000))%R).
Proof.
  intros P P' R R' s s'. destruct (last_report _ _ _ _ P R) as (o & u & E & A).
  destruct (last_report _ _ _ _ P' R') as (o' & u' & E' & A').
  apply app_inj_tail in E. apply app_inj_tail in E'. destruct E as [_ <-], E' as [_ <-].
  now apply report_one with t.
Qed.
