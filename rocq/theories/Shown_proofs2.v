(** * Proofs about what the library writes of its objects (C97), continued *)
From Coq Require Import ZArith Bool Ascii String List Reals Floats.SpecFloat Lia Lra.
From Flocq Require Import Core BinarySingleNaN.
From Verif Require Import Num Maq Report Damage Spread Double_spec Report_spec Report_proofs Report_proofs2 Report_proofs3
  Shown Shown_spec Shown_proofs.
Import ListNotations.
Local Open Scope list_scope.
Local Open Scope Z_scope.

(** ** One text after the other *)

Lemma curve_then c c' r r' : curve_doubles c -> curve_doubles c' -> curve_text c ++ r = curve_text c' ++ r' -> like c c' /\ r = r'.
Proof.
  destruct c as [|v i a|a b|p|p], c' as [|v' i' a'|a' b'|p'|p']; intros C C' E;
  cbn [curve_text curve_doubles] in *; rewrite <- ?app_assoc in E;
  try (cbn in E; discriminate E); try (cbn in E; injection E as E; subst; split; [constructor | reflexivity]).
  - destruct C as (V & I & A), C' as (V' & I' & A'). apply app_inv_head in E.
    cbn [said list_ascii_of_string app] in E. apply number_then in E; [| assumption || reflexivity ..]. destruct E as [X E].
    injection E as E. apply number_then in E; [| assumption || reflexivity ..]. destruct E as [Y E].
    injection E as E. apply number_then in E; [| assumption || reflexivity ..]. destruct E as [Z E].
    split; [now constructor | exact E].
  - destruct C as (A & B), C' as (A' & B'). apply app_inv_head in E.
    cbn [said list_ascii_of_string app] in E. apply number_then in E; [| assumption || reflexivity ..]. destruct E as [X E].
    injection E as E. apply number_then in E; [| assumption || reflexivity ..]. destruct E as [Y E].
    split; [now constructor | exact E].
Qed.

Lemma curves_like c c' : curve_doubles c -> curve_doubles c' -> curve_text c = curve_text c' -> like c c'.
Proof. intros C C' E. apply (curve_then c c' [] []); [assumption .. | now rewrite !app_nil_r]. Qed.

Lemma response_then q q' r r' : response_doubles q -> response_doubles q' -> response_text q ++ r = response_text q' ++ r' ->
  like (re_mu q) (re_mu q') /\ like (re_sigma q) (re_sigma q') /\ r = r'.
Proof.
  intros [M S] [M' S'] E. unfold response_text in E. rewrite <- !app_assoc in E. apply app_inv_head in E.
  apply curve_then in E; [| assumption ..]. destruct E as [X E]. apply app_inv_head in E.
  apply curve_then in E; [| assumption ..]. destruct E as [Y E]. apply app_inv_head in E. auto.
Qed.

Lemma demand_then d d' r r' : demand_doubles d -> demand_doubles d' -> demand_text d ++ r = demand_text d' ++ r' ->
  demands_like d d' /\ r = r'.
Proof.
  intros [M S] [M' S'] E. unfold demand_text, measure_text in E. rewrite <- !app_assoc in E. do 2 apply app_inv_head in E.
  apply curve_then in E; [| assumption ..]. destruct E as [X E]. do 2 apply app_inv_head in E.
  apply response_then in E; [| assumption ..]. destruct E as (Y & Z & E). apply app_inv_head in E.
  unfold demands_like. auto.
Qed.

Lemma demands_one d d' : demand_doubles d -> demand_doubles d' -> demand_text d = demand_text d' -> demands_like d d'.
Proof. intros D D' E. apply (demand_then d d' [] []); [assumption .. | now rewrite !app_nil_r]. Qed.

Section Dists.
Variable exp : F64 -> F64.
Hypothesis exp_double : forall x, double (exp x).

Lemma mean_double d : double (mean_of exp d).
Proof. destruct d as [mu sigma]. unfold mean_of. destruct (neqb F64 mu (S754_infinity true)); [reflexivity | apply exp_double]. Qed.

Lemma dist_then d d' r r' : double (snd d) -> double (snd d') -> dist_text exp d ++ r = dist_text exp d' ++ r' ->
  alike (mean_of exp d) (mean_of exp d') /\ alike (snd d) (snd d') /\ r = r'.
Proof.
  intros D D' E. unfold dist_text in E. rewrite <- !app_assoc in E. apply app_inv_head in E.
  cbn [said list_ascii_of_string app] in E. apply number_then in E; [| apply mean_double || reflexivity ..].
  destruct E as [X E]. injection E as E. apply number_then in E; [| assumption || reflexivity ..]. tauto.
Qed.

Lemma dists_then l : forall l' r r', Forall (fun d => double (snd d)) l -> Forall (fun d => double (snd d)) l' ->
  dists_text exp l ++ newline :: r = dists_text exp l' ++ newline :: r' -> dists_like (mean_of exp) l l' /\ r = r'.
Proof.
  induction l as [|d l IH]; intros [|d' l'] r r' L L' E; cbn [dists_text] in E; rewrite <- ?app_assoc in E.
  - cbn in E. injection E as E. split; [constructor | exact E].
  - cbn in E. discriminate E.
  - cbn in E. discriminate E.
  - inversion L; inversion L'; subst. apply dist_then in E; [| assumption ..]. destruct E as (X & Y & E).
    apply app_inv_head in E. apply IH in E; [| assumption ..]. destruct E as [F E].
    split; [constructor; [split; assumption | exact F] | exact E].
Qed.

Lemma fragility_then l l' r r' : Forall (fun d => double (snd d)) l -> Forall (fun d => double (snd d)) l' ->
  fragility_text exp l ++ r = fragility_text exp l' ++ r' -> dists_like (mean_of exp) l l' /\ r = r'.
Proof.
  intros L L' E. unfold fragility_text in E. rewrite <- !app_assoc in E. apply app_inv_head in E.
  now apply dists_then in E.
Qed.

Lemma fragilities_one l l' : Forall (fun d => double (snd d)) l -> Forall (fun d => double (snd d)) l' ->
  fragility_text exp l = fragility_text exp l' -> dists_like (mean_of exp) l l'.
Proof. intros L L' E. apply (fragility_then l l' [] []); [assumption .. | now rewrite !app_nil_r]. Qed.

Lemma loss_then l l' r r' : loss_doubles l -> loss_doubles l' ->
  loss_text exp l ++ r = loss_text exp l' ++ r' -> losses_like (mean_of exp) l l' /\ r = r'.
Proof.
  destruct l as [l|l], l' as [l'|l']; cbn [loss_doubles loss_text]; intros L L' E; rewrite <- !app_assoc in E.
  - apply app_inv_head in E. apply dists_then in E; [| assumption ..]. destruct E as [F E]. split; [now constructor | exact E].
  - cbn in E. discriminate E.
  - cbn in E. discriminate E.
  - do 2 apply app_inv_head in E. split; [constructor | exact E].
Qed.

Lemma losses_one l l' : loss_doubles l -> loss_doubles l' -> loss_text exp l = loss_text exp l' -> losses_like (mean_of exp) l l'.
Proof. intros L L' E. apply (loss_then l l' [] []); [assumption .. | now rewrite !app_nil_r]. Qed.

(** ** Groups *)

(** The last of a kind of character. *)
Lemma split_last (k : ascii) (a b x y : list ascii) : ~ In k x -> ~ In k y -> a ++ k :: x = b ++ k :: y -> a = b /\ x = y.
Proof.
  intros X Y E. apply (f_equal (@rev ascii)) in E. rewrite !rev_app_distr in E. cbn [rev] in E. rewrite <- !app_assoc in E.
  cbn [app] in E. apply split_at in E; [| rewrite <- in_rev; assumption ..]. destruct E as [E1 E2].
  split; apply (f_equal (@rev ascii)) in E1, E2; now rewrite !rev_involutive in *.
Qed.

Lemma without_app (k : ascii) a b : ~ In k a -> ~ In k b -> ~ In k (a ++ b).
Proof. intros A B I. apply in_app_or in I. tauto. Qed.

Lemma said_without k s : existsb (Ascii.eqb k) (said s) = false -> ~ In k (said s).
Proof.
  intros H I. assert (X : existsb (Ascii.eqb k) (said s) = true); [| congruence].
  apply existsb_exists. exists k. split; [exact I | apply Ascii.eqb_refl].
Qed.

Ltac without := repeat match goal with |- ~ In _ (_ ++ _) => apply without_app end; try (apply said_without; reflexivity); try (apply text_without; [assumption | reflexivity]).

Lemma curve_no_E c : curve_doubles c -> ~ In "E"%char (curve_text c).
Proof. destruct c; cbn [curve_doubles curve_text]; intros C; decompose [and] C; without. Qed.

Lemma dists_no_E l : Forall (fun d => double (snd d)) l -> ~ In "E"%char (dists_text exp l).
Proof.
  induction 1 as [|d l D L IH]; [intros [] |]. cbn [dists_text]. apply without_app; [| without; exact IH].
  unfold dist_text. without. apply text_without; [apply mean_double | reflexivity].
Qed.

Lemma newline_no_E : ~ In "E"%char [newline].
Proof. intros [H | []]. discriminate H. Qed.

Lemma fragility_no_E l : Forall (fun d => double (snd d)) l -> ~ In "E"%char (fragility_text exp l).
Proof. intros L. unfold fragility_text. without; [now apply dists_no_E | apply newline_no_E]. Qed.

Lemma loss_no_E l : loss_doubles l -> ~ In "E"%char (loss_text exp l).
Proof.
  destruct l; cbn [loss_doubles loss_text]; intros L; without; try apply newline_no_E. now apply dists_no_E.
Qed.

Lemma int_chars n : number_like (int_text n).
Proof.
  unfold int_text. destruct (Z.ltb_spec n 0).
  - constructor; [reflexivity |]. destruct (unsigned_number (- n)) as [R _]; [lia |]. now apply reads_allowed in R.
  - destruct (unsigned_number n) as [R _]; [lia |]. now apply reads_allowed in R.
Qed.

Lemma reads_not_minus r n : ~ reads ("-"%char :: r) n.
Proof. intros R. destruct (reads_first _ _ R) as (c & d & w & E & D); [discriminate |]. injection E as <- <-. inversion D. Qed.

Lemma int_one n m : int_text n = int_text m -> n = m.
Proof.
  unfold int_text. destruct (Z.ltb_spec n 0), (Z.ltb_spec m 0); intros E.
  - injection E as E. destruct (unsigned_number (- n)) as [R _]; [lia |]. destruct (unsigned_number (- m)) as [R' _]; [lia |].
    rewrite E in R. pose proof (reads_one _ _ R _ R'). lia.
  - destruct (unsigned_number m) as [R _]; [lia |]. rewrite <- E in R. now apply reads_not_minus in R.
  - destruct (unsigned_number n) as [R _]; [lia |]. rewrite E in R. now apply reads_not_minus in R.
  - destruct (unsigned_number n) as [R _]; [lia |]. destruct (unsigned_number m) as [R' _]; [lia |].
    rewrite E in R. exact (reads_one _ _ R _ R').
Qed.

Lemma said_one s s' : said s = said s' -> s = s'.
Proof. intros E. rewrite <- (string_of_list_ascii_of_string s), <- (string_of_list_ascii_of_string s'). unfold said in E. now rewrite E. Qed.

Lemma groups_one g g' c d c' d' t :
  gr_cost g = Some c -> gr_delay g = Some d -> gr_cost g' = Some c' -> gr_delay g' = Some d' ->
  demand_doubles (gr_demand g) -> demand_doubles (gr_demand g') ->
  Forall (fun d => double (snd d)) (gr_states g) -> Forall (fun d => double (snd d)) (gr_states g') ->
  loss_doubles c -> loss_doubles d -> loss_doubles c' -> loss_doubles d' ->
  group_text exp g = Returns t -> group_text exp g' = Returns t ->
  gr_name g = gr_name g' /\ gr_count g = gr_count g' /\ demands_like (gr_demand g) (gr_demand g') /\
  dists_like (mean_of exp) (gr_states g) (gr_states g') /\ losses_like (mean_of exp) c c' /\ losses_like (mean_of exp) d d'.
Proof.
  intros C D C' D' M M' S S' LC LD LC' LD' T T'. unfold group_text in T, T'. rewrite C, D in T. rewrite C', D' in T'.
  assert (I : forall a b : list ascii, Returns a = Returns b -> a = b) by congruence. apply I in T, T'. rewrite <- T' in T.
  clear I T' t. rename T into E. apply app_inv_head in E.
  set (tl1 := said ", " ++ fragility_text exp (gr_states g) ++ said ", " ++ loss_text exp c ++ said ", " ++ loss_text exp d ++ [newline]) in *.
  set (tl2 := said ", " ++ fragility_text exp (gr_states g') ++ said ", " ++ loss_text exp c' ++ said ", " ++ loss_text exp d' ++ [newline]) in *.
  assert (N1 : ~ In "E"%char tl1).
  { unfold tl1. without; [now apply fragility_no_E | now apply loss_no_E .. | apply newline_no_E]. }
  assert (N2 : ~ In "E"%char tl2).
  { unfold tl2. without; [now apply fragility_no_E | now apply loss_no_E .. | apply newline_no_E]. }
  assert (H : forall e, demand_doubles e ->
     exists w, demand_text e = "E"%char :: w /\ ~ In "E"%char w).
  { intros e (A & B & B'). eexists. split; [unfold demand_text; cbn [said list_ascii_of_string app]; reflexivity |].
    change (~ In "E"%char (said "DP((" ++ measure_text (de_measure e) ++ said ", " ++ response_text (de_first e) ++ said ")")).
    unfold measure_text, response_text. without; now apply curve_no_E. }
  destruct (H _ M) as (w & W & NW), (H _ M') as (w' & W' & NW').
  assert (Q : (said (gr_name g) ++ said ": " ++ int_text (gr_count g) ++ said ", ") ++ "E"%char :: (w ++ tl1) =
              (said (gr_name g') ++ said ": " ++ int_text (gr_count g') ++ said ", ") ++ "E"%char :: (w' ++ tl2)).
  { rewrite !app_comm_cons, <- W, <- W', <- !app_assoc. exact E. }
  apply split_last in Q; [| now apply without_app ..]. destruct Q as [Q1 Q2].
  assert (R : demand_text (gr_demand g) ++ tl1 = demand_text (gr_demand g') ++ tl2) by (rewrite W, W'; cbn [app]; now rewrite Q2).
  apply demand_then in R; [| assumption ..]. destruct R as [DL R]. unfold tl1, tl2 in R. apply app_inv_head in R.
  apply fragility_then in R; [| assumption ..]. destruct R as [FL R]. apply app_inv_head in R.
  apply loss_then in R; [| assumption ..]. destruct R as [CL R]. apply app_inv_head in R.
  apply loss_then in R; [| assumption ..]. destruct R as [DeL _].
  rewrite !app_assoc in Q1. apply app_inv_tail in Q1. rewrite <- !app_assoc in Q1.
  assert (Q : (said (gr_name g) ++ [":"%char]) ++ " "%char :: int_text (gr_count g) =
              (said (gr_name g') ++ [":"%char]) ++ " "%char :: int_text (gr_count g')) by (rewrite <- !app_assoc; exact Q1).
  apply split_last in Q; [| apply like_without; [apply int_chars | reflexivity] ..]. destruct Q as [Q3 Q4].
  apply app_inv_tail in Q3. apply said_one in Q3. apply int_one in Q4. tauto.
Qed.

(** Which groups can be written. *)
Lemma group_written g : (exists t, group_text exp g = Returns t) <-> gr_cost g <> None /\ gr_delay g <> None.
Proof.
  unfold group_text. destruct (gr_cost g), (gr_delay g); split; try (intros [t H]; discriminate); try (intros [H H']; congruence).
  - intros _. split; discriminate.
  - intros _. eexists. reflexivity.
Qed.

Lemma group_fails g : gr_cost g = None \/ gr_delay g = None -> group_text exp g = Undefined.
Proof. unfold group_text. intros [-> | ->]; [reflexivity | now destruct (gr_cost g)]. Qed.

(** ** Brackets *)

Lemma times_app k a b : times k (a ++ b) = (times k a + times k b)%nat.
Proof. apply count_occ_app. Qed.

Lemma times_number k x : double x -> allowed k = false -> times k (double_text x) = O.
Proof. intros D K. apply count_occ_not_In. now apply text_without. Qed.

Lemma curve_balanced c : curve_doubles c -> times "(" (curve_text c) = times ")" (curve_text c).
Proof.
  destruct c; cbn [curve_doubles curve_text]; intros C; decompose [and] C; rewrite ?times_app, ?times_number by (assumption || reflexivity);
  reflexivity.
Qed.

Lemma dist_balanced d : double (snd d) -> times "(" (dist_text exp d) = times ")" (dist_text exp d).
Proof.
  intros D. unfold dist_text. rewrite !times_app, !times_number by (apply mean_double || assumption || reflexivity). reflexivity.
Qed.

Lemma response_balanced r : response_doubles r -> times "(" (response_text r) = times ")" (response_text r).
Proof.
  intros [M S]. unfold response_text. rewrite !times_app, (curve_balanced _ M), (curve_balanced _ S).
  cbn [said list_ascii_of_string]. unfold times at 1 3 5 6 8 10. cbn. lia.
Qed.

Lemma demand_unbalanced d : demand_doubles d -> times "(" (demand_text d) = S (times ")" (demand_text d)).
Proof.
  intros [M R]. unfold demand_text, measure_text. rewrite !times_app, (curve_balanced _ M), (response_balanced _ R).
  set (a := times ")" (curve_text _)). set (b := times ")" (response_text _)). cbn. lia.
Qed.

End Dists.

(** ** What is not told *)

Lemma refute_tables : exists p p' x y y', curve_text (Linear p) = curve_text (Linear p') /\
  In (x, y) p /\ In (x, y') p' /\ ~ alike y y'.
Proof.
  exists [(f64_ofZ 1, f64_ofZ 1); (f64_ofZ 2, f64_ofZ 2)], [(f64_ofZ 1, f64_ofZ 1); (f64_ofZ 2, f64_ofZ 3)], (f64_ofZ 2), (f64_ofZ 2), (f64_ofZ 3).
  split; [reflexivity |]. split; [cbn; auto |]. split; [cbn; auto |].
  intros [H | (s & m & e & n & f & E & F & B)]; [vm_compute in H; discriminate |].
  assert (X : SF2R radix2 (f64_ofZ 2) = 2%R) by (vm_compute (f64_ofZ 2); cbn; unfold F2R; cbn; lra).
  assert (Y : SF2R radix2 (f64_ofZ 3) = 3%R) by (vm_compute (f64_ofZ 3); cbn; unfold F2R; cbn; lra).
  rewrite X, Y in B. rewrite (Rabs_left (2 - 3)), (Rabs_pos_eq 2), (Rabs_pos_eq 3) in B by lra. lra.
Qed.

Lemma tables_one p p' : curve_text (Linear p) = curve_text (Linear p') /\ curve_text (LogLog p) = curve_text (LogLog p').
Proof. split; reflexivity. Qed.

Lemma kinds_one m s k k' w w' : response_text (Response m k s w) = response_text (Response m k' s w').
Proof. reflexivity. Qed.

Lemma demands_silent m r r2 r2' col col' dem dem' :
  demand_text (Demand (Measure m col dem) r r2) = demand_text (Demand (Measure m col' dem') r r2').
Proof. reflexivity. Qed.

Lemma levels_one exp l l' : loss_text exp (BiLevel l) = loss_text exp (BiLevel l').
Proof. reflexivity. Qed.

Lemma refute_same :
  (exists p p' x y y', curve_text (Linear p) = curve_text (Linear p') /\ In (x, y) p /\ In (x, y') p' /\ ~ alike y y') /\
  (exists r r', response_text r = response_text r' /\ re_centre r <> re_centre r' /\ re_width r <> re_width r') /\
  (exists d d', demand_text d = demand_text d' /\ de_second d <> de_second d' /\
     me_collapse (de_measure d) <> me_collapse (de_measure d') /\ me_demolition (de_measure d) <> me_demolition (de_measure d')) /\
  (exists l l', (forall exp, loss_text exp (BiLevel l) = loss_text exp (BiLevel l')) /\ List.length l <> List.length l').
Proof.
  set (r := Response (Power (f64_ofZ 1) (f64_ofZ 1)) MEAN_X (Power (f64_ofZ 1) (f64_ofZ 1)) SIGMA_LN_X).
  set (z := (f64_ofZ 0, f64_ofZ 1)).
  split; [exact refute_tables |]. split; [| split].
  - exists r, (Response (re_mu r) MEDIAN_X (re_sigma r) SIGMA_X). repeat split; discriminate.
  - exists (Demand (Measure Basic None None) r None), (Demand (Measure Basic (Some z) (Some z)) r (Some r)).
    repeat split; discriminate.
  - exists [], [Two 1 2 (f64_ofZ 2) (f64_ofZ 1) (f64_ofZ 0)]. split; [reflexivity | discriminate].
Qed.

Lemma refute_written : exists g : group, gr_cost g <> None /\ forall exp, group_text exp g = Undefined.
Proof.
  exists (Group "g" 1 (Demand (Measure Basic None None) (Response Basic MEAN_X Basic SIGMA_LN_X) None) [] (Some (BiLevel [])) None).
  split; [discriminate | reflexivity].
Qed.
