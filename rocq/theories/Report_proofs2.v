(** * Proofs about the report on integrations (C93) *)
From Coq Require Import ZArith Bool Ascii String List Reals Floats.SpecFloat Lia Lra.
From Flocq Require Import Core BinarySingleNaN.
From Verif Require Import Num Maq Report Double_spec Report_spec Report_proofs.
Import ListNotations.
Local Open Scope list_scope.
Local Open Scope Z_scope.

Notation nl := (ascii_of_nat 10).

(** ** The tolerance *)

Lemma finite_bounds m e : double (S754_finite false m e) ->
  -1074 <= e <= 971 /\ Zpos m < 2 ^ 53.
Proof.
  unfold double. cbn [valid_binary]. unfold bounded, canonical_mantissa. intros H.
  apply andb_prop in H; destruct H as [H1 H2]. apply Zeq_bool_eq in H1. apply Zle_bool_imp_le in H2.
  unfold fexp, emin in H1. split; [lia|].
  assert (D : Zpos (digits2_pos m) <= 53) by lia.
  rewrite Digits.Zpos_digits2_pos in D.
  pose proof (Digits.Zdigits_correct radix2 (Zpos m)) as C. destruct C as [_ C]. rewrite Z.abs_eq in C by lia.
  eapply Z.lt_le_trans; [exact C|]. apply (Zpower_le radix2). exact D.
Qed.

Lemma finite_text m e : double (S754_finite false m e) ->
  exists v, decimal (double_text (S754_finite false m e)) v /\
    (Rabs (v - SF2R radix2 (S754_finite false m e)) <= SF2R radix2 (S754_finite false m e) * (5 / 1000000))%R.
Proof.
  intros D. destruct (finite_bounds m e D) as [E M]. cbn [double_text app SF2R cond_Zopp].
  unfold F2R. cbn [Fnum Fexp].
  destruct (0 <=? e) eqn:S.
  - apply Z.leb_le in S.
    assert (V : (IZR (Zpos m) * bpow radix2 e = IZR (Zpos m * 2 ^ e) / IZR 1)%R).
    { rewrite mult_IZR, (IZR_Zpower radix2) by exact S. field. }
    rewrite V. clear V. assert (P : 1 <= Zpos m * 2 ^ e) by (pose proof (Z.pow_pos_nonneg 2 e); nia).
    assert (U : Zpos m * 2 ^ e < 10 ^ 309).
    { apply Z.lt_trans with (2 ^ 53 * 2 ^ e); [apply Z.mul_lt_mono_pos_r; [apply Z.pow_pos_nonneg; lia | exact M] |].
      rewrite <- Z.pow_add_r by lia. apply Z.le_lt_trans with (2 ^ 1024); [apply Z.pow_le_mono_r; lia | apply Z.ltb_lt; vm_compute; reflexivity]. }
    apply general_ok; [lia | lia | |].
    + unfold Rdiv. rewrite Rinv_1, Rmult_1_r. apply Rle_trans with 1%R; [| now apply IZR_le].
      change (-324) with (- (324)). rewrite ten_neg, ten_Z by lia. rewrite <- Rinv_1. apply Rinv_le; [lra |]. apply IZR_le. apply Z.leb_le. vm_compute. reflexivity.
    + unfold Rdiv. rewrite Rinv_1, Rmult_1_r, ten_Z by lia. now apply IZR_lt.
  - apply Z.leb_gt in S.
    assert (Q : 0 < 2 ^ (- e)) by (apply Z.pow_pos_nonneg; lia).
    assert (V : (IZR (Zpos m) * bpow radix2 e = IZR (Zpos m) / IZR (2 ^ (- e)))%R).
    { unfold Rdiv. f_equal. rewrite (IZR_Zpower radix2) by lia. rewrite <- bpow_opp. f_equal. lia. }
    rewrite V. clear V.
    assert (Q' : (0 < IZR (2 ^ (- e)))%R) by (now apply IZR_lt).
    apply general_ok; [lia | exact Q | |].
    + change (-324) with (- (324)). rewrite ten_neg, ten_Z by lia.
      apply Rle_trans with (/ IZR (2 ^ (- e)))%R.
      * apply Rinv_le; [exact Q' | apply IZR_le].
        apply Z.le_trans with (2 ^ 1074); [apply Z.pow_le_mono_r; lia | apply Z.leb_le; vm_compute; reflexivity].
      * unfold Rdiv. rewrite <- (Rmult_1_l (/ IZR (2 ^ (- e)))) at 1. apply Rmult_le_compat_r; [now apply Rlt_le, Rinv_0_lt_compat |].
        apply IZR_le. lia.
    + rewrite ten_Z by lia. apply Rle_lt_trans with (IZR (Zpos m)).
      * unfold Rdiv. rewrite <- (Rmult_1_r (IZR (Zpos m))) at 2. apply Rmult_le_compat_l; [apply IZR_le; lia |].
        rewrite <- Rinv_1. apply Rinv_le; [lra | apply IZR_le; lia].
      * apply IZR_lt. apply Z.lt_trans with (2 ^ 53); [exact M | apply Z.ltb_lt; vm_compute; reflexivity].
Qed.

(** A tolerance that can be in force. *)
Definition good (x : F64) : Prop := double x /\ (x = S754_infinity false \/ exists m e, x = S754_finite false m e).

Lemma good_text x : good x -> tolerance_shown (double_text x) x.
Proof.
  intros [D [-> | (m & e & ->)]]; [left; split; reflexivity |]. right. now apply finite_text.
Qed.

(** ** Characters *)

Lemma is_digit_line c d : is_digit c d -> c <> nl.
Proof. intros [] H; vm_compute in H; discriminate H. Qed.

Lemma reads_line s n : reads s n -> ~ In nl s.
Proof.
  induction 1 as [|s n c d R IH D]; [intros [] |]. intros H. apply in_app_or in H.
  destruct H as [H | [H | []]]; [tauto |]. subst. exact (is_digit_line _ _ D eq_refl).
Qed.

Lemma number_line s n : number s n -> ~ In nl s.
Proof. intros [H _]. eapply reads_line; eassumption. Qed.

Lemma plain_line s v : plain s v -> ~ In nl s.
Proof.
  intros [s' n H | a x b y A B _]; [eapply number_line; eassumption |]. intros H.
  apply in_app_or in H. destruct H as [H | [H | H]];
  [exact (number_line _ _ A H) | vm_compute in H; discriminate H | exact (reads_line _ _ B H)].
Qed.

Lemma decimal_line s v : decimal s v -> ~ In nl s.
Proof.
  intros [s' v' H | s' v' t n A B _ | s' v' t n A B _]; [eapply plain_line; eassumption | |]; intros H;
  apply in_app_or in H; (destruct H as [H | [H | [H | H]]];
  [exact (plain_line _ _ A H) | vm_compute in H; discriminate H | vm_compute in H; discriminate H | exact (reads_line _ _ B H)]).
Qed.

Lemma tolerance_line s x : tolerance_shown s x -> ~ In nl s.
Proof.
  intros [[_ ->] | (v & D & _)]; [| eapply decimal_line; eassumption].
  intros H. vm_compute in H. repeat (destruct H as [H | H]; [discriminate H |]). exact H.
Qed.

(** ** Lines *)

Definition pre (label : string) : list ascii := list_ascii_of_string (label ++ ": ").
Definition line (e : string * list ascii) : list ascii := pre (fst e) ++ snd e.

(** A report of a heading and entries. *)
Definition sheet (h : list ascii) (es : list (string * list ascii)) : list ascii :=
  concat (map (fun l => l ++ [nl]) (h :: map line es)).

Fixpoint differs (a b : list ascii) : bool :=
  match a, b with
  | x :: a, y :: b => negb (Ascii.eqb x y) || differs a b
  | _, _ => false
  end.

Lemma differs_ok a : forall b r s, differs a b = true -> b ++ s <> a ++ r.
Proof.
  induction a as [|x a IH]; intros [|y b] r s H; cbn in H; try discriminate. intros E. cbn in E. injection E as E1 E2.
  subst. rewrite Ascii.eqb_refl in H. cbn in H. now apply IH in E2.
Qed.

Definition has (s : list ascii) : bool := existsb (Ascii.eqb nl) s.

Lemma has_not s : has s = false -> ~ In nl s.
Proof.
  intros H I. unfold has in H. assert (X : existsb (Ascii.eqb nl) s = true).
  { apply existsb_exists. exists nl. split; [exact I | apply Ascii.eqb_refl]. }
  congruence.
Qed.

Lemma sheet_shows h es b lab v a :
  es = b ++ (lab, v) :: a -> Forall (fun e => ~ In nl (snd e)) es ->
  has h || existsb (fun e => has (pre e)) (map fst es) = false ->
  differs (pre lab) h = true -> forallb (fun e => differs (pre lab) (pre e)) (map fst b ++ map fst a) = true ->
  shows (sheet h es) lab v.
Proof.
  intros E N P H F. exists (h :: map line b), (map line a). fold (pre lab).
  change (pre lab ++ v) with (line (lab, v)). split.
  - split.
    + subst es. unfold sheet. now rewrite map_app.
    + apply orb_false_elim in P; destruct P as [P1 P2].
      replace ((h :: map line b) ++ line (lab, v) :: map line a) with (h :: map line es) by (subst es; now rewrite map_app).
      constructor; [now apply has_not |]. apply Forall_map.
      apply Forall_forall. intros e I. rewrite Forall_forall in N. specialize (N e I).
      intros J. unfold line in J. apply in_app_or in J. destruct J as [J | J]; [| tauto].
      revert J. apply has_not. destruct (has (pre (fst e))) eqn:X; [| reflexivity].
      exfalso. assert (Y : existsb (fun e => has (pre e)) (map fst es) = true).
      { apply existsb_exists. exists (fst e). split; [now apply in_map | exact X]. }
      congruence.
  - intros l r I. cbn [app] in I. destruct I as [<- | I].
    + rewrite <- (app_nil_r h). now apply differs_ok.
    + rewrite <- map_app in I. apply in_map_iff in I. destruct I as (e & <- & I). unfold line.
      apply differs_ok. rewrite forallb_forall in F. apply F. rewrite <- map_app. now apply in_map.
Qed.

Definition entries (m : string) (w : list ascii) (ns : list Z) : list (string * list ascii) :=
  [("Search Algorithm"%string, list_ascii_of_string m); ("Tolerance"%string, w)] ++
  combine ["Integration Eval Limit"; "Search Eval Limit"; "Max Integration Evals"; "Integration Failures";
           "Total Integration Evals"; "Max Search Evals"; "Number Search Fails"; "Total Search Evals";
           "Number of Calls"; "Successes"; "NANs"]%string (map unsigned ns).

Lemma entry_line lab v : entry lab v = line (lab, v) ++ [nl].
Proof.
  unfold entry, line, pre. cbn [fst snd].
  assert (A : forall a b, list_ascii_of_string (a ++ b) = list_ascii_of_string a ++ list_ascii_of_string b)
    by (induction a as [|x a IH]; intros b; cbn; [reflexivity | now rewrite IH]).
  rewrite A. cbn [list_ascii_of_string]. rewrite <- !app_assoc. reflexivity.
Qed.

Lemma report_sheet c s :
  report_text c s = sheet (list_ascii_of_string "Integration Statistics:")
    (entries (method_name (co_method c)) (double_text (co_tolerance c))
       [co_eval_limit c; co_search_limit c; st_max_integration s; st_integration_fails s; st_integration_evals s;
        st_max_search s; st_search_fails s; st_search_evals s; st_calls s; st_successes s; st_nans s]).
Proof.
  unfold report_text, sheet, entries. cbn [map combine app concat]. rewrite !entry_line.
  rewrite <- !app_assoc, app_nil_r. reflexivity.
Qed.

(** What can be in force, and counted. *)
Definition sane (s : settings F64) (c : stats) : Prop :=
  good (set_tolerance s) /\
  Forall (fun z => 0 <= z)
    [set_eval_limit s; set_search_limit s; st_max_integration c; st_integration_fails c; st_integration_evals c;
     st_max_search c; st_search_fails c; st_search_evals c; st_calls c; st_successes c; st_nans c].

Lemma name_called m : method_name m = called m.
Proof. now destruct m. Qed.

Lemma report_reads s c co : sane s c -> reported (report_text (get_statistics s co) c) s c.
Proof.
  intros [G N]. rewrite report_sheet. cbn [get_statistics co_method co_tolerance co_eval_limit co_search_limit].
  assert (W := good_text _ G). rewrite name_called. unfold reported, counts.
  set (w := double_text (set_tolerance s)) in *. clearbody w.
  assert (C : has (list_ascii_of_string (called (set_method s))) = false) by (now destruct (set_method s)).
  set (cm := called (set_method s)) in *. clearbody cm.
  set (ns := [set_eval_limit s; set_search_limit s; st_max_integration c; st_integration_fails c; st_integration_evals c;
     st_max_search c; st_search_fails c; st_search_evals c; st_calls c; st_successes c; st_nans c]) in *.
  assert (X : Forall (fun e => ~ In nl (snd e)) (entries cm w ns)).
  { unfold entries. constructor; [now apply has_not |]. constructor; [eapply tolerance_line; eassumption |].
    unfold ns in *. cbn [map combine].
    repeat match goal with H : Forall _ (_ :: _) |- _ => inversion H; clear H; subst end.
    repeat (apply Forall_cons; [eapply number_line, unsigned_number; assumption |]). constructor. }
  assert (P : has (list_ascii_of_string "Integration Statistics:") || existsb (fun e => has (pre e)) (map fst (entries cm w ns)) = false)
    by (vm_compute; reflexivity).
  assert (U : Forall (fun z => number (unsigned z) z) ns) by (eapply Forall_impl; [| exact N]; intros z Hz; now apply unsigned_number).
  assert (K : forall k lab v, nth_error (entries cm w ns) k = Some (lab, v) ->
     differs (pre lab) (list_ascii_of_string "Integration Statistics:") = true ->
     forallb (fun e => differs (pre lab) (pre e)) (firstn k (map fst (entries cm w ns)) ++ skipn (S k) (map fst (entries cm w ns))) = true ->
     shows (sheet (list_ascii_of_string "Integration Statistics:") (entries cm w ns)) lab v).
  { intros k lab v E D F. apply sheet_shows with (b := firstn k (entries cm w ns)) (a := skipn (S k) (entries cm w ns)); auto.
    - assert (L : forall (A : Type) (l : list A) k x, nth_error l k = Some x -> l = firstn k l ++ x :: skipn (S k) l).
      { clear. intros A l. induction l as [|y l IH]; intros [|k] x H; cbn in H; try discriminate.
        - injection H as ->. reflexivity.
        - cbn [firstn app]. f_equal. now apply IH. }
      now apply L.
    - rewrite <- firstn_map, <- skipn_map. exact F. }
  unfold ns in U.
  repeat match goal with H : Forall (fun z => number _ _) (_ :: _) |- _ => inversion H; clear H; subst end.
  split; [apply (K 0%nat); reflexivity |].
  split; [exists w; split; [apply (K 1%nat); reflexivity | exact W] |].
  split; [eexists; split; [apply (K 2%nat); reflexivity | assumption] |].
  split; [eexists; split; [apply (K 3%nat); reflexivity | assumption] |].
  split; [eexists; split; [apply (K 4%nat); reflexivity | assumption] |].
  split; [eexists; split; [apply (K 5%nat); reflexivity | assumption] |].
  split; [eexists; split; [apply (K 6%nat); reflexivity | assumption] |].
  split; [eexists; split; [apply (K 7%nat); reflexivity | assumption] |].
  split; [eexists; split; [apply (K 8%nat); reflexivity | assumption] |].
  split; [eexists; split; [apply (K 9%nat); reflexivity | assumption] |].
  split; [eexists; split; [apply (K 10%nat); reflexivity | assumption] |].
  split; [eexists; split; [apply (K 11%nat); reflexivity | assumption] |].
  eexists; split; [apply (K 12%nat); reflexivity | assumption].
Qed.
