(** * Proofs about what the library writes of its objects (C97) *)
From Coq Require Import ZArith Bool Ascii String List Reals Floats.SpecFloat Lia Lra.
From Flocq Require Import Core BinarySingleNaN.
From Verif Require Import Num Maq Report Damage Spread Double_spec Report_spec Report_proofs Report_proofs2 Report_proofs3
  Shown Shown_spec.
Import ListNotations.
Local Open Scope list_scope.
Local Open Scope Z_scope.

(** ** Characters of numbers *)

Definition allowed (c : ascii) : bool := existsb (Ascii.eqb c) (said "0123456789.e+-infa").
Definition number_like (t : list ascii) : Prop := Forall (fun c => allowed c = true) t.

Lemma digit_allowed c d : is_digit c d -> allowed c = true.
Proof. intros []; reflexivity. Qed.

Lemma reads_allowed s n : reads s n -> number_like s.
Proof.
  induction 1 as [|s n c d R IH D]; [constructor |]. apply Forall_app. split; [exact IH |].
  constructor; [now apply digit_allowed with d | constructor].
Qed.

Lemma plain_allowed s v : plain s v -> number_like s.
Proof.
  intros [s' n [R _] | a x b y [R _] R' _]; [now apply reads_allowed with n |].
  apply Forall_app. split; [now apply reads_allowed with x |]. constructor; [reflexivity | now apply reads_allowed with y].
Qed.

Lemma decimal_allowed s v : decimal s v -> number_like s.
Proof.
  intros [s' v' P | s' v' t n P R _ | s' v' t n P R _]; [now apply plain_allowed with v' | ..];
  (apply Forall_app; split; [now apply plain_allowed with v' |]; repeat (constructor; [reflexivity |]); now apply reads_allowed with n).
Qed.

Lemma read_allowed t x : number_read t x -> number_like t.
Proof.
  assert (S : forall s t, number_like t -> number_like (signed s t)).
  { intros [] w H; [constructor; [reflexivity | exact H] | exact H]. }
  intros [s | s | | s w v m e D _]; [apply S | apply S | | apply S]; try (repeat (constructor; [reflexivity |]); constructor).
  now apply decimal_allowed with v.
Qed.

Lemma like_without t k : number_like t -> allowed k = false -> ~ In k t.
Proof. intros H K I. unfold number_like in H. rewrite Forall_forall in H. apply H in I. congruence. Qed.

(** ** Numbers *)

Lemma double_read x : double x -> number_read (double_text x) x.
Proof.
  destruct x as [s | s | | s m e]; intros D.
  - destruct s; [exact (read_nought true) | exact (read_nought false)].
  - destruct s; [exact (read_infinite true) | exact (read_infinite false)].
  - exact read_none.
  - assert (D' : double (S754_finite false m e)) by exact D.
    destruct (finite_text m e D') as (v & V & B).
    assert (E : double_text (S754_finite s m e) = signed s (double_text (S754_finite false m e))) by (destruct s; reflexivity).
    rewrite E. apply read_finite with v; assumption.
Qed.

Lemma reads_first s n : reads s n -> s <> [] -> exists c d r, s = c :: r /\ is_digit c d.
Proof.
  induction 1 as [|s n c d R IH D]; [congruence |]. intros _. destruct s as [|a s].
  - exists c, d, []. auto.
  - destruct IH as (c' & d' & r & E & D'); [discriminate |]. injection E as -> ->. exists c', d', (r ++ [c]). auto.
Qed.

Lemma plain_first s v : plain s v -> exists c d r, s = c :: r /\ is_digit c d.
Proof.
  intros [s' n (R & N & _) | a x b y (R & N & _) _ _]; destruct (reads_first _ _ R N) as (c & d & r & -> & D).
  - eauto.
  - exists c, d, (r ++ "."%char :: b). auto.
Qed.

Lemma decimal_first s v : decimal s v -> exists c d r, s = c :: r /\ is_digit c d.
Proof.
  intros [s' v' P | s' v' t n P _ _ | s' v' t n P _ _]; destruct (plain_first _ _ P) as (c & d & r & -> & D); cbn [app]; eauto 6.
Qed.

Lemma signed_one s s' t t' :
  (forall r, t <> "-"%char :: r) -> (forall r, t' <> "-"%char :: r) -> signed s t = signed s' t' -> s = s' /\ t = t'.
Proof.
  intros T T' E. destruct s, s'; cbn in E; [injection E as -> | symmetry in E | | ]; try (exfalso; eapply T + eapply T'; eassumption); auto.
Qed.

Lemma decimal_unsigned s v : decimal s v -> forall r, s <> "-"%char :: r.
Proof. intros D r ->. destruct (decimal_first _ _ D) as (c & d & w & E & X). injection E as <- <-. inversion X. Qed.

Lemma number_nought : number ["0"%char] 0.
Proof.
  split; [| split; [discriminate | intros r E; now injection E as <-]].
  change 0 with (10 * 0 + 0). apply (reads_next [] 0 "0"%char 0); [constructor | constructor].
Qed.

Lemma finite_pos m e : (0 < SF2R radix2 (S754_finite false m e))%R.
Proof. cbn. apply F2R_gt_0. cbn. lia. Qed.

Lemma nought_apart m e v : decimal ["0"%char] v ->
  (Rabs (v - SF2R radix2 (S754_finite false m e)) <= SF2R radix2 (S754_finite false m e) * (5 / 1000000))%R -> False.
Proof.
  intros D. rewrite (decimal_one _ _ 0%R D); [| exact (decimal_plain _ _ (plain_whole _ _ number_nought))].
  pose proof (finite_pos m e) as P. rewrite Rminus_0_l, Rabs_Ropp, Rabs_pos_eq by lra. lra.
Qed.

Lemma sign_R s m e : SF2R radix2 (S754_finite s m e) = ((if s then -1 else 1) * SF2R radix2 (S754_finite false m e))%R.
Proof.
  destruct s; cbn [SF2R cond_Zopp]; unfold F2R; cbn [Fnum Fexp]; [| ring].
  rewrite opp_IZR. ring.
Qed.

(** What stands after the sign. *)
Definition body (s : bool) (w : list ascii) (x : F64) : Prop :=
  (w = ["0"%char] /\ x = S754_zero s) \/ (w = ["i"; "n"; "f"]%char /\ x = S754_infinity s) \/
  (w = ["n"; "a"; "n"]%char /\ x = S754_nan) \/
  exists v m e, decimal w v /\ x = S754_finite s m e /\
    (Rabs (v - SF2R radix2 (S754_finite false m e)) <= SF2R radix2 (S754_finite false m e) * (5 / 1000000))%R.

Lemma read_body t x : number_read t x -> exists s w, t = signed s w /\ body s w x /\ forall r, w <> "-"%char :: r.
Proof.
  unfold body. intros [s | s | | s w v m e D B].
  - exists s, ["0"%char]. split; [reflexivity | split; [auto | discriminate]].
  - exists s, ["i"; "n"; "f"]%char. split; [reflexivity | split; [auto | discriminate]].
  - exists false, ["n"; "a"; "n"]%char. split; [reflexivity | split; [auto | discriminate]].
  - exists s, w. split; [reflexivity | split; [right; right; right; eauto 6 | now apply decimal_unsigned with v]].
Qed.

Lemma finite_alike s w m e v m' e' v' : decimal w v -> decimal w v' ->
  (Rabs (v - SF2R radix2 (S754_finite false m e)) <= SF2R radix2 (S754_finite false m e) * (5 / 1000000))%R ->
  (Rabs (v' - SF2R radix2 (S754_finite false m' e')) <= SF2R radix2 (S754_finite false m' e') * (5 / 1000000))%R ->
  alike (S754_finite s m e) (S754_finite s m' e').
Proof.
  intros D D' B B'. right. exists s, m, e, m', e'. split; [reflexivity | split; [reflexivity |]].
  rewrite (decimal_one _ _ _ D D') in B. rewrite (sign_R s m e), (sign_R s m' e').
  pose proof (finite_pos m e) as P. pose proof (finite_pos m' e') as P'.
  set (a := SF2R radix2 (S754_finite false m e)) in *. set (b := SF2R radix2 (S754_finite false m' e')) in *.
  apply Rabs_le_inv in B. apply Rabs_le_inv in B'.
  assert (S : Rabs (if s then -1 else 1) = 1%R) by (destruct s; [rewrite Rabs_left by lra; ring | apply Rabs_pos_eq; lra]).
  rewrite <- Rmult_minus_distr_l, !Rabs_mult, S, !Rmult_1_l, (Rabs_pos_eq a), (Rabs_pos_eq b) by lra.
  apply Rabs_le. lra.
Qed.

Lemma not_first k r v : (forall d, ~ is_digit k d) -> ~ decimal (k :: r) v.
Proof. intros K D. destruct (decimal_first _ _ D) as (c & d & w & E & X). injection E as <- <-. now apply K in X. Qed.

Lemma no_n d : ~ is_digit "n" d. Proof. intros H; inversion H. Qed.

Lemma read_one t x y : number_read t x -> number_read t y -> alike x y.
Proof.
  intros X Y. apply read_body in X. apply read_body in Y. destruct X as (s & w & -> & X & U), Y as (s' & w' & E & Y & U').
  apply signed_one in E; [| assumption ..]. destruct E as [<- <-].
  destruct X as [[W ->] | [[W ->] | [[W ->] | (v & m & e & D & -> & B)]]];
  destruct Y as [[W' ->] | [[W' ->] | [[W' ->] | (v' & m' & e' & D' & -> & B')]]];
  try (now left); try congruence; try (rewrite W in *); try (rewrite W' in *).
  - destruct (nought_apart _ _ _ D' B').
  - now apply not_first in D'; [| exact no_i].
  - now apply not_first in D'; [| exact no_n].
  - destruct (nought_apart _ _ _ D B).
  - now apply not_first in D; [| exact no_i].
  - now apply not_first in D; [| exact no_n].
  - now apply finite_alike with w v v'.
Qed.

Lemma texts_alike x y : double x -> double y -> double_text x = double_text y -> alike x y.
Proof. intros X Y E. apply double_read in X. apply double_read in Y. rewrite <- E in Y. now apply read_one with (double_text x). Qed.

Lemma text_without x k : double x -> allowed k = false -> ~ In k (double_text x).
Proof. intros D K. apply like_without; [| exact K]. now apply read_allowed with x, double_read. Qed.

(** A number and a character that is in none. *)
Lemma number_then k x y r r' : double x -> double y -> allowed k = false ->
  double_text x ++ k :: r = double_text y ++ k :: r' -> alike x y /\ r = r'.
Proof.
  intros X Y K E. apply split_at in E; [| now apply text_without ..]. destruct E as [E <-].
  split; [now apply texts_alike | reflexivity].
Qed.
