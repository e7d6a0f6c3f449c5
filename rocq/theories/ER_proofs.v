(** * Lemmas about the extended reals *)
From Coq Require Import ZArith Reals Bool Lra Lia.
From Verif Require Import Num Maq_spec ER Maq_search_proofs.
Local Open Scope R_scope.

Lemma Rltb_true : forall a b, Rltb a b = true <-> a < b.
Proof. intros a b. unfold Rltb. destruct (Rlt_dec a b); split; intros; try assumption; try discriminate; auto; lra. Qed.
Lemma Rltb_false : forall a b, Rltb a b = false <-> b <= a.
Proof. intros a b. unfold Rltb. destruct (Rlt_dec a b); split; intros; try discriminate; auto; lra. Qed.
Lemma Rleb_true : forall a b, Rleb a b = true <-> a <= b.
Proof. intros a b. unfold Rleb. destruct (Rle_dec a b); split; intros; try assumption; try discriminate; auto; lra. Qed.
Lemma Rleb_false : forall a b, Rleb a b = false <-> b < a.
Proof. intros a b. unfold Rleb. destruct (Rle_dec a b); split; intros; try discriminate; auto; lra. Qed.
Lemma Reqb_true : forall a b, Reqb a b = true <-> a = b.
Proof. intros a b. unfold Reqb. destruct (Req_EM_T a b); split; intros; try discriminate; auto; contradiction. Qed.
Lemma Reqb_false : forall a b, Reqb a b = false <-> a <> b.
Proof. intros a b. unfold Reqb. destruct (Req_EM_T a b); split; intros; try discriminate; auto; contradiction. Qed.

Lemma ER_order_ok : order_ok ER.
Proof.
  intros x y. cbn [nltb nleb ER]. destruct x, y; cbn; try discriminate; auto.
  intros H. apply Rltb_true in H. apply Rleb_false. exact H.
Qed.

Lemma er_div_fin : forall x y, y <> 0 -> er_div (Fin x) (Fin y) = Fin (x / y).
Proof. intros x y H. cbn. apply Reqb_false in H. rewrite H. reflexivity. Qed.

Lemma er_sub_fin : forall x y, er_sub (Fin x) (Fin y) = Fin (x - y).
Proof. reflexivity. Qed.
