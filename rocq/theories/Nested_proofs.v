(** * Programs: their meaning is unique and total *)
From Coq Require Import List Bool Arith Lia.
From Verif Require Import Cache CVal Nested Nested_spec.
Import ListNotations.

Section P.
  Context {O V T : Type}.
  Notation prog := (@prog O V T).

  Lemma prog_ind' : forall (P : prog -> Prop),
    (forall r, P (Ret r)) ->
    (forall o v k, (forall a, P (k a)) -> P (Ask o v k)) ->
    (forall ps k, Forall P ps -> (forall rs, P (k rs)) -> P (Par ps k)) ->
    forall p, P p.
  Proof.
    intros P H1 H2 H3. fix IH 1. intros [r|o v k|ps k].
    - apply H1.
    - apply H2. intros a. apply IH.
    - apply H3; [|intros rs; apply IH].
      induction ps as [|p ps IHps]; constructor; [apply IH|exact IHps].
  Qed.

  (** The value of a program, given the values of the calls. *)
  Fixpoint eval (f : O -> V -> T) (p : prog) : T :=
    match p with
    | Ret r => r
    | Ask o v k => eval f (k (f o v))
    | Par ps k => eval f (k (map (eval f) ps))
    end.

  (** Its cost, given the values and the costs of the calls. *)
  Fixpoint cost (f : O -> V -> T) (c : O -> V -> nat) (p : prog) : nat :=
    match p with
    | Ret r => 1
    | Ask o v k => 2 + c o v + cost f c (k (f o v))
    | Par ps k => 2 + fold_right (fun n m => 1 + n + m) 0 (map (cost f c) ps) +
                  cost f c (k (map (eval f) ps))
    end.

  Lemma eval_ext : forall (P : O -> Prop) f g, (forall o v, P o -> f o v = g o v) ->
    forall p, asks_only P p -> eval f p = eval g p.
  Proof.
    intros P f g H. induction p as [r|o v k IH|ps k IHs IH] using prog_ind'; intros A;
      inversion A as [|o' v' k' Po Ak|ps' k' Aps Ak]; subst; cbn [eval].
    - reflexivity.
    - rewrite (H o v Po). apply IH. apply Ak.
    - assert (E : map (eval f) ps = map (eval g) ps).
      { clear - IHs Aps. induction ps as [|p ps IH]; [reflexivity|].
        inversion IHs; inversion Aps; subst. cbn [map]. f_equal; auto. }
      rewrite E. apply IH. apply Ak.
  Qed.

  Lemma cost_ext : forall (P : O -> Prop) f c d, (forall o v, P o -> c o v = d o v) ->
    forall p, asks_only P p -> cost f c p = cost f d p.
  Proof.
    intros P f c d H. induction p as [r|o v k IH|ps k IHs IH] using prog_ind'; intros A;
      inversion A as [|o' v' k' Po Ak|ps' k' Aps Ak]; subst; cbn [cost].
    - reflexivity.
    - rewrite (H o v Po), IH by apply Ak. reflexivity.
    - assert (E : map (cost f c) ps = map (cost f d) ps).
      { clear - IHs Aps. induction ps as [|p ps IH]; [reflexivity|].
        inversion IHs; inversion Aps; subst. cbn [map]. f_equal; auto. }
      rewrite E, IH by apply Ak. reflexivity.
  Qed.

  Lemma asks_weaken : forall (P Q : O -> Prop), (forall o, P o -> Q o) ->
    forall p : prog, asks_only P p -> asks_only Q p.
  Proof.
    intros P Q H. induction p as [r|o v k IH|ps k IHs IH] using prog_ind'; intros A;
      inversion A as [|o' v' k' Po Ak|ps' k' Aps Ak]; subst; constructor; auto.
    clear - IHs Aps. induction ps as [|p ps IH]; constructor;
      inversion IHs; inversion Aps; subst; auto.
  Qed.

  Variable body : O -> V -> prog.
  Variable uses : O -> O -> Prop.
  Variable h : O -> nat.
  Variable dflt : T.
  Hypothesis Hf : follows body uses.
  Hypothesis Hh : forall o o', uses o o' -> h o' < h o.

  Lemma body_below : forall o v, asks_only (fun o' => h o' < h o) (body o v).
  Proof. intros o v. eapply asks_weaken; [|apply Hf]. intros o' U. apply Hh. exact U. Qed.

  Fixpoint meaning (n : nat) (o : O) (v : V) : T :=
    match n with 0 => dflt | S m => eval (meaning m) (body o v) end.
  Definition fn (o : O) (v : V) : T := meaning (S (h o)) o v.

  Lemma meaning_enough : forall n n' o v, h o < n -> h o < n' -> meaning n o v = meaning n' o v.
  Proof.
    induction n as [|n IH]; intros n' o v H1 H2; [lia|]. destruct n' as [|n']; [lia|].
    cbn [meaning]. apply (eval_ext (fun o' => h o' < h o)); [|apply body_below].
    intros o' v' Ho. apply IH; lia.
  Qed.

  Lemma fn_eq : forall o v, fn o v = eval fn (body o v).
  Proof.
    intros o v. unfold fn at 1. cbn [meaning]. apply (eval_ext (fun o' => h o' < h o)); [|apply body_below].
    intros o' v' Ho. unfold fn. apply meaning_enough; lia.
  Qed.

  Fixpoint costs (n : nat) (o : O) (v : V) : nat :=
    match n with 0 => 0 | S m => 20 + cost fn (costs m) (body o v) end.
  Definition cs (o : O) (v : V) : nat := costs (S (h o)) o v.

  Lemma costs_enough : forall n n' o v, h o < n -> h o < n' -> costs n o v = costs n' o v.
  Proof.
    induction n as [|n IH]; intros n' o v H1 H2; [lia|]. destruct n' as [|n']; [lia|].
    cbn [costs]. apply (f_equal (Nat.add 20)). apply (cost_ext (fun o' => h o' < h o)); [|apply body_below].
    intros o' v' Ho. apply IH; lia.
  Qed.

  Lemma cs_eq : forall o v, cs o v = 20 + cost fn cs (body o v).
  Proof.
    intros o v. unfold cs at 1. cbn [costs]. apply (f_equal (Nat.add 20)).
    apply (cost_ext (fun o' => h o' < h o)); [|apply body_below].
    intros o' v' Ho. unfold cs. apply costs_enough; lia.
  Qed.

  Lemma means_eval : forall (P : O -> Prop), (forall o v, P o -> means body (body o v) (fn o v)) ->
    forall p, asks_only P p -> means body p (eval fn p).
  Proof.
    intros P H. induction p as [r|o v k IH|ps k IHs IH] using prog_ind'; intros A;
      inversion A as [|o' v' k' Po Ak|ps' k' Aps Ak]; subst; cbn [eval].
    - constructor.
    - econstructor; [apply H; exact Po|]. apply IH. apply Ak.
    - econstructor; [|apply IH; apply Ak].
      clear - IHs Aps. induction ps as [|p ps IH]; cbn [map]; constructor;
        inversion IHs; inversion Aps; subst; auto.
  Qed.

  Lemma means_fn : forall o v, means body (body o v) (fn o v).
  Proof.
    assert (H : forall n o v, h o < n -> means body (body o v) (fn o v)).
    { induction n as [|n IH]; intros o v Ho; [lia|]. rewrite fn_eq.
      apply (means_eval (fun o' => h o' < h o)); [|apply body_below].
      intros o' v' Ho'. apply IH. lia. }
    intros o v. apply (H (S (h o))). lia.
  Qed.

  Lemma means_all : forall p, means body p (eval fn p).
  Proof.
    induction p as [r|o v k IH|ps k IHs IH] using prog_ind'; cbn [eval].
    - constructor.
    - econstructor; [apply means_fn|apply IH].
    - econstructor; [|apply IH]. clear - IHs. induction IHs; cbn [map]; constructor; auto.
  Qed.
End P.

(** ** The meaning is unique *)

Lemma means_ind' : forall {O V T} (body : O -> V -> @prog O V T) (P : @prog O V T -> T -> Prop),
  (forall r, P (Ret r) r) ->
  (forall o v k a r, means body (body o v) a -> P (body o v) a -> P (k a) r -> P (Ask o v k) r) ->
  (forall ps k rs r, Forall2 (means body) ps rs -> Forall2 P ps rs -> P (k rs) r -> P (Par ps k) r) ->
  forall p r, means body p r -> P p r.
Proof.
  intros O V T body P H1 H2 H3. fix IH 3. intros p r [r0|o v k a r0 Ma Mk|ps k rs r0 Ms Mk].
  - apply H1.
  - apply (H2 o v k a r0 Ma); [apply IH; exact Ma|apply IH; exact Mk].
  - apply (H3 ps k rs r0 Ms); [|apply IH; exact Mk].
    clear Mk. revert ps rs Ms. fix go 3. intros ps rs [|x y l l' Mx Ml]; constructor; [apply IH; exact Mx|apply go; exact Ml].
Qed.

Lemma means_unique : forall {O V T} (body : O -> V -> @prog O V T) p r, means body p r ->
  forall r', means body p r' -> r = r'.
Proof.
  intros O V T body. apply (means_ind' body (fun p r => forall r', means body p r' -> r = r')).
  - intros r r' M. inversion M. reflexivity.
  - intros o v k a r _ IHa IHk r' M. inversion M as [|o' v' k' a' r0 Ma Mk|]; subst.
    rewrite (IHa a' Ma) in IHk. apply IHk. exact Mk.
  - intros ps k rs r _ IHs IHk r' M. inversion M as [| |ps' k' rs' r0 Ms Mk]; subst.
    assert (E : rs = rs').
    { clear - IHs Ms. revert rs' Ms. induction IHs as [|x y l l' Hx Hl IH]; intros rs' Ms;
        inversion Ms; subst; f_equal; auto. }
    subst. apply IHk. exact Mk.
Qed.
