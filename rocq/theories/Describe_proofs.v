From Coq Require Import ZArith Ascii String List Bool DecimalString DecimalZ Lia.
From Verif Require Import Paths Paths_spec Paths_proofs Describe Describe_spec.
Import ListNotations.
Local Open Scope string_scope.

Lemma sapp_assoc : forall a b c : string, (a ++ b) ++ c = a ++ (b ++ c).
Proof. induction a; intros; cbn; [reflexivity|]. now rewrite IHa. Qed.

Lemma sapp_nil : forall a : string, a ++ "" = a.
Proof. induction a; cbn; [reflexivity|]. now rewrite IHa. Qed.

Lemma length_sapp : forall a b, String.length (a ++ b) = String.length a + String.length b.
Proof. induction a; intros; cbn; [reflexivity|]. now rewrite IHa. Qed.

Lemma sapp_cancel : forall a b c : string, a ++ c = b ++ c -> a = b.
Proof.
  intros a b c H. assert (L : String.length a = String.length b).
  { apply (f_equal String.length) in H. rewrite !length_sapp in H. lia. }
  revert b H L. induction a as [|x a IH]; intros [|y b] H L; cbn in *; try discriminate; auto.
  injection H as -> H. f_equal. apply IH; auto.
Qed.

Lemma every_app : forall p a b, every p (a ++ b) = every p a && every p b.
Proof. induction a; intros; cbn; [reflexivity|]. rewrite IHa. now rewrite andb_assoc. Qed.

(** What follows a text of the characters [p]. *)
Definition stops (p : ascii -> bool) (s : string) : Prop :=
  match s with EmptyString => True | String c _ => p c = false end.

Lemma every_cut : forall p a b r r', every p a = true -> every p b = true -> stops p r -> stops p r' ->
  a ++ r = b ++ r' -> a = b /\ r = r'.
Proof.
  intros p. induction a as [|x a IH]; intros [|y b] r r' Ha Hb Hr Hr' H; cbn in *; auto.
  - subst r. cbn in Hr. rewrite Hr in Hb. discriminate.
  - subst r'. cbn in Hr'. rewrite Hr' in Ha. discriminate.
  - injection H as -> H. apply andb_true_iff in Ha, Hb. destruct (IH b r r' (proj2 Ha) (proj2 Hb) Hr Hr' H) as [-> ->]. auto.
Qed.

Lemma plain_cut : forall a b r r', plain a -> plain b -> stops wordy r -> stops wordy r' -> a ++ r = b ++ r' -> a = b /\ r = r'.
Proof. intros a b r r' [_ Ha] [_ Hb]. apply every_cut; auto. Qed.

Lemma quoted_cut : forall a b r r', quoteless a -> quoteless b -> quoted a ++ r = quoted b ++ r' -> a = b /\ r = r'.
Proof.
  intros a b r r' Ha Hb H. unfold quoted in H. rewrite !sapp_assoc in H. cbn in H. injection H as H.
  destruct (every_cut _ _ _ _ _ Ha Hb (eq_refl : stops _ (String "'" r)) (eq_refl : stops _ (String "'" r')) H) as [-> Q].
  injection Q as ->. auto.
Qed.

(** ** Whole numbers *)

Lemma whole_uint : forall u, every whole (NilEmpty.string_of_uint u) = true.
Proof. induction u; cbn; auto. Qed.

Lemma whole_int : forall z, every whole (NilZero.string_of_int (Z.to_int z)) = true.
Proof. intros z. destruct (Z.to_int z) as [d|d]; destruct d; cbn; try reflexivity; apply whole_uint. Qed.

Lemma to_int_proper : forall z, Z.to_int z <> Decimal.Pos Decimal.Nil /\ Z.to_int z <> Decimal.Neg Decimal.Nil.
Proof.
  intros z. split; intros H; pose proof (DecimalZ.of_to z) as Q; rewrite H in Q; cbn in Q; subst z; discriminate.
Qed.

Lemma int_inj : forall a b, NilZero.string_of_int (Z.to_int a) = NilZero.string_of_int (Z.to_int b) -> a = b.
Proof.
  intros a b H. apply (f_equal NilZero.int_of_string) in H.
  destruct (to_int_proper a), (to_int_proper b). rewrite !NilZero.isi in H by auto. injection H as H.
  rewrite <- (DecimalZ.of_to a), <- (DecimalZ.of_to b). now rewrite H.
Qed.

Lemma figure_whole : forall s, every whole s = true -> every figure s = true.
Proof.
  induction s; cbn; auto. intros H. apply andb_true_iff in H. destruct H as [H1 H2]. rewrite IHs by auto.
  unfold figure at 1. now rewrite H1.
Qed.

(** ** What is not shown *)

Lemma refute_detfn : forall F D (float_repr : F -> string) proxy, exists t t' : @thing F D,
  proper t /\ proper t' /\ t <> t' /\ describe float_repr proxy t = describe float_repr proxy t'.
Proof.
  intros F D float_repr proxy. exists (Det "f" "linear" (PList [PInt 1])), (Det "f" "hyperbolic" (PList [])).
  assert (P : plain "f") by (split; [discriminate|reflexivity]).
  split; [split; [exact P|split; [|discriminate]]|split; [split; [exact P|split; [|discriminate]]|split; [discriminate|reflexivity]]].
  - constructor. intros v [<-|[]]. constructor.
  - constructor. intros v [].
Qed.

Lemma det_fails : forall F D (float_repr : F -> string) proxy id type params,
  describe float_repr proxy (Det id type params : @thing F D) =
    Some ("Deterministic Function '{}', of type '{}', from parameters " ++ id ++ ".") /\
  (plain id -> describe float_repr proxy (Det id type params : @thing F D) <>
     Some (told float_repr (Det id type params : @thing F D))).
Proof.
  intros F D float_repr proxy id type params. split; [reflexivity|].
  intros [N H] E. injection E as E. destruct id as [|c s]; [congruence|].
  cbn in E. injection E as <- E. discriminate H.
Qed.

Lemma collapse_fails : forall F D (float_repr : F -> string) proxy id fn (c c' : @collapse D), c_address c = c_address c' ->
  describe float_repr proxy (Im id fn (Some c) : @thing F D) = describe float_repr proxy (Im id fn (Some c')).
Proof. intros F D float_repr proxy id fn c c' H. cbn. now rewrite H. Qed.

Lemma compound_fails : forall F D (float_repr : F -> string) proxy id im fn x y,
  describe float_repr proxy (Edp id im fn x : @thing F D) = describe float_repr proxy (Edp id im fn y : @thing F D).
Proof. reflexivity. Qed.

Lemma refute_none : forall F D (float_repr : F -> string) proxy, exists id edp frag cost d count a b,
  proper (Group id edp frag cost d count a b : @thing F D) /\ proper (Group id edp frag cost None count a b : @thing F D) /\
  d <> None /\ describe float_repr proxy (Group id edp frag cost d count a b : @thing F D) =
    describe float_repr proxy (Group id edp frag cost None count a b : @thing F D).
Proof.
  intros F D float_repr proxy. exists "g", "e", "f", (Some "c"), (Some "None"), 1%Z, (PInt 1), (PInt 1).
  assert (P : forall s, s <> "" -> every wordy s = true -> plain s) by (split; auto).
  assert (V : value (PInt 1 : @pyv F)) by (split; [constructor|discriminate]).
  split; [|split; [|split; [discriminate|reflexivity]]].
  - cbn. repeat (split; [apply P; [discriminate|reflexivity]|]).
    split; [intros x H; injection H as <-; apply P; [discriminate|reflexivity]|].
    split; [intros x H; injection H as <-; apply P; [discriminate|reflexivity]|]. auto.
  - cbn. repeat (split; [apply P; [discriminate|reflexivity]|]).
    split; [intros x H; injection H as <-; apply P; [discriminate|reflexivity]|].
    split; [discriminate|]. auto.
Qed.

Section Proofs.

Context {F D : Type}.
Variable float_repr : F -> string.
Variable proxy : nat -> string.
Hypothesis HF : shows_floats float_repr.
Notation repr := (repr float_repr).
Notation tidy := (@tidy F).
Notation describe := (@describe F float_repr D proxy).

(** ** Lists *)

Definition cut {A} (show : A -> string) (a : A) : Prop := forall b r r', stops figure r -> stops figure r' ->
  show a ++ r = show b ++ r' -> a = b /\ r = r'.

Lemma commas_cut : forall A (P : A -> Prop) (show : A -> string) (e : ascii), figure e = false -> e <> ","%char ->
  (forall a, P a -> exists c s, show a = String c s /\ c <> e) ->
  forall l l' r r',
  (forall a, In a l -> P a /\ forall b r r', P b -> stops figure r -> stops figure r' -> show a ++ r = show b ++ r' -> a = b /\ r = r') ->
  (forall a, In a l' -> P a) ->
  commas (map show l) ++ String e r = commas (map show l') ++ String e r' -> l = l' /\ r = r'.
Proof.
  intros A P show e He Hc Hn. induction l as [|x l IH]; intros l' r r' Hl Hl' H.
  - destruct l' as [|y l']; [injection H as ->; auto|]. exfalso.
    destruct (Hn y (Hl' y (or_introl eq_refl))) as (c & s & Q & N). cbn in H. destruct l'; cbn in H; rewrite Q in H; cbn in H; congruence.
  - destruct l' as [|y l'].
    { exfalso. destruct (Hl x (or_introl eq_refl)) as [Hx _]. destruct (Hn x Hx) as (c & s & Q & N). cbn in H.
      destruct l; cbn in H; rewrite Q in H; cbn in H; congruence. }
    destruct (Hl x (or_introl eq_refl)) as [_ Cx].
    assert (S : forall l r, exists t, commas (map show (x :: l)) ++ String e r = show x ++ t /\ stops figure t /\
       match l with [] => t = String e r | _ => t = ", " ++ commas (map show l) ++ String e r end).
    { intros m q. destruct m as [|z m]; cbn.
      - exists (String e q). repeat split; auto.
      - rewrite !sapp_assoc. eexists. split; [reflexivity|]. split; reflexivity. }
    assert (S' : forall l r, exists t, commas (map show (y :: l)) ++ String e r = show y ++ t /\ stops figure t /\
       match l with [] => t = String e r | _ => t = ", " ++ commas (map show l) ++ String e r end).
    { intros m q. destruct m as [|z m]; cbn.
      - exists (String e q). repeat split; auto.
      - rewrite !sapp_assoc. eexists. split; [reflexivity|]. split; reflexivity. }
    destruct (S l r) as (t & E1 & T1 & M1). destruct (S' l' r') as (t' & E2 & T2 & M2).
    rewrite E1, E2 in H. destruct (Cx y t t' (Hl' y (or_introl eq_refl)) T1 T2 H) as [-> ->].
    destruct l as [|z l], l' as [|z' l'].
    + rewrite M1 in M2. injection M2 as ->. auto.
    + exfalso. rewrite M1 in M2. cbn in M2. congruence.
    + exfalso. rewrite M1 in M2. cbn in M2. congruence.
    + rewrite M1 in M2. cbn [append] in M2. injection M2 as M2.
      destruct (IH (z' :: l') r r') as [Q ->]; auto.
      * intros a Ia. apply Hl. right; auto.
      * intros a Ia. apply Hl'. right; auto.
      * rewrite Q. auto.
Qed.

(** How values begin. *)
Lemma begins : forall v, tidy v ->
  match v with
  | PNone => repr v = "None"
  | PInt _ | PFloat _ => every figure (repr v) = true /\ repr v <> ""
  | PText _ => exists s, repr v = String "'" s
  | PList _ => exists s, repr v = String "[" s
  | PDict _ => exists s, repr v = String "{" s
  end.
Proof.
  intros v H. destruct v; cbn; eauto.
  - split; [apply figure_whole, whole_int|]. intros Q.
    assert (E : z = z) by auto. pose proof (to_int_proper z) as [N1 N2]. destruct (Z.to_int z) as [d|d]; [destruct d|]; discriminate.
  - destruct HF as [_ HF2]. destruct (HF2 a) as [H1 H2]. split; auto. intros Q. rewrite Q in H2. discriminate.
Qed.

Lemma begins_not : forall v e, tidy v -> (e = "]" \/ e = "}")%char -> exists c s, repr v = String c s /\ c <> e.
Proof.
  intros v e H He. pose proof (begins v H) as B.
  assert (Fg : figure e = false) by (destruct He; subst; reflexivity).
  destruct v; cbn [Describe.repr] in *.
  - do 2 eexists. split; [reflexivity|]. intros <-. destruct He; discriminate.
  - destruct B as [B1 B2]. destruct (NilZero.string_of_int _) as [|c s]; [congruence|]. exists c, s. split; auto.
    intros ->. cbn in B1. rewrite Fg in B1. discriminate.
  - destruct B as [B1 B2]. destruct (float_repr a) as [|c s]; [congruence|]. exists c, s. split; auto.
    intros ->. cbn in B1. rewrite Fg in B1. discriminate.
  - do 2 eexists. split; [reflexivity|]. intros <-. destruct He; discriminate.
  - do 2 eexists. split; [reflexivity|]. intros <-. destruct He; discriminate.
  - do 2 eexists. split; [reflexivity|]. intros <-. destruct He; discriminate.
Qed.

(** A value is known by its beginning. *)
Lemma repr_cut : forall v, tidy v -> forall v' r r', tidy v' -> stops figure r -> stops figure r' ->
  repr v ++ r = repr v' ++ r' -> v = v' /\ r = r'.
Proof.
  induction 1 as [|z|a|s Hs|l Hl IH|l Hq Hl IH]; intros v' r r' Hv' Sr Sr' E; pose proof (begins v' Hv') as B;
    (assert (K : forall c s, every figure (String c s) = true -> figure c = true)
      by (intros c0 s0 Q; cbn in Q; apply andb_true_iff in Q; tauto)).
  - destruct v'; cbn [Describe.repr] in *; try discriminate E.
    + cbn in E. injection E as ->. auto.
    + exfalso. destruct B as [B1 B2]. destruct (NilZero.string_of_int _) as [|c s0]; [congruence|]. cbn in E. injection E as <- E.
      apply K in B1. discriminate.
    + exfalso. destruct B as [B1 B2]. destruct (float_repr a) as [|c s0]; [congruence|]. cbn in E. injection E as <- E.
      apply K in B1. discriminate.
  - pose proof (begins (PInt z) (tidy_int z)) as [B1 B2].
    destruct v' as [|z'|a'|s'|l'|l'].
    + exfalso. cbn [Describe.repr] in *. destruct (NilZero.string_of_int _) as [|c s0]; [congruence|]. injection E as -> E. apply K in B1. discriminate.
    + destruct B as [B3 B4]. destruct (every_cut figure _ _ _ _ B1 B3 Sr Sr' E) as [Q ->]. cbn [Describe.repr] in Q. apply int_inj in Q. subst. auto.
    + exfalso. destruct B as [B3 B4]. destruct (every_cut figure _ _ _ _ B1 B3 Sr Sr' E) as [Q _].
      cbn [Describe.repr] in Q. pose proof (whole_int z) as W. rewrite Q in W. destruct HF as [_ HF2]. rewrite (proj2 (HF2 a')) in W. discriminate.
    + exfalso. destruct B as [s0 B]. rewrite B in E. cbn [Describe.repr] in *. destruct (NilZero.string_of_int _) as [|c s1]; [congruence|]. injection E as -> E. apply K in B1. discriminate.
    + exfalso. destruct B as [s0 B]. rewrite B in E. cbn [Describe.repr] in *. destruct (NilZero.string_of_int _) as [|c s1]; [congruence|]. injection E as -> E. apply K in B1. discriminate.
    + exfalso. destruct B as [s0 B]. rewrite B in E. cbn [Describe.repr] in *. destruct (NilZero.string_of_int _) as [|c s1]; [congruence|]. injection E as -> E. apply K in B1. discriminate.
  - pose proof (begins (PFloat a) (tidy_float a)) as [B1 B2].
    destruct v' as [|z'|a'|s'|l'|l'].
    + exfalso. cbn [Describe.repr] in *. destruct (float_repr a) as [|c s0]; [congruence|]. injection E as -> E. apply K in B1. discriminate.
    + exfalso. destruct B as [B3 B4]. destruct (every_cut figure _ _ _ _ B1 B3 Sr Sr' E) as [Q _].
      cbn [Describe.repr] in Q. pose proof (whole_int z') as W. rewrite <- Q in W. destruct HF as [_ HF2]. rewrite (proj2 (HF2 a)) in W. discriminate.
    + destruct B as [B3 B4]. destruct (every_cut figure _ _ _ _ B1 B3 Sr Sr' E) as [Q ->]. cbn [Describe.repr] in Q. destruct HF as [HF1 _]. apply HF1 in Q. subst. auto.
    + exfalso. destruct B as [s0 B]. rewrite B in E. cbn [Describe.repr] in *. destruct (float_repr a) as [|c s1]; [congruence|]. injection E as -> E. apply K in B1. discriminate.
    + exfalso. destruct B as [s0 B]. rewrite B in E. cbn [Describe.repr] in *. destruct (float_repr a) as [|c s1]; [congruence|]. injection E as -> E. apply K in B1. discriminate.
    + exfalso. destruct B as [s0 B]. rewrite B in E. cbn [Describe.repr] in *. destruct (float_repr a) as [|c s1]; [congruence|]. injection E as -> E. apply K in B1. discriminate.
  - destruct v' as [|z'|a'|s'|l'|l'].
    + discriminate E.
    + exfalso. destruct B as [B3 B4]. destruct (repr (PInt z')) as [|c s1]; [congruence|]. injection E as <- E. apply K in B3. discriminate.
    + exfalso. destruct B as [B3 B4]. destruct (repr (PFloat a')) as [|c s1]; [congruence|]. injection E as <- E. apply K in B3. discriminate.
    + inversion Hv'; subst. cbn [Describe.repr] in E. apply quoted_cut in E; auto. destruct E as [-> ->]. auto.
    + discriminate E.
    + discriminate E.
  - destruct v' as [|z'|a'|s'|l'|l'].
    + discriminate E.
    + exfalso. destruct B as [B3 B4]. destruct (repr (PInt z')) as [|c s1]; [congruence|]. injection E as <- E. apply K in B3. discriminate.
    + exfalso. destruct B as [B3 B4]. destruct (repr (PFloat a')) as [|c s1]; [congruence|]. injection E as <- E. apply K in B3. discriminate.
    + discriminate E.
    + cbn [Describe.repr append] in E. injection E as E. rewrite !sapp_assoc in E. cbn [append] in E.
      inversion Hv' as [| | | |? Hl'|]; subst.
      destruct (commas_cut _ tidy repr "]"%char eq_refl ltac:(discriminate) (fun a Ha => begins_not a "]" Ha (or_introl eq_refl)) l l' r r') as [-> ->]; auto.
    + discriminate E.
  - destruct v' as [|z'|a'|s'|l'|l'].
    + discriminate E.
    + exfalso. destruct B as [B3 B4]. destruct (repr (PInt z')) as [|c s1]; [congruence|]. injection E as <- E. apply K in B3. discriminate.
    + exfalso. destruct B as [B3 B4]. destruct (repr (PFloat a')) as [|c s1]; [congruence|]. injection E as <- E. apply K in B3. discriminate.
    + discriminate E.
    + discriminate E.
    + cbn [Describe.repr append] in E. injection E as E. rewrite !sapp_assoc in E. cbn [append] in E.
      inversion Hv' as [| | | | |? Hq' Hl']; subst.
      destruct (commas_cut _ (fun e => quoteless (fst e) /\ tidy (snd e)) (fun e => quoted (fst e) ++ ": " ++ repr (snd e)) "}"%char
                  eq_refl ltac:(discriminate)) with (l := l) (l' := l') (r := r) (r' := r') as [-> ->]; auto.
      * intros e _. do 2 eexists. split; [reflexivity|discriminate].
      * intros [k v] Ie. split; [split; [apply (Hq _ Ie)|apply (Hl _ Ie)]|]. intros [k' v'] q q' [Hk' Hv2] Sq Sq' Q. cbn [fst snd] in *.
        rewrite !sapp_assoc in Q. apply quoted_cut in Q; [|apply (Hq _ Ie)|exact Hk']. destruct Q as [-> Q].
        cbn [append] in Q. injection Q as Q. destruct (IH _ Ie v' q q' Hv2 Sq Sq' Q) as [E1 ->]. cbn [snd] in E1. subst. auto.
Qed.

Lemma repr_inj : forall v v' s, tidy v -> tidy v' -> repr v ++ s = repr v' ++ s -> v = v'.
Proof.
  intros v v' s Hv Hv' E. apply sapp_cancel in E. rewrite <- (sapp_nil (repr v)), <- (sapp_nil (repr v')) in E.
  apply (repr_cut v Hv v' "" "") in E; try exact Logic.I; tauto.
Qed.

(** ** Descriptions *)

Lemma str_value : forall v : @pyv F, value v -> str float_repr v = repr v.
Proof. intros v [_ H]. destruct v; auto. exfalso. eapply H. reflexivity. Qed.

Lemma described : forall t : @thing F D, proper t -> clear t -> describe t = Some (told float_repr t).
Proof.
  intros t P C. destruct t; cbn [proper clear] in *; try destruct col as [c|]; try destruct fn2 as [g|]; try contradiction;
    unfold Describe.describe; try (rewrite (str_value cost_adj), (str_value delay_adj) by tauto; reflexivity);
    rewrite ?str_value by tauto; reflexivity.
Qed.

Lemma wordy_cut : forall a b c r c' r', a ++ String c r = b ++ String c' r' -> every wordy a = true -> every wordy b = true ->
  wordy c = false -> wordy c' = false -> a = b /\ String c r = String c' r'.
Proof. intros a b c r c' r' E Ha Hb Hc Hc'. apply (every_cut wordy); auto. Qed.

Lemma plain_cut' : forall a b c r c' r', a ++ String c r = b ++ String c' r' -> plain a -> plain b ->
  wordy c = false -> wordy c' = false -> a = b /\ String c r = String c' r'.
Proof. intros a b c r c' r' E Ha Hb Hc Hc'. apply plain_cut; auto. Qed.

Lemma repr_cut' : forall a b c r c' r', repr a ++ String c r = repr b ++ String c' r' -> tidy a -> tidy b ->
  figure c = false -> figure c' = false -> a = b /\ String c r = String c' r'.
Proof. intros a b c r c' r' E Ha Hb Hc Hc'. apply (repr_cut a); auto. Qed.
Arguments wordy_cut {a b c r c' r'}.
Arguments plain_cut' {a b c r c' r'}.
Arguments repr_cut' {a b c r c' r'}.

Ltac peel E := cbn [append] in E; repeat match type of E with String _ _ = String _ _ => injection E as E end.
Lemma told_inj : forall t t' : @thing F D, proper t -> proper t' -> clear t -> clear t' ->
  told float_repr t = told float_repr t' -> t = t'.
Proof.
  intros t t' P P' C C' E.
  destruct t as [| |? ? [c|]|? ? ? [g|]|id pa| | | |id e f co d n a b],
    t' as [| |? ? [c'|]|? ? ? [g'|]|id' pa'| | | |id' e' f' co' d' n' a' b'];
    cbn [clear] in C, C'; try contradiction; try discriminate E; cbn [proper value] in P, P'; cbn [told] in E.
  - destruct P as (P1 & P2 & P3 & (P4 & _) & P5 & (P6 & _)), P' as (P1' & P2' & P3' & (P4' & _) & P5' & (P6' & _)). peel E.
    destruct (plain_cut' E P1 P1' eq_refl eq_refl) as [-> E1]. peel E1.
    destruct (plain_cut' E1 P2 P2' eq_refl eq_refl) as [-> E2]. peel E2.
    destruct (plain_cut' E2 P3 P3' eq_refl eq_refl) as [-> E3]. peel E3.
    destruct (repr_cut' E3 P4 P4' eq_refl eq_refl) as [-> E4]. peel E4.
    destruct (plain_cut' E4 P5 P5' eq_refl eq_refl) as [-> E5]. peel E5.
    rewrite (repr_inj _ _ _ P6 P6' E5). reflexivity.
  - destruct P as (P1 & P2), P' as (P1' & P2'). peel E.
    destruct (plain_cut' E P1 P1' eq_refl eq_refl) as [-> E1]. peel E1.
    destruct (plain_cut' E1 P2 P2' eq_refl eq_refl) as [-> _]. reflexivity.
  - destruct P as (P1 & P2 & P3 & _), P' as (P1' & P2' & P3' & _). peel E.
    destruct (plain_cut' E P1 P1' eq_refl eq_refl) as [-> E1]. peel E1.
    destruct (plain_cut' E1 P2 P2' eq_refl eq_refl) as [-> E2]. peel E2.
    destruct (plain_cut' E2 P3 P3' eq_refl eq_refl) as [-> _]. reflexivity.
  - destruct P as (P1 & (P2 & _)), P' as (P1' & (P2' & _)). peel E.
    destruct (plain_cut' E P1 P1' eq_refl eq_refl) as [-> E1]. peel E1.
    rewrite (repr_inj _ _ _ P2 P2' E1). reflexivity.
  - destruct P as (P1 & (P2 & _) & (P3 & _)), P' as (P1' & (P2' & _) & (P3' & _)). peel E.
    destruct (plain_cut' E P1 P1' eq_refl eq_refl) as [-> E1]. peel E1.
    destruct (repr_cut' E1 P3 P3' eq_refl eq_refl) as [-> E4]. peel E4.
    rewrite (repr_inj _ _ _ P2 P2' E4). reflexivity.
  - destruct P as (P1 & _ & (P2 & _) & (P3 & _)), P' as (P1' & _ & (P2' & _) & (P3' & _)). peel E.
    destruct (plain_cut' E P1 P1' eq_refl eq_refl) as [-> E1]. peel E1.
    destruct (repr_cut' E1 P3 P3' eq_refl eq_refl) as [-> E4]. peel E4.
    rewrite (repr_inj _ _ _ P2 P2' E4). reflexivity.
  - exfalso. destruct P as (P1 & (o & ->) & (P2 & _) & (P3 & _)), P' as (P1' & (P3' & _)). peel E.
    destruct (plain_cut' E P1 P1' eq_refl eq_refl) as [-> E1]. peel E1.
    destruct (repr_cut' E1 P3 P3' eq_refl eq_refl) as [-> E4]. peel E4.
    discriminate E4.
  - exfalso. destruct P' as (P1 & (o & ->) & (P2 & _) & (P3 & _)), P as (P1' & (P3' & _)). peel E.
    destruct (plain_cut' E P1' P1 eq_refl eq_refl) as [-> E1]. peel E1.
    destruct (repr_cut' E1 P3' P3 eq_refl eq_refl) as [-> E4]. peel E4.
    discriminate E4.
  - destruct P as (P1 & (P3 & _)), P' as (P1' & (P3' & _)). peel E.
    destruct (plain_cut' E P1 P1' eq_refl eq_refl) as [-> E1]. peel E1.
    destruct (repr_cut' E1 P3 P3' eq_refl eq_refl) as [-> E4]. reflexivity.
  - destruct P as (P1 & P2 & P3 & P4 & P5 & (P6 & _) & (P7 & _)), P' as (P1' & P2' & P3' & P4' & P5' & (P6' & _) & (P7' & _)). peel E.
    destruct C as [Cc Cd], C' as [Cc' Cd'].
    assert (O : forall (x : option string), (forall y, x = Some y -> plain y) -> every wordy (match x with Some y => y | None => "None" end) = true).
    { intros [x|] Hx; [exact (proj2 (Hx x eq_refl))|reflexivity]. }
    assert (J : forall x y : option string, x <> Some "None" -> y <> Some "None" ->
      match x with Some y => y | None => "None" end = match y with Some y => y | None => "None" end -> x = y).
    { intros [x|] [y|] Hx Hy Q; congruence. }
    destruct (plain_cut' E P1 P1' eq_refl eq_refl) as [-> E1]. peel E1.
    destruct (plain_cut' E1 P2 P2' eq_refl eq_refl) as [-> E2]. peel E2.
    destruct (plain_cut' E2 P3 P3' eq_refl eq_refl) as [-> E3]. peel E3.
    destruct (wordy_cut E3 (O _ P4) (O _ P4') eq_refl eq_refl) as [Q4 E4]. peel E4.
    destruct (wordy_cut E4 (O _ P5) (O _ P5') eq_refl eq_refl) as [Q5 E5]. peel E5.
    apply J in Q4; auto. apply J in Q5; auto. subst co' d'.
    destruct (@repr_cut' (PInt n) (PInt n') _ _ _ _ E5 (tidy_int n) (tidy_int n') eq_refl eq_refl) as [Q E6]. injection Q as ->. peel E6.
    destruct (repr_cut' E6 P6 P6' eq_refl eq_refl) as [-> E7]. peel E7.
    rewrite (repr_inj _ _ _ P7 P7' E7). reflexivity.
Qed.

Lemma distinct : forall t t' : @thing F D, proper t -> proper t' -> clear t -> clear t' -> describe t = describe t' -> t = t'.
Proof.
  intros t t' P P' C C' E. rewrite !described in E by auto. injection E as E. apply told_inj; auto.
Qed.

(** Kind and name are always known. *)
Lemma named : forall t t' : @thing F D, proper t -> proper t' -> describe t = describe t' ->
  sort_of t = sort_of t' /\ name_of t = name_of t'.
Proof.
  intros t t' P P' E.
  destruct t as [| |? ? [c|]|? ? ? ?|id pa| | | |id e f co d n a b],
    t' as [| |? ? [c'|]|? ? ? ?|id' pa'| | | |id' e' f' co' d' n' a' b'];
    cbn [proper] in P, P'; destruct P as [P _], P' as [P' _];
    unfold Describe.describe, describe_det in E; cbn [fmt option_map append] in E; try discriminate E; injection E as E;
    (split; [reflexivity|]); cbn [name_of]; apply (proj1 (plain_cut' E P P' eq_refl eq_refl)).
Qed.

Lemma always : forall t : @thing F D, exists m, describe t = Some m /\ m <> "None".
Proof.
  intros t. destruct t as [| |? ? [c|]|? ? ? ?|id pa| | | |id e f co d n a b]; eexists; (split; [reflexivity|discriminate]).
Qed.

(** ** Printing *)

Lemma title_app : forall l a, fold_left (fun o t => o ++ newline ++ t) l a = a ++ title_text l.
Proof.
  induction l as [|t l IH] using rev_ind; intros a; cbn; [now rewrite sapp_nil|].
  unfold title_text. rewrite !fold_left_app. cbn [fold_left]. rewrite IH. unfold title_text. rewrite !sapp_assoc. reflexivity.
Qed.

Lemma title_lines : forall l, title_text l = String.concat newline ("" :: l).
Proof.
  intros l. assert (Q : forall l a, fold_left (fun o t => o ++ newline ++ t) l a = String.concat newline (a :: l)).
  { induction l0 as [|t l0 IH]; intros a; [reflexivity|]. cbn [fold_left]. rewrite IH. cbn [String.concat].
    destruct l0; rewrite ?sapp_assoc; reflexivity. }
  apply Q.
Qed.

Lemma text_message : forall (p : @printed F D) m, text float_repr proxy p m <-> message float_repr proxy p = Some m.
Proof.
  intros p m. destruct p as [t|[t|]|l]; cbn [text message].
  - split; congruence.
  - reflexivity.
  - split; congruence.
  - rewrite title_lines. split; congruence.
Qed.

Lemma one_text : forall p : @printed F D, exists m, text float_repr proxy p m /\ forall m', text float_repr proxy p m' -> m' = m.
Proof.
  intros p. assert (H : exists m, message float_repr proxy p = Some m).
  { destruct p as [t|[t|]|l]; cbn; eauto. destruct (always t) as (m & Q & _). eauto. }
  destruct H as [m H]. exists m. split; [apply text_message; auto|]. intros m' Q. apply text_message in Q. congruence.
Qed.

Lemma title_fails : forall l m, l <> [] -> message float_repr proxy (PrTitle l : @printed F D) = Some m ->
  m <> String.concat newline l.
Proof.
  intros l m N H. cbn in H. injection H as <-. rewrite title_lines. destruct l as [|t l]; [congruence|].
  intros Q. apply (f_equal String.length) in Q. cbn [String.concat] in Q. cbn in Q. rewrite ?length_sapp in Q. destruct l; lia.
Qed.

Lemma lines_app : forall a b, lines (a ++ b)%list = lines a ++ lines b.
Proof.
  assert (C : forall l, String.concat "" l = fold_right append "" l).
  { induction l as [|x l IH]; [reflexivity|]. cbn [String.concat fold_right]. destruct l; [now rewrite sapp_nil|]. cbn [append]. now rewrite IH. }
  induction a as [|x a IH]; intros b; [reflexivity|]. unfold lines in *. rewrite !C in *. cbn. rewrite !sapp_assoc. do 2 f_equal.
  specialize (IH b). rewrite ?C in IH. exact IH.
Qed.

Lemma lines_one : forall m, lines [m] = m ++ newline.
Proof. reflexivity. Qed.

Lemma restarted_snoc : forall f q m d, restarted f (q ++ [(m, d)]) <-> restarted f q \/ d = Some (f, false).
Proof.
  intros f q m d. split.
  - intros (x & H). apply in_app_or in H. destruct H as [H|[H|[]]]; [left; exists x; auto|]. injection H as -> ->. auto.
  - intros [[x H]|H]; [exists x|exists m]; apply in_or_app; [auto|]. right. left. now subst.
Qed.

Lemma untouched_snoc : forall f q m d, untouched f (q ++ [(m, d)]) <-> untouched f q /\ forall app, d <> Some (f, app).
Proof.
  intros f q m d. split.
  - intros H. split; [intros x app I; apply (H x app), in_or_app; auto|]. intros app ->. apply (H m app), in_or_app. right. left. auto.
  - intros [H1 H2] x app I. apply in_app_or in I. destruct I as [I|[I|[]]]; [eapply H1; eauto|]. injection I as -> ->. eapply H2; eauto.
Qed.

Definition after (o : output) (q : list (string * target)) (o' : output) : Prop :=
  terminal o' = terminal o ++ lines (to_terminal q) /\
  forall f, (restarted f q -> contents o' f = Some (lines (rev (since f (rev q))))) /\
    (~ restarted f q -> ~ untouched f q ->
       contents o' f = Some (match contents o f with Some s => s | None => "" end ++ lines (rev (since f (rev q))))) /\
    (untouched f q -> contents o' f = contents o f).

Lemma restarted_dec : forall f q, {restarted f q} + {~ restarted f q}.
Proof.
  intros f. induction q as [|[m [[g []]|]] q IH].
  - right. intros [m []].
  - destruct IH as [H|H]; [left; destruct H as [x H]; exists x; right; auto|].
    right. intros [x [Q|Q]]; [discriminate|]. apply H. exists x. auto.
  - destruct (String.string_dec g f) as [->|N]; [left; exists m; left; auto|].
    destruct IH as [H|H]; [left; destruct H as [x H]; exists x; right; auto|].
    right. intros [x [Q|Q]]; [congruence|]. apply H. exists x. auto.
  - destruct IH as [H|H]; [left; destruct H as [x H]; exists x; right; auto|].
    right. intros [x [Q|Q]]; [discriminate|]. apply H. exists x. auto.
Qed.

Lemma untouched_dec : forall f q, {untouched f q} + {~ untouched f q}.
Proof.
  intros f. induction q as [|[m [[g b]|]] q IH].
  - left. intros m app [].
  - destruct (String.string_dec g f) as [->|N]; [right; intros H; apply (H m b); left; auto|].
    destruct IH as [H|H]; [left|right].
    + intros x app [Q|Q]; [congruence|]. eapply H; eauto.
    + intros H2. apply H. intros x app Q. apply (H2 x app). right. auto.
  - destruct IH as [H|H]; [left|right].
    + intros x app [Q|Q]; [congruence|]. eapply H; eauto.
    + intros H2. apply H. intros x app Q. apply (H2 x app). right. auto.
Qed.

Lemma since_untouched : forall f q, untouched f q -> since f q = [].
Proof.
  intros f. induction q as [|[m [[g b]|]] q IH]; intros H; auto.
  - cbn [since]. destruct (String.eqb_spec g f) as [->|N]; [exfalso; apply (H m b); left; auto|].
    apply IH. intros x app I. apply (H x app). right. auto.
  - cbn [since]. apply IH. intros x app I. apply (H x app). right. auto.
Qed.

Lemma after_put : forall o q o' m d, after o q o' -> after o (q ++ [(m, d)]) (put o' d m).
Proof.
  intros o q o' m d [HT HC]. unfold after, to_terminal in *. rewrite flat_map_app, lines_app. cbn [flat_map].
  destruct d as [[g b]|].
  - split; [cbn; rewrite sapp_nil; exact HT|]. intros f. rewrite rev_app_distr. cbn [rev app since].
    rewrite restarted_snoc, untouched_snoc. cbn [put contents]. destruct (HC f) as (H1 & H2 & H3).
    rewrite String.eqb_sym. destruct (String.eqb_spec g f) as [->|N].
    + assert (L : lines (rev (m :: (if b then since f (rev q) else []))) = (if b then lines (rev (since f (rev q))) else "") ++ m ++ newline).
      { cbn [rev]. rewrite lines_app, lines_one. destruct b; reflexivity. }
      rewrite L. destruct b.
      * split; [|split].
        -- intros [R|R]; [|discriminate]. now rewrite (H1 R).
        -- intros R U. assert (R' : ~ restarted f q) by tauto. destruct (untouched_dec f q) as [U'|U'].
           ++ rewrite (H3 U'). rewrite since_untouched; [reflexivity|]. intros x app I. apply in_rev in I. eapply U'; eauto.
           ++ rewrite (H2 R' U'). now rewrite sapp_assoc.
        -- intros [_ U]. exfalso. eapply U. reflexivity.
      * split; [reflexivity|]. split; [intros R; exfalso; apply R; auto|]. intros [_ U]. exfalso. eapply U. reflexivity.
    + split; [|split].
      * intros [R|R]; [auto|congruence].
      * intros R U. apply H2; [tauto|]. intros U'. apply U. split; auto. intros app Q. congruence.
      * intros [U _]. auto.
  - split; [cbn [put terminal app]; rewrite HT, sapp_assoc, lines_one; reflexivity|]. intros f. rewrite rev_app_distr. cbn [rev app since].
    rewrite restarted_snoc, untouched_snoc. cbn [put contents]. destruct (HC f) as (H1 & H2 & H3). split; [|split].
    + intros [R|R]; [auto|discriminate].
    + intros R U. apply H2; [tauto|]. intros U'. apply U. split; auto. intros app Q. discriminate.
    + intros [U _]. auto.
Qed.

Lemma prints_after : forall (l : list (@printed F D * target)) ms o q o', Forall2 (fun c m => text float_repr proxy (fst c) m) l ms -> after o q o' ->
  exists o'', prints float_repr proxy o' l = Some o'' /\ after o (q ++ combine ms (map snd l)) o''.
Proof.
  intros l ms o q o' H. revert q o'. induction H as [|[p d] m l ms Hm _ IH]; intros q o' A.
  - exists o'. cbn. rewrite app_nil_r. auto.
  - apply text_message in Hm. cbn [fst] in Hm. cbn [prints map snd combine]. unfold print. cbn [fst snd]. rewrite Hm. cbn [option_map].
    destruct (IH (q ++ [(m, d)])%list (put o' d m) (after_put _ _ _ _ _ A)) as (o'' & Q & A'). exists o''. split; auto.
    rewrite <- app_assoc in A'. exact A'.
Qed.

Lemma printing : forall (l : list (@printed F D * target)) ms o, Forall2 (fun c m => text float_repr proxy (fst c) m) l ms ->
  let q := combine ms (map snd l) in
  exists o', prints float_repr proxy o l = Some o' /\
    terminal o' = terminal o ++ lines (to_terminal q) /\
    forall f, (restarted f q -> contents o' f = Some (lines (rev (since f (rev q))))) /\
      (~ restarted f q -> ~ untouched f q ->
         contents o' f = Some (match contents o f with Some s => s | None => "" end ++ lines (rev (since f (rev q))))) /\
      (untouched f q -> contents o' f = contents o f).
Proof.
  intros l ms o H q. destruct (prints_after l ms o [] o H) as (o' & Q & A).
  - split; [cbn; now rewrite sapp_nil|]. intros f. split; [intros [m []]|]. split; [|auto]. intros _ U. exfalso. apply U. intros m app [].
  - exists o'. split; auto.
Qed.

End Proofs.

Lemma refute_place : exists set name, ~ same_file (print_path set name) (recorder_path set name).
Proof.
  exists (Some (lit "out")), (lit "log.txt"). unfold same_file. vm_compute. intros [H|H]; discriminate.
Qed.

Lemma place : forall set h n, ~ In slash n -> (h = [] \/ exists h', h = (h' ++ [slash])%list) -> has_extension n ->
  h <> [] \/ set = None \/ set = Some [] ->
  same_file (print_path set (h ++ n)%list) (recorder_path set (h ++ n)%list).
Proof.
  intros set h n N H X S. unfold print_path, recorder_path, same_file.
  destruct (path_meant set (h ++ n)%list) as (f0 & A1 & A2 & A3). destruct (A3 h n eq_refl N H) as [B1 _]. rewrite (B1 X).
  destruct H as [->|(h' & ->)].
  - right. cbn [app] in *. destruct (A2 N) as [(d' & Q1 & Q2)|(_ & Q)].
    + exfalso. destruct S as [S|[->| ->]]; [congruence| |]; cbn in Q1; destruct d' as [|x [|y d']]; discriminate.
    + rewrite Q. destruct S as [S|[->| ->]]; [congruence| |]; reflexivity.
  - left. apply A1. apply in_or_app. left. apply in_or_app. right. left. auto.
Qed.

Lemma no_extension_fails : forall set h n, ~ In slash n -> (h = [] \/ exists h', h = (h' ++ [slash])%list) -> ~ has_extension n ->
  ~ same_file (print_path set (h ++ n)%list) (recorder_path set (h ++ n)%list).
Proof.
  intros set h n N H X. unfold print_path, recorder_path, same_file.
  destruct (path_meant set (h ++ n)%list) as (f0 & A1 & A2 & A3). destruct (A3 h n eq_refl N H) as [_ B2]. rewrite (B2 X).
  assert (L : forall d f, inside d n f -> length n <= length f).
  { intros d f [(d' & _ & ->)|[_ ->]]; rewrite app_length; cbn [length]; lia. }
  destruct H as [->|(h' & ->)].
  - cbn [app] in *. pose proof (L _ _ (A2 N)) as L0. intros [Q|Q]; apply (f_equal (@length ascii)) in Q; rewrite !app_length in Q; cbn in Q; lia.
  - rewrite A1 by (apply in_or_app; left; apply in_or_app; right; left; auto).
    intros [Q|Q]; apply (f_equal (@length ascii)) in Q; rewrite !app_length in Q; cbn in Q; lia.
Qed.

Lemma measure : forall F D (float_repr : F -> string) proxy id fn type params (c : @collapse D) m,
  describe float_repr proxy (Det fn type params : @thing F D) = Some m ->
  describe float_repr proxy (Im id fn (Some c) : @thing F D) =
    Some ("Intensity measure '" ++ id ++ "', based on the deterministic function '" ++ m ++ "', with " ++
          proxy (c_address c))%string.
Proof.
  intros F D float_repr proxy id fn type params c m H. cbn [describe] in *.
  replace (describe_det float_repr fn "" PNone) with (Some m) by (symmetry; exact H).
  cbn. rewrite ?sapp_nil. reflexivity.
Qed.
