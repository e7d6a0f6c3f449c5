(** * Proofs about the questions Python objects answer (C92) *)
From Coq Require Import List String ZArith Bool Lia.
From Verif Require Import Methods Methods_spec.
Import ListNotations.
Local Open Scope string_scope.

Section Proofs.
Context {T : Type}.
Variable of_int : Z -> T.

Notation ask := (ask of_int).
Notation fits := (fits of_int).
Notation same := (same of_int).

Lemma convert_same t v c : convert of_int t v = Some c -> same v c.
Proof.
  destruct t, v; cbn; try discriminate; intros H;
  try (destruct b; injection H as <-; constructor);
  try (injection H as <-; constructor).
  destruct ((-2147483648 <=? z) && (z <=? 2147483647))%Z eqn:E; [injection H as <- | discriminate].
  apply andb_prop in E; destruct E as [E1 E2]. apply Z.leb_le in E1. apply Z.leb_le in E2. constructor. lia.
Qed.

Lemma converts_same ts : forall vs cs, converts of_int ts vs = Some cs -> Forall2 same vs cs /\ List.length vs = List.length ts.
Proof.
  induction ts as [|t ts IH]; intros [|v vs] cs; cbn; try discriminate.
  - intros [= <-]. split; constructor.
  - destruct (convert of_int t v) eqn:E; [|discriminate].
    destruct (converts of_int ts vs) eqn:F; [|discriminate]. intros [= <-].
    destruct (IH _ _ F) as [A B]. split; [constructor; [eapply convert_same; eassumption | exact A] | now f_equal].
Qed.

Lemma call_says c n vs f cs g :
  call of_int c n vs = Says f cs g ->
  exists ts r, find n (declared c) = Some (ts, r, f) /\ g = given r /\ Forall2 same vs cs /\ List.length vs = List.length ts.
Proof.
  unfold call. destruct (find n (declared c)) as [[[ts r] f']|]; [|discriminate].
  destruct (converts of_int ts vs) eqn:E; [|discriminate]. intros [= -> -> <-].
  exists ts, r. destruct (converts_same _ _ _ E). auto.
Qed.

Lemma wrapped_says a f cs g :
  wrapped a = Says (T := T) f cs g -> exists g', a = Says f cs g' /\ g = match g' with PyDist => PyLognormal | _ => g' end.
Proof. destruct a as [f' cs' []| |]; cbn; try discriminate; intros [= -> -> <-]; eauto. Qed.

Lemma wrapped_list_says a f cs g :
  wrapped_list a = Says (T := T) f cs g ->
  exists g', a = Says f cs g' /\ g = match g' with PyDists => PyLognormals | _ => g' end.
Proof. destruct a as [f' cs' []| |]; cbn; try discriminate; intros [= -> -> <-]; eauto. Qed.

(** Whatever it is given, a method that answers gives the figure documented. *)
Lemma only_documented m vs f cs g :
  ask m vs = Says f cs g ->
  Forall2 same vs cs /\
  exists ks g', says m ks f g' /\ List.length vs = List.length ks /\ (g' = g \/ m = StrDeaggregated).
Proof.
  unfold Methods.ask. destruct (Nat.eqb _ _) eqn:E; [|discriminate]. apply Nat.eqb_eq in E.
  destruct m; intros H;
  try (apply wrapped_list_says in H; destruct H as (g1 & H & ->));
  try (apply wrapped_says in H; destruct H as (g1 & H & ->));
  apply call_says in H; destruct H as (ts & r & F & Eg & S & L); cbn in F;
  try discriminate F; injection F as <- <- <-; subst; split; try exact S;
  (eexists _, _; split; [constructor | split; [exact E | auto]]).
Qed.

Lemma fits_number k v c : fits k v c -> k = Number -> convert of_int TDouble v = Some c.
Proof. intros [] ?; try discriminate; reflexivity. Qed.

Lemma one_number v c : fits Number v c -> convert of_int TDouble v = Some c.
Proof. intros H. eapply fits_number; eauto. Qed.

Lemma as_documented m ks f g vs cs :
  says m ks f g -> Forall2 (fun kv c => fits (fst kv) (snd kv) c) (combine ks vs) cs ->
  List.length vs = List.length ks -> ~ exempt m vs -> ask m vs = Says f cs g.
Proof.
  intros S F L X. unfold exempt, of_probfn in X. destruct S; cbn in L;
  repeat (destruct vs as [|? vs]; cbn in L; try discriminate L); cbn in F;
  repeat match goal with H : Forall2 _ (_ :: _) _ |- _ => inversion H; clear H; subst end;
  repeat match goal with H : Forall2 _ [] _ |- _ => inversion H; clear H; subst end; cbn [fst snd] in *;
  try tauto;
  repeat match goal with H : fits Number _ _ |- _ => apply one_number in H end;
  try solve [unfold Methods.ask, call; cbn -[convert];
    repeat match goal with H : convert _ TDouble _ = _ |- _ => rewrite H; clear H end; reflexivity].
  - match goal with H : fits Lognormal _ _ |- _ => inversion H; subst end; [reflexivity|].
    exfalso. apply X. do 3 right. left. eauto.
  - match goal with H : fits Lognormal _ _ |- _ => inversion H; subst end; [reflexivity|].
    exfalso. apply X. do 3 right. left. eauto.
  - match goal with H : fits Boolean _ _ |- _ => inversion H; subst end.
    unfold Methods.ask, call; cbn -[convert].
    match goal with H : convert _ TDouble _ = _ |- _ => rewrite H end. reflexivity.
Qed.

Lemma years z l c :
  (- (2 ^ 31) <= z < 2 ^ 31)%Z -> fits Number l c ->
  ask StrECost [VInt z; l] = Says "Structure::E_cost" [CInt z; c] PyNumber.
Proof.
  intros Z F. apply one_number in F. unfold Methods.ask, call. cbn -[convert Z.leb].
  rewrite F. unfold convert.
  replace (-2147483648 <=? z)%Z with true by (symmetry; apply Z.leb_le; lia).
  replace (z <=? 2147483647)%Z with true by (symmetry; apply Z.leb_le; lia). reflexivity.
Qed.

Lemma fraction (x : T) l : ask StrECost [VFloat x; l] = Refused.
Proof. reflexivity. Qed.

Lemma beyond z l : ~ (- (2 ^ 31) <= z < 2 ^ 31)%Z -> ask StrECost [VInt z; l] = Refused.
Proof.
  intros Z. unfold Methods.ask, call. cbn -[Z.leb].
  destruct ((-2147483648 <=? z)%Z && (z <=? 2147483647)%Z) eqn:E; [|reflexivity].
  exfalso. apply Z. apply andb_prop in E; destruct E as [A B]. apply Z.leb_le in A. apply Z.leb_le in B. lia.
Qed.

Lemma whole_years z l c :
  fits Number l c ->
  ((- (2 ^ 31) <= z < 2 ^ 31)%Z -> ask StrECost [VInt z; l] = Says "Structure::E_cost" [CInt z; c] PyNumber) /\
  (~ (- (2 ^ 31) <= z < 2 ^ 31)%Z -> ask StrECost [VInt z; l] = Refused).
Proof. intros F. split; intros Z; [now apply years | now apply beyond]. Qed.

Lemma refute_years : exists v c, fits Number v c /\ forall l, ask StrECost [v; l] = Refused.
Proof. exists (VFloat (of_int 50)), (CDouble (of_int 50)). split; [constructor | intros l; apply fraction]. Qed.

Lemma returned m d :
  m = StrSetRebuild \/ m = StrSetDemolition \/ m = ImSetCollapse \/ m = ImSetDemolition ->
  ask m [VLognormal d] = Refused.
Proof. intros [-> | [-> | [-> | ->]]]; reflexivity. Qed.

Lemma setters m f v :
  (m = StrSetRebuild /\ f = "Structure::setRebuildCost") \/ (m = StrSetDemolition /\ f = "Structure::setDemolitionCost") \/
  (m = ImSetCollapse /\ f = "IM::SetCollapse") \/ (m = ImSetDemolition /\ f = "IM::SetDemolition") ->
  (exists d, v = VDist d /\ ask m [v] = Says f [CDist d] PyNone) \/ ((forall d, v <> VDist d) /\ ask m [v] = Refused).
Proof.
  intros [[-> ->] | [[-> ->] | [[-> ->] | [-> ->]]]]; (destruct v; [right | right | right | left | right | right]);
  try (split; [discriminate | reflexivity]); (eexists; split; reflexivity).
Qed.

Lemma no_figure m ks f g vs :
  of_probfn m \/ m = GrpCost -> says m ks f g -> List.length vs = List.length ks -> ask m vs = NoAttribute.
Proof.
  intros H S L. unfold Methods.ask.
  destruct H as [[-> | [-> | [-> | [-> | [-> | ->]]]]] | ->]; inversion S; subst; rewrite L; reflexivity.
Qed.

Lemma wrapped_absent a : wrapped a = NoAttribute (T := T) -> a = NoAttribute.
Proof. now destruct a as [? ? []| |]. Qed.

Lemma wrapped_list_absent a : wrapped_list a = NoAttribute (T := T) -> a = NoAttribute.
Proof. now destruct a as [? ? []| |]. Qed.

Lemma lacking m vs : ask m vs = NoAttribute -> of_probfn m \/ m = GrpCost.
Proof.
  unfold Methods.ask, of_probfn. destruct (Nat.eqb _ _); [|discriminate].
  destruct m; intros H; try tauto; exfalso;
  try apply wrapped_absent in H; try apply wrapped_list_absent in H; revert H; unfold call; cbn -[converts];
  match goal with |- context [converts ?a ?b ?c] => generalize (converts a b c) end; intros []; discriminate.
Qed.

Lemma refute_method (x : T) :
  exists m ks f g vs cs,
    says m ks f g /\ Forall2 (fun kv c => fits (fst kv) (snd kv) c) (combine ks vs) cs /\
    List.length vs = List.length ks /\ ask m vs <> Says f cs g.
Proof.
  exists ProbMedian, [Number], "ProbabilisticFn::Median", PyNumber, [VFloat x], [CDouble x].
  split; [constructor | split; [repeat constructor | split; [reflexivity | discriminate]]].
Qed.

Lemma deaggregated v c :
  fits Number v c -> ask StrDeaggregated [v] = Says "Structure::DeaggregatedCost" [c] PyDists.
Proof. intros F. apply one_number in F. unfold Methods.ask, call. cbn -[convert]. now rewrite F. Qed.

Lemma hint_kept p vs :
  p <> PlotSimple \/ vs <> [] -> hint_get (fold_left hint_set vs (hint_made (T := T) p)) = Some (last_set vs).
Proof.
  unfold last_set. destruct vs as [|v vs] using rev_ind; [now destruct p; intros [] |].
  intros _. rewrite fold_left_app, rev_app_distr. reflexivity.
Qed.

Lemma refute_hint : exists p (vs : list (value T)), hint_get (fold_left hint_set vs (hint_made p)) <> Some (last_set vs).
Proof. exists PlotSimple, []. discriminate. Qed.

End Proofs.

Lemma one_figure m ks ks' f f' g g' : says m ks f g -> says m ks' f' g' -> ks = ks' /\ f = f' /\ g = g'.
Proof. intros [] H; inversion H; auto. Qed.
