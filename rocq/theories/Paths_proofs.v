(** Proofs about file names. *)

Require Import Ascii String List Bool Lia.
From Verif Require Import Paths Paths_spec.
Import ListNotations.

Lemma eqb_slash : forall c, Ascii.eqb c slash = true <-> c = slash.
Proof. intros. apply Ascii.eqb_eq. Qed.

Lemma head_tail_app : forall p, p = fst (head_tail p) ++ snd (head_tail p).
Proof.
  induction p as [|c r IH]; auto. cbn. destruct (head_tail r) as [h t]. cbn in IH. subst r.
  destruct h as [|x h]; cbn; auto. destruct (Ascii.eqb c slash); auto.
Qed.

Lemma tail_none : forall p, ~ In slash (snd (head_tail p)).
Proof.
  induction p as [|c r IH]; auto. cbn. destruct (head_tail r) as [h t]. cbn in IH.
  destruct h as [|x h]; cbn; auto. destruct (Ascii.eqb c slash) eqn:E; cbn; auto.
  intros [H|H]; auto. apply eqb_slash in H. congruence.
Qed.

Lemma head_end : forall p, fst (head_tail p) = [] \/ exists h, fst (head_tail p) = h ++ [slash].
Proof.
  induction p as [|c r IH]; auto. cbn. destruct (head_tail r) as [h t]. cbn in IH.
  destruct h as [|x h]; cbn.
  - destruct (Ascii.eqb c slash) eqn:E; cbn; auto. apply eqb_slash in E. subst. right. exists []. auto.
  - destruct IH as [IH|[h' E]]; [discriminate|]. right. exists (c :: h'). cbn. congruence.
Qed.

(** The split is the only one. *)
Lemma split_unique : forall h n h' n', h ++ n = h' ++ n' -> ~ In slash n -> ~ In slash n' ->
  (h = [] \/ exists k, h = k ++ [slash]) -> (h' = [] \/ exists k, h' = k ++ [slash]) -> h = h' /\ n = n'.
Proof.
  induction h as [|c h IH]; intros n h' n' E N N' H H'.
  - destruct h' as [|c' h']; auto. cbn in E. exfalso. apply N. rewrite E.
    destruct H' as [H'|[k H']]; [discriminate|]. change (c' :: h' ++ n') with ((c' :: h') ++ n'). rewrite H'.
    apply in_or_app. left. apply in_or_app. right. left. auto.
  - destruct h' as [|c' h'].
    + cbn in E. exfalso. apply N'. rewrite <- E.
      destruct H as [H|[k H]]; [discriminate|]. change (c :: h ++ n) with ((c :: h) ++ n). rewrite H.
      apply in_or_app. left. apply in_or_app. right. left. auto.
    + cbn in E. inversion E as [[Ec Er]]. subst c'.
      assert (Q : forall h, (c :: h = [] \/ exists k, c :: h = k ++ [slash]) -> h = [] \/ exists k, h = k ++ [slash]).
      { intros h0 [Q|[k Q]]; [discriminate|]. destruct k as [|a k]; cbn in Q; inversion Q; subst; auto. right. exists k. auto. }
      destruct (IH n h' n' Er N N' (Q _ H) (Q _ H')). subst. auto.
Qed.

Lemma head_tail_unique : forall p h n, p = h ++ n -> ~ In slash n -> (h = [] \/ exists k, h = k ++ [slash]) ->
  head_tail p = (h, n).
Proof.
  intros p h n E N H. pose proof (head_tail_app p) as A. pose proof (tail_none p) as T. pose proof (head_end p) as Q.
  destruct (head_tail p) as [h' n']. cbn in *. rewrite E in A.
  destruct (split_unique _ _ _ _ A N T H Q) as [U1 U2]. rewrite U1, U2. reflexivity.
Qed.

Lemma head_tail_none : forall p, ~ In slash p -> head_tail p = ([], p).
Proof. intros. apply head_tail_unique; auto. Qed.

Lemma dirname_empty : forall p, dirname p = [] <-> ~ In slash p.
Proof.
  intros p. unfold dirname. pose proof (head_tail_app p) as A. pose proof (tail_none p) as T. pose proof (head_end p) as Q.
  destruct (head_tail p) as [h n]. cbn in *. split.
  - intros E. assert (h = []) by (destruct (rstrip h); [auto|discriminate]). subst. auto.
  - intros N. destruct Q as [Q|[k Q]]; subst; auto. exfalso. apply N.
    apply in_or_app. left. apply in_or_app. right. left. auto.
Qed.

Lemma ends_slash_spec : forall p, ends_slash p = true <-> exists k, p = k ++ [slash].
Proof.
  intros p. unfold ends_slash. split.
  - destruct (rev p) as [|c r] eqn:E; [discriminate|]. intros H. apply eqb_slash in H. subst c.
    exists (rev r). rewrite <- (rev_involutive p), E. auto.
  - intros [k ->]. rewrite rev_app_distr. reflexivity.
Qed.

Lemma join_inside : forall d p, d <> [] -> ~ In slash p -> inside d p (join d p).
Proof.
  intros d p D N. unfold inside.
  assert (Q : join d p = if ends_slash d then d ++ p else d ++ slash :: p).
  { unfold join. destruct d as [|x d]; [congruence|]. destruct p as [|c r]; auto.
    destruct (Ascii.eqb c slash) eqn:E; auto. apply eqb_slash in E. subst. exfalso. apply N. left. auto. }
  rewrite Q. destruct (ends_slash d) eqn:E.
  - left. apply ends_slash_spec in E. destruct E as [k E]. exists k. auto.
  - right. split; auto. intros k H. assert (ends_slash d = true) by (apply ends_slash_spec; eauto). congruence.
Qed.

(** ** Extensions *)

Lemma eqb_dot : forall c, Ascii.eqb c dot = true <-> c = dot.
Proof. intros. apply Ascii.eqb_eq. Qed.

Lemma last_dot_none : forall p, last_dot p = None -> ~ In dot p.
Proof.
  induction p as [|c r IH]; auto. cbn. destruct (last_dot r) as [[b e]|]; [discriminate|].
  destruct (Ascii.eqb c dot) eqn:E; [discriminate|]. intros _ [H|H]; [|apply IH; auto].
  apply eqb_dot in H. congruence.
Qed.

Lemma last_dot_some : forall p b e, last_dot p = Some (b, e) -> exists e', e = dot :: e' /\ p = b ++ e /\ ~ In dot e'.
Proof.
  induction p as [|c r IH]; cbn; [discriminate|]. intros b e.
  destruct (last_dot r) as [[b' e0]|] eqn:E.
  - intros H. inversion H; subst. destruct (IH _ _ eq_refl) as (e' & Q1 & Q2 & Q3). exists e'. subst. auto.
  - destruct (Ascii.eqb c dot) eqn:Ec; [|discriminate]. intros H. inversion H; subst. apply eqb_dot in Ec. subst.
    exists r. repeat split; auto. apply last_dot_none. auto.
Qed.

Lemma dot_unique : forall b e b' e', b ++ dot :: e = b' ++ dot :: e' -> ~ In dot e -> ~ In dot e' -> b = b' /\ e = e'.
Proof.
  induction b as [|c b IH]; intros e [|c' b'] e' H N N'; cbn in H; inversion H; subst; auto.
  - exfalso. apply N. apply in_or_app. right. left. auto.
  - exfalso. apply N'. apply in_or_app. right. left. auto.
  - destruct (IH _ _ _ H2 N N'). subst. auto.
Qed.

Lemma all_dots : forall b, forallb (fun c => Ascii.eqb c dot) b = false <-> exists c, In c b /\ c <> dot.
Proof.
  induction b as [|c b IH]; cbn; [split; [discriminate|intros (c & [] & _)]|].
  destruct (Ascii.eqb c dot) eqn:E; cbn.
  - rewrite IH. apply eqb_dot in E. subst. split; [intros (x & H1 & H2); eauto|].
    intros (x & [H1|H1] & H2); [congruence|eauto].
  - split; auto. intros _. exists c. split; auto. intros ->. rewrite Ascii.eqb_refl in E. discriminate.
Qed.

Lemma extension_spec : forall p h n, p = h ++ n -> ~ In slash n -> (h = [] \/ exists k, h = k ++ [slash]) ->
  (has_extension n <-> extension p <> []).
Proof.
  intros p h n E N H. unfold extension. rewrite (head_tail_unique p h n E N H). cbn [snd].
  destruct (last_dot n) as [[b e]|] eqn:L.
  - destruct (last_dot_some _ _ _ L) as (e' & -> & -> & N'). split.
    + intros (b1 & e1 & Q & N1 & c & I & D). apply dot_unique in Q; auto. destruct Q as [<- <-].
      assert (F : forallb (fun c => Ascii.eqb c dot) b = false) by (apply all_dots; eauto). rewrite F. discriminate.
    + destruct (forallb (fun c => Ascii.eqb c dot) b) eqn:F; [congruence|]. intros _.
      apply all_dots in F. exists b, e'. auto.
  - split; [|congruence]. intros (b & e & Q & _). exfalso. apply (last_dot_none _ L). rewrite Q.
    apply in_or_app. right. left. auto.
Qed.

Theorem path_meant : forall set p, meant (in_use set) p (full_path set p).
Proof.
  intros set p. unfold meant, full_path.
  assert (D : in_use set = match set with Some (c :: r) => c :: r | _ => lit "." end) by (destruct set as [[|]|]; auto).
  rewrite <- D. assert (Dn : in_use set <> []) by (rewrite D; destruct set as [[|]|]; discriminate).
  set (f0 := match dirname p with [] => join (in_use set) p | _ => p end).
  exists f0. split; [|split].
  - intros I. unfold f0. destruct (dirname p) as [|] eqn:E; auto. apply dirname_empty in E. contradiction.
  - intros I. unfold f0. rewrite (proj2 (dirname_empty p) I). apply join_inside; auto.
  - intros h n E N H.
    assert (X : exists h0, f0 = h0 ++ n /\ (h0 = [] \/ exists k, h0 = k ++ [slash])).
    { unfold f0. destruct (dirname p) as [|] eqn:Ed; [|exists h; auto].
      apply dirname_empty in Ed. assert (h = []).
      { destruct H as [H|[k H]]; auto. exfalso. apply Ed. rewrite E, H. apply in_or_app. left. apply in_or_app. right. left. auto. }
      subst h. cbn in E. subst n.
      destruct (join_inside (in_use set) p Dn N) as [[k [Q1 Q2]]|[Q1 Q2]]; rewrite Q2.
      - exists (in_use set). split; auto. right. exists k. auto.
      - exists (in_use set ++ [slash]). split; [rewrite <- app_assoc; auto|]. right. eauto. }
    destruct X as (h0 & E0 & H0). pose proof (extension_spec f0 h0 n E0 N H0) as S. split; intros Q.
    + apply S in Q. destruct (extension f0); congruence.
    + destruct (extension f0) eqn:Ef; auto. exfalso. apply Q. apply S. discriminate.
Qed.

(** ** Doing it twice *)

Lemma csv_extension : forall n, (exists c, In c n /\ c <> dot) -> has_extension (n ++ lit ".csv").
Proof.
  intros n (c & I & N). exists n, (lit "csv"). split; [reflexivity|]. split; [|eauto].
  cbn. intros [H|[H|[H|[]]]]; discriminate.
Qed.

Theorem path_twice : forall set p,
  (exists h n c, p = h ++ n /\ ~ In slash n /\ (h = [] \/ exists h', h = h' ++ [slash]) /\ In c n /\ c <> dot) ->
  full_path set (full_path set p) = full_path set p.
Proof.
  intros set p (h & n & c & E & N & H & I & C).
  destruct (path_meant set p) as (f0 & A1 & A2 & A3). destruct (A3 h n E N H) as [B1 B2].
  assert (X : exists h0, f0 = h0 ++ n /\ exists k, h0 = k ++ [slash]).
  { destruct H as [->|[k ->]].
    - cbn in E. subst n. destruct (A2 N) as [[k [Q1 Q2]]|[Q1 Q2]]; rewrite Q2.
      + exists (in_use set). split; eauto.
      + exists (in_use set ++ [slash]). split; [rewrite <- app_assoc; auto|eauto].
    - exists (k ++ [slash]). split; eauto. rewrite <- E. apply A1. rewrite E. apply in_or_app. left. apply in_or_app. right. left. auto. }
  destruct X as (h0 & E0 & k & H0). set (f := full_path set p) in *.
  assert (Ff : exists n1, f = h0 ++ n1 /\ ~ In slash n1 /\ has_extension n1).
  { destruct (extension_spec p h n E N H) as [X1 X2].
    destruct (extension p) eqn:Ex.
    - assert (Nx : ~ has_extension n) by (intros Q; apply X1 in Q; congruence).
      exists (n ++ lit ".csv"). rewrite (B2 Nx), E0, <- app_assoc. repeat split; auto.
      + intros Q. apply in_app_or in Q. destruct Q as [Q|Q]; auto. cbn in Q.
        destruct Q as [Q|[Q|[Q|[Q|[]]]]]; discriminate.
      + apply csv_extension. eauto.
    - assert (Hx : has_extension n) by (apply X2; discriminate). exists n. rewrite (B1 Hx). auto. }
  destruct Ff as (n1 & F1 & F2 & F3).
  destruct (path_meant set f) as (f1 & C1 & C2 & C3).
  destruct (C3 h0 n1 F1 F2 (or_intror (ex_intro _ k H0))) as [D1 _]. rewrite (D1 F3).
  apply C1. rewrite F1, H0. apply in_or_app. left. apply in_or_app. right. left. auto.
Qed.

Lemma refute_path_twice : exists set p, full_path set (full_path set p) <> full_path set p.
Proof. exists None, (lit ".."). vm_compute. discriminate. Qed.
