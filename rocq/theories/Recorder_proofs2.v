(** More proofs about the tables of recorders: categories, densities, and the claim
    as a whole. *)

Require Import String Ascii ZArith List Bool Permutation Sorted Lia Arith.
From Verif Require Import Recorder Recorder_spec Recorder_proofs.
Import ListNotations.
Open Scope string_scope.
Open Scope list_scope.

(** The alphabetical order. *)
Lemma ascii_compare_eq : forall a b, Ascii.compare a b = Eq -> a = b.
Proof.
  intros a b H. unfold Ascii.compare in H. apply N.compare_eq in H.
  rewrite <- (ascii_N_embedding a), <- (ascii_N_embedding b). now f_equal.
Qed.

Lemma ascii_compare_refl : forall a, Ascii.compare a a = Eq.
Proof. intros. unfold Ascii.compare. apply N.compare_refl. Qed.

Lemma ascii_compare_flip : forall a b, Ascii.compare b a = CompOpp (Ascii.compare a b).
Proof. intros. unfold Ascii.compare. apply N.compare_antisym. Qed.

Lemma ascii_compare_trans : forall a b c, Ascii.compare a b = Lt -> Ascii.compare b c = Lt -> Ascii.compare a c = Lt.
Proof. unfold Ascii.compare. intros a b c. rewrite !N.compare_lt_iff. lia. Qed.

Lemma compare_refl : forall s, String.compare s s = Eq.
Proof. induction s; cbn; [reflexivity|]. now rewrite ascii_compare_refl. Qed.

Lemma compare_eq : forall s t, String.compare s t = Eq -> s = t.
Proof.
  induction s as [|a s IH]; intros [|b t] H; cbn in H; try discriminate; [reflexivity|].
  destruct (Ascii.compare a b) eqn:E; try discriminate. apply ascii_compare_eq in E. subst. f_equal. auto.
Qed.

Lemma compare_flip : forall s t, String.compare t s = CompOpp (String.compare s t).
Proof.
  induction s as [|a s IH]; intros [|b t]; cbn; try reflexivity.
  rewrite (ascii_compare_flip a b). destruct (Ascii.compare a b); cbn; auto.
Qed.

Lemma compare_trans : forall s t u, String.compare s t = Lt -> String.compare t u = Lt -> String.compare s u = Lt.
Proof.
  induction s as [|a s IH]; intros [|b t] [|c u] H1 H2; cbn in *; try discriminate; [reflexivity|].
  destruct (Ascii.compare a b) eqn:E1; try discriminate; destruct (Ascii.compare b c) eqn:E2; try discriminate.
  - apply ascii_compare_eq in E1, E2. subst. rewrite ascii_compare_refl. eauto.
  - apply ascii_compare_eq in E1. subst. now rewrite E2.
  - apply ascii_compare_eq in E2. subst. now rewrite E1.
  - now rewrite (ascii_compare_trans _ _ _ E1 E2).
Qed.

Definition before (a b : string * list nat) : Prop := String.ltb (fst a) (fst b) = true.

Lemma before_compare : forall a b, before a b <-> String.compare (fst a) (fst b) = Lt.
Proof. intros. unfold before, String.ltb. destruct (String.compare _ _); split; congruence. Qed.

Lemma before_trans : forall a b c, before a b -> before b c -> before a c.
Proof. intros a b c. rewrite !before_compare. apply compare_trans. Qed.

Lemma before_irrefl : forall a b, fst a = fst b -> ~ before a b.
Proof. intros a b E H. apply before_compare in H. rewrite E, compare_refl in H. discriminate. Qed.

Lemma before_asym : forall a b, before a b -> ~ before b a.
Proof. intros a b H1 H2. exact (before_irrefl a a eq_refl (before_trans _ _ _ H1 H2)). Qed.

Lemma sorted_unique : forall l m, StronglySorted before l -> StronglySorted before m -> Permutation l m -> l = m.
Proof.
  induction l as [|a l IH]; intros m Hl Hm P.
  - apply Permutation_nil in P. now subst.
  - destruct m as [|b m]; [apply Permutation_sym, Permutation_nil in P; discriminate|].
    inversion Hl as [|? ? Sl Fl]; subst. inversion Hm as [|? ? Sm Fm]; subst.
    rewrite Forall_forall in Fl, Fm.
    assert (E : a = b).
    { assert (Ha : In a (b :: m)) by (eapply Permutation_in; [exact P|now left]).
      assert (Hb : In b (a :: l)) by (eapply Permutation_in; [apply Permutation_sym; exact P|now left]).
      destruct Ha as [Ha|Ha]; [now subst|]. destruct Hb as [Hb|Hb]; [now subst|].
      exfalso. exact (before_asym _ _ (Fl _ Hb) (Fm _ Ha)). }
    subst. f_equal. apply IH; auto. now apply Permutation_cons_inv in P.
Qed.

Lemma sorted_keys_NoDup : forall l, StronglySorted before l -> NoDup (map fst l).
Proof.
  induction 1 as [|a l S IH F]; cbn; constructor; auto.
  intros Hin. apply in_map_iff in Hin. destruct Hin as [b [E Hin]].
  rewrite Forall_forall in F. exact (before_irrefl a b (eq_sym E) (F _ Hin)).
Qed.

Lemma insert_perm : forall e l, Permutation (insert e l) (e :: l).
Proof.
  induction l as [|x l IH]; cbn; [apply Permutation_refl|].
  destruct (String.leb (fst e) (fst x)); [apply Permutation_refl|].
  eapply Permutation_trans; [apply perm_skip, IH|apply perm_swap].
Qed.

Lemma sort_keys_perm : forall l, Permutation (sort_keys l) l.
Proof.
  induction l as [|a l IH]; cbn; [apply Permutation_refl|].
  eapply Permutation_trans; [apply insert_perm|]. now apply perm_skip.
Qed.

Lemma insert_sorted : forall e l, ~ In (fst e) (map fst l) -> StronglySorted before l -> StronglySorted before (insert e l).
Proof.
  induction l as [|x l IH]; intros Hn Hs; cbn; [repeat constructor|].
  inversion Hs as [|? ? Sl Fl]; subst.
  unfold String.leb. destruct (String.compare (fst e) (fst x)) eqn:E.
  - exfalso. apply Hn. left. symmetry. now apply compare_eq.
  - assert (Hb : before e x) by now apply before_compare.
    constructor; auto. constructor; auto.
    rewrite Forall_forall in *. intros y Hy. eapply before_trans; eauto.
  - constructor.
    + apply IH; auto. intros Hin. apply Hn. now right.
    + rewrite Forall_forall in *. intros y Hy. apply (Permutation_in y (insert_perm e l)) in Hy.
      destruct Hy as [<-|Hy]; auto. apply before_compare. now rewrite compare_flip, E.
Qed.

Lemma sort_keys_sorted : forall l, NoDup (map fst l) -> StronglySorted before (sort_keys l).
Proof.
  induction l as [|a l IH]; cbn; intros H; [constructor|].
  inversion H as [|? ? Hn Hd]; subst. apply insert_sorted; auto.
  intros Hin. apply Hn. eapply Permutation_in; [|exact Hin]. apply Permutation_map, sort_keys_perm.
Qed.

Lemma put_new : forall d k v, ~ In k (map fst d) -> put d k v = d ++ [(k, v)].
Proof.
  induction d as [|[k' v'] d IH]; intros k v H; cbn; [reflexivity|].
  destruct (String.eqb_spec k' k) as [->|_]; [exfalso; apply H; now left|].
  rewrite IH; [reflexivity|]. intros Hin. apply H. now right.
Qed.

Lemma categories_ok : forall m d, NoDup (map fst (d ++ m)) ->
  categories (map (fun c => (Some (fst c), snd c)) m) d = Ok (d ++ m).
Proof.
  induction m as [|[k v] m IH]; intros d H; cbn; [now rewrite app_nil_r|].
  rewrite put_new.
  - rewrite IH; rewrite <- app_assoc; [reflexivity|exact H].
  - rewrite map_app in H. cbn in H. apply NoDup_remove_2 in H. intros Hin. apply H. apply in_or_app. now left.
Qed.

Lemma categories_sorted : forall l cats, sorted_categories l cats ->
  exists d, categories l [] = Ok d /\ sort_keys d = cats.
Proof.
  intros l cats [P S]. change (StronglySorted before cats) in S.
  apply Permutation_map_inv in P. destruct P as [m [-> P]].
  assert (Hd : NoDup (map fst m)).
  { eapply Permutation_NoDup; [apply Permutation_map; exact P|]. now apply sorted_keys_NoDup. }
  exists m. split.
  - now rewrite (categories_ok m []).
  - apply sorted_unique; auto.
    + now apply sort_keys_sorted.
    + eapply Permutation_trans; [apply sort_keys_perm|]. now apply Permutation_sym.
Qed.

Section Tables.

Variable L : lib.
Notation num := (num L).

Lemma by_groups_ok : forall w t comps b id ss cats (xs : list num) d n,
  t = by_edp_t /\ w = 15 /\ comps = by_edp L \/ t = by_frag_t /\ w = 20 /\ comps = by_frag L ->
  ss <> [] -> Forall plain_stat ss -> sorted_categories (comps b) cats ->
  prints t (OStr b (Some id)) (Some (map (fun s => PStr (spell s)) ss)) (Some (map PNum xs)) d n
    (label id :: crossed (fun c s => (w, append (fst c) (append "." (spell s)))) cats ss)
    (map (fun x => datum x :: crossed (fun c s => (w, g6 L (stat_of L s (joint (snd c) x)))) cats ss) xs).
Proof.
  intros w t comps b id ss cats xs d n Ht Hne Hs Hc.
  destruct (categories_sorted _ _ Hc) as [dd [E1 E2]].
  apply (by_out_ok L (string * list nat) w t (OStr b (Some id)) _ id fst cats (fun c x => joint (snd c) x) ss xs d n); auto.
  - destruct Ht as [[-> _]|[-> _]]; reflexivity.
  - intros r Er Ef.
    assert (Eg : generate r = by_groups_out L w comps r).
    { unfold generate. rewrite Er. destruct Ht as [[-> [-> ->]]|[-> [-> ->]]]; reflexivity. }
    rewrite Eg. unfold by_groups_out. rewrite Ef, E1. cbn [after]. rewrite E2. reflexivity.
Qed.

Lemma by_fate_ok : forall b id ss (xs : list num) d n,
  ss <> [] -> Forall plain_stat ss ->
  prints by_fate (OStr b (Some id)) (Some (map (fun s => PStr (spell s)) ss)) (Some (map PNum xs)) d n
    (label id :: crossed (fun f s => label (append f (append "." (spell s)))) ["repair"; "demo"; "coll"] ss)
    (map (fun x => datum x :: crossed (fun f s => datum (stat_of L s (costs L (Fate b f x)))) [0; 1; 2] ss) xs).
Proof.
  intros b id ss xs d n Hne Hs.
  apply (by_out_ok L nat 15 by_fate (OStr b (Some id)) _ id fate_name [0; 1; 2] (fun f x => costs L (Fate b f x)) ss xs d n); auto.
  intros r Er Ef. unfold generate. rewrite Er. unfold fate_out. rewrite Ef. reflexivity.
Qed.

Lemma npv_ok : forall b id zs d n,
  @prints L npv (OStr b id) None (Some (map PInt zs)) d n
    [label "Year"; label "E[ALt]"] (map (fun z => [label (dec z); datum (value L (Npv b z d))]) zs).
Proof.
  intros b id zs d n.
  eapply (made_ok L npv _ None (Some [PStr "mean_x"]) _ d n).
  - reflexivity.
  - cbn [generate r_type]. unfold npv_out. cbn [at_list r_at after]. rewrite map_map. reflexivity.
  - apply (shows_labels "Year" ["E[ALt]"]).
  - apply Forall2_map_both. intros z _. cbn [fmt bind r_fn fmt6 r_rate].
    eexists. split; [reflexivity|]. apply shows_cell, shows_one.
Qed.

(** Densities. *)
Section Max.
Hypothesis gtb_trans : forall a b c, gtb L a b = true -> gtb L b c = true -> gtb L a c = true.
Hypothesis gtb_total : forall a b, gtb L a b = true \/ a = b \/ gtb L b a = true.
Hypothesis gtb_irrefl : forall a, gtb L a a = false.

Lemma gtb_asym : forall a b, gtb L a b = true -> gtb L b a = false.
Proof.
  intros a b H. destruct (gtb L b a) eqn:E; [|reflexivity].
  pose proof (gtb_trans _ _ _ H E) as C. rewrite gtb_irrefl in C. discriminate.
Qed.

Lemma max_pdf_some : forall l m, gtb L m (ofZ L 0) = true ->
  exists m', max_pdf L l (Some m) = Some m' /\ (m' = m \/ In m' l) /\ gtb L m m' = false /\ Forall (fun p => gtb L p m' = false) l.
Proof.
  induction l as [|p l IH]; intros m Hm; cbn.
  - exists m. repeat split; auto.
  - destruct (gtb L p m) eqn:E.
    + destruct (IH p (gtb_trans _ _ _ E Hm)) as [m' [E' [Hin [Hp Hl]]]].
      exists m'. repeat split; auto.
      * destruct Hin as [->|Hin]; auto.
      * destruct (gtb L m m') eqn:G; [|reflexivity]. now rewrite (gtb_trans _ _ _ E G) in Hp.
    + destruct (IH m Hm) as [m' [E' [Hin [Hp Hl]]]].
      exists m'. repeat split; auto.
      * destruct Hin as [->|Hin]; auto.
      * constructor; auto. destruct (gtb L p m') eqn:G; [|reflexivity].
        destruct (gtb_total m p) as [C|[->|C]]; [|now rewrite G in Hp|now rewrite C in E].
        now rewrite (gtb_trans _ _ _ C G) in Hp.
Qed.

Lemma max_pdf_none : forall l p, In p l -> gtb L p (ofZ L 0) = true ->
  exists m, max_pdf L l None = Some m /\ In m l /\ Forall (fun p => gtb L p m = false) l.
Proof.
  induction l as [|q l IH]; intros p Hin Hp; [contradiction|]. cbn.
  destruct (gtb L q (ofZ L 0)) eqn:E.
  - destruct (max_pdf_some l q E) as [m [E' [Hm [Hq Hl]]]]. exists m. repeat split; auto.
    destruct Hm as [->|Hm]; auto.
  - destruct Hin as [->|Hin]; [now rewrite Hp in E|].
    destruct (IH p Hin Hp) as [m [E' [Hm Hl]]]. exists m. repeat split; auto.
    constructor; auto. destruct (gtb L q m) eqn:G; [|reflexivity].
    rewrite Forall_forall in Hl. specialize (Hl p Hin).
    destruct (gtb_total p m) as [C|[->|C]]; [congruence| |];
      exfalso.
    + rewrite (gtb_trans _ _ _ G Hp) in E. discriminate.
    + rewrite (gtb_trans _ _ _ (gtb_trans _ _ _ G C) Hp) in E. discriminate.
Qed.

Lemma largest_unique : forall l m m', largest L l m -> largest L l m' -> m = m'.
Proof.
  intros l m m' [H1 H2] [H3 H4]. rewrite Forall_forall in H2, H4.
  destruct (gtb_total m m') as [C|[C|C]]; auto; [rewrite (H4 m H1) in C|rewrite (H2 m' H3) in C]; discriminate.
Qed.
End Max.

Lemma substring_short : forall s k, String.length s <= k -> substring 0 k s = s.
Proof.
  induction s as [|c s IH]; intros [|k] H; cbn in *; try reflexivity; [lia|]. rewrite IH; [reflexivity|lia].
Qed.

Lemma pdf_ok : forall b id (xs : list num) d (n : bool) (q : num -> num),
  String.length id <= 6 ->
  (let ps := map (fun x => value L (Pdf b x)) xs in
   forall p, (if n then match max_pdf L ps None with Some m => Ok (quot L p m) | None => Raise ZeroDivisionError end
              else Ok (quot L p (ofZ L 1))) = Ok (q p)) ->
  prints pdf (OStr b (Some id)) None (Some (map PNum xs)) d n
    [label id; label "pdf"] (map (fun x => [datum x; datum (q (value L (Pdf b x)))]) xs).
Proof.
  intros b id xs d n q Hid Hq.
  eapply (made_ok L pdf _ None None _ d n).
  - reflexivity.
  - cbn [generate r_type]. unfold pdf_out. cbn [r_fn im_id bind fmt6 at_list r_at after r_normalise].
    rewrite (substring_short id 6 Hid).
    rewrite (collect_ok _ _ _ (fun v : pv L => match v with PNum x => value L (Pdf b x) | _ => ofZ L 0 end) (map PNum xs)).
    + cbn [after]. rewrite !map_map, combine_map, map_map. reflexivity.
    + intros v Hv. apply in_map_iff in Hv. destruct Hv as [x [<- _]]. reflexivity.
  - apply (shows_labels id ["pdf"]).
  - apply Forall2_map_both. intros x _. cbn [fst snd]. rewrite Hq. cbn [bind].
    apply (row_ok L x [q (value L (Pdf b x))]).
Qed.

Lemma spells_inj : forall ss ss',
  map (fun s => @PStr L (spell s)) ss = map (fun s => PStr (spell s)) ss' -> ss = ss'.
Proof.
  induction ss as [|s ss IH]; intros [|s' ss'] E; cbn in E; try discriminate; [reflexivity|].
  injection E as Es Er. f_equal; auto. destruct s, s'; cbn in Es; congruence.
Qed.

(** The claim as a whole, where it holds. *)
Lemma tables_ok : forall t fn cols at_ d n heading rows,
  @table L t fn cols at_ d n heading rows -> sound L t fn cols at_ n -> prints t fn cols at_ d n heading rows.
Proof.
  intros t fn cols at_ d n heading rows T S. destruct T.
  - apply detfn_ok.
  - apply imrate_ok.
  - apply edprate_ok.
  - apply collapse_ok.
  - apply costrate_ok.
  - destruct cs as [|c0 cs0] eqn:Ecs; [contradiction|]. rewrite <- Ecs in *.
    assert (Hc : In c0 cs) by (rewrite Ecs; now left).
    pose proof (H2 c0 (ofZ L 0) Hc) as Hfig.
    destruct t; try (destruct fn; discriminate Hfig); try (apply cols_ok; auto; fail); try (cbn in S; contradiction).
    destruct fn; try discriminate Hfig. cbn [abscissa] in *. eapply edpim_ok; eauto.
  - destruct S as [_ [-> S]]. now apply dsedp_ok.
  - destruct S as [E _]. discriminate.
  - destruct S as [_ S]. now apply dsim_ok.
  - destruct S as [E _]. discriminate.
  - apply dsrate_ok.
  - apply collrate_ok.
  - now apply annual_ok.
  - destruct S as [ss' [E F]].
    injection E as E. apply spells_inj in E. subst ss'. apply (by_groups_ok 15 by_edp_t (by_edp L)); auto 6.
  - destruct S as [ss' [E F]].
    injection E as E. apply spells_inj in E. subst ss'. apply (by_groups_ok 20 by_frag_t (by_frag L)); auto 6.
  - destruct S as [ss' [E F]].
    injection E as E. apply spells_inj in E. subst ss'. now apply by_fate_ok.
  - apply npv_ok.
  - destruct S as [Hid [Hq _]]. apply (pdf_ok b id xs d false (fun p => p) Hid). intros ps p. cbn. now rewrite Hq.
  - destruct S as [Hid [_ Hn]]. destruct (Hn eq_refl) as [Ht [Hto [Hi [l [x [E [Hin Hp]]]]]]].
    injection E as <-. apply in_map_iff in Hin. destruct Hin as [x' [Ex Hin]]. injection Ex as ->.
    destruct (max_pdf_none Ht Hto Hi (map (fun x => value L (Pdf b x)) xs) (value L (Pdf b x)) (in_map _ _ _ Hin) Hp)
      as [m' [Em [Hm Hl]]].
    assert (m' = m) by (eapply largest_unique; eauto; split; auto). subst m'.
    apply (pdf_ok b id xs d true (fun p => quot L p m) Hid). intros ps p. cbn beta iota. unfold ps. now rewrite Em.
Qed.

End Tables.
