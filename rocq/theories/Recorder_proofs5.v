(** Recorders asked for what they do not know: values that are integers, columns
    that are no figures, names that come twice. *)

Require Import String Ascii ZArith List Bool Permutation Sorted Lia Arith.
From Verif Require Import Recorder Recorder_spec Recorder_proofs Recorder_proofs2 Recorder_proofs3.
Import ListNotations.
Open Scope string_scope.
Open Scope list_scope.

(** ** Names *)

Lemma put_in : forall d k v k' v', NoDup (map fst d) ->
  (In (k', v') (put d k v) <-> (k' = k /\ v' = v) \/ (k' <> k /\ In (k', v') d)).
Proof.
  induction d as [|[a b] d IH]; intros k v k' v' Hd; cbn.
  - split; [intros [E|[]]; injection E; auto|intros [[-> ->]|[_ []]]; auto].
  - inversion Hd as [|? ? Hn Hd']; subst. destruct (String.eqb_spec a k) as [->|Hne].
    + cbn. split.
      * intros [E|Hin]; [injection E; auto|]. right. split; [|now right].
        intros ->. apply Hn. apply (in_map fst) in Hin. exact Hin.
      * intros [[-> ->]|[H [E|Hin]]]; auto. injection E as -> ->. contradiction.
    + cbn. rewrite (IH k v k' v' Hd'). split.
      * intros [E|[[-> ->]|[H Hin]]]; auto. injection E as -> ->. right. split; auto.
      * intros [[-> ->]|[H [E|Hin]]]; auto.
Qed.

Lemma put_keys : forall d k v a, In a (map fst (put d k v)) -> a = k \/ In a (map fst d).
Proof.
  induction d as [|[x y] d IH]; intros k v a; cbn.
  - intros [->|[]]; auto.
  - destruct (String.eqb_spec x k) as [->|Hne]; cbn; intros [->|Hin]; auto.
    destruct (IH k v a Hin) as [->|H]; auto.
Qed.

Lemma put_nodup : forall d k v, NoDup (map fst d) -> NoDup (map fst (put d k v)).
Proof.
  induction d as [|[x y] d IH]; intros k v Hd; cbn.
  - constructor; [intros []|constructor].
  - inversion Hd as [|? ? Hn Hd']; subst. destruct (String.eqb_spec x k) as [->|Hne]; cbn; constructor; auto.
    intros Hin. destruct (put_keys _ _ _ _ Hin) as [->|H]; auto.
Qed.

Lemma categories_last : forall l d, (forall e, In e l -> fst e <> None) -> NoDup (map fst d) ->
  exists d', categories l d = Ok d' /\ NoDup (map fst d') /\
    forall k gs, In (k, gs) d' <-> last_entry l k gs \/ (In (k, gs) d /\ forall gs', ~ In (Some k, gs') l).
Proof.
  induction l as [|[[k0|] v0] l IH]; intros d Hl Hd; cbn [categories].
  - exists d. refine (conj eq_refl (conj Hd _)). intros k gs. split; [intros H; right; split; [exact H|intros ? []]|].
    intros [(a & b & E & _)|[H _]]; [destruct a; discriminate|exact H].
  - destruct (IH (put d k0 v0)) as (d' & E & Hd' & Hin); [intros e He; apply Hl; now right|now apply put_nodup|].
    exists d'. refine (conj E (conj Hd' _)). intros k gs. rewrite Hin, (put_in d k0 v0 k gs Hd). split.
    + intros [(a & b & -> & Hb)|[[[-> ->]|[Hne Hk]] Hno]].
      * left. exists ((Some k0, v0) :: a), b. split; [reflexivity|exact Hb].
      * left. exists [], l. split; [reflexivity|exact Hno].
      * right. split; [exact Hk|]. intros gs' [E'|H']; [injection E' as -> _; contradiction|exact (Hno gs' H')].
    + intros [(a & b & E' & Hb)|[Hk Hno]].
      * destruct a as [|e a]; injection E' as E1 E2.
        -- subst. right. split; [left; auto|exact Hb].
        -- left. exists a, b. split; [exact E2|exact Hb].
      * right. split; [right; split; [|exact Hk]|intros gs' H'; apply (Hno gs'); now right].
        intros ->. apply (Hno v0). now left.
  - exfalso. apply (Hl (None, v0)); [now left|reflexivity].
Qed.

Lemma categories_lasts : forall l cats, (forall e, In e l -> fst e <> None) -> last_categories l cats ->
  exists d, categories l [] = Ok d /\ sort_keys d = cats.
Proof.
  intros l cats Hl [Hin S]. change (StronglySorted before cats) in S.
  destruct (categories_last l [] Hl) as (d & E & Hd & Hd'); [constructor|].
  exists d. split; [exact E|].
  apply sorted_unique; [now apply sort_keys_sorted|exact S|].
  eapply Permutation_trans; [apply sort_keys_perm|].
  apply NoDup_Permutation.
  - exact (NoDup_map_inv _ _ Hd).
  - exact (NoDup_map_inv _ _ (sorted_keys_NoDup _ S)).
  - intros [k gs]. rewrite Hin, Hd'. split; [intros [H|[[] _]]; exact H|auto].
Qed.

Section Tables.

Variable L : lib.
Notation num := (num L).

Lemma groups_last : forall w t comps b id ss cats (xs : list num) d n,
  t = by_edp_t /\ w = 15 /\ comps = by_edp L \/ t = by_frag_t /\ w = 20 /\ comps = by_frag L ->
  ss <> [] -> Forall (fun s => s <> mean_ln_x /\ s <> median_x) ss ->
  (forall e, In e (comps b) -> fst e <> None) -> last_categories (comps b) cats ->
  prints t (OStr b (Some id)) (Some (map (fun s => PStr (spell s)) ss)) (Some (map PNum xs)) d n
    (label id :: crossed (fun c s => (w, append (fst c) (append "." (spell s)))) cats ss)
    (map (fun x => datum x :: crossed (fun c s => (w, g6 L (stat_of L s (joint (snd c) x)))) cats ss) xs).
Proof.
  intros w t comps b id ss cats xs d n Ht Hne Hs Hl Hc.
  destruct (categories_lasts _ _ Hl Hc) as [dd [E1 E2]].
  apply (by_out_ok L (string * list nat) w t (OStr b (Some id)) _ id fst cats (fun c x => joint (snd c) x) ss xs d n); auto.
  - destruct Ht as [[-> _]|[-> _]]; reflexivity.
  - intros r Er Ef.
    assert (Eg : generate r = by_groups_out L w comps r).
    { unfold generate. rewrite Er. destruct Ht as [[-> [-> ->]]|[-> [-> ->]]]; reflexivity. }
    rewrite Eg. unfold by_groups_out. rewrite Ef, E1. cbn [after]. rewrite E2. reflexivity.
Qed.

Lemma groups_unnamed : forall t comps b id gs cols at_ (d : num) n h rows,
  t = by_edp_t /\ comps = by_edp L \/ t = by_frag_t /\ comps = by_frag L ->
  In (None, gs) (comps b) -> ~ prints t (OStr b id) cols at_ d n h rows.
Proof.
  intros t comps b id gs cols at_ d n h rows Ht Hin (r & a & l & Hm & Hg & _).
  assert (E : forall l d0, In (None, gs) l -> categories l d0 = Raise AttributeError).
  { clear. induction l as [|[[k|] v] l IH]; intros d0 H; cbn; [destruct H| |reflexivity].
    destruct H as [H|H]; [discriminate|]. now apply IH. }
  assert (Er : r_type r = t /\ r_fn r = OStr b id).
  { clear - Hm Ht. destruct Ht as [[-> _]|[-> _]]; cbn in Hm; destruct at_; try discriminate;
      destruct cols as [[|]|]; injection Hm as <-; auto. }
  destruct Er as [Er Ef]. unfold generate in Hg. rewrite Er in Hg.
  destruct Ht as [[-> ->]|[-> ->]]; unfold by_groups_out in Hg; rewrite Ef, (E _ [] Hin) in Hg; discriminate.
Qed.

(** ** Values *)

Lemma values_needed : forall t fn cols (d : num) n h rows,
  prints t fn cols None d n h rows -> t = dsrate \/ t = collrate \/ t = annual.
Proof.
  intros t fn cols d n h rows (r & a & l & Hm & _). destruct t; auto; discriminate.
Qed.

Lemma print_all_raise : forall (l : list (res string)) e, In (Raise e) l -> exists o e', print_all l = (o, Some e').
Proof.
  induction l as [|[s|e0] l IH]; intros e H; cbn; [destruct H| |eauto].
  destruct H as [H|H]; [discriminate|]. destruct (IH e H) as (o & e' & ->). eauto.
Qed.

Lemma print_ends : forall h (o : out) e, snd o = Some e -> exists e', snd (print h o) = Some e'.
Proof. intros [h|e0] [o e1] e H; cbn in *; eauto. Qed.

Lemma after_ends : forall A (m : res A) f, (forall a, m = Ok a -> exists e, snd (f a) = Some e) -> exists e, snd (after m f) = Some e.
Proof. intros A [a|e] f H; cbn; eauto. Qed.

Lemma collect_length : forall A B (f : A -> res B) l m, collect f l = Ok m -> List.length m = List.length l.
Proof.
  induction l as [|a l IH]; intros m H; cbn in H; [now injection H as <-|].
  destruct (f a); [|discriminate]. cbn in H. destruct (collect f l); [|discriminate]. cbn in H.
  injection H as <-. cbn. now rewrite (IH _ eq_refl).
Qed.

Lemma row_int : forall z (ys : list (pv L)), row L (PInt z) ys = Raise ValueError.
Proof. reflexivity. Qed.

Lemma rows_int : forall A (f : pv L * A -> list (pv L)) xs (ys : list A) z, List.length ys = List.length xs -> In (PInt z) xs ->
  exists e, snd (print_all (map (fun xy => row L (fst xy) (f xy)) (combine xs ys))) = Some e.
Proof.
  intros A f xs ys z Hlen Hin.
  destruct (print_all_raise (map (fun xy => row L (fst xy) (f xy)) (combine xs ys)) ValueError) as (o & e & E); [|exists e; now rewrite E].
  revert ys Hlen. induction xs as [|x xs IH]; intros [|y ys] Hlen; cbn in Hlen; try discriminate; [destruct Hin|].
  cbn. destruct Hin as [->|Hin]; [now left|]. right. apply IH; auto.
Qed.

Lemma rates_length : forall fn vs ys, rates L fn vs = Ok ys -> List.length ys = List.length vs.
Proof.
  intros fn vs ys H. unfold rates in H. destruct fn; try discriminate;
    destruct (collect (double L) vs) eqn:E; try discriminate; injection H as <-; rewrite map_length; eapply collect_length; eauto.
Qed.

Lemma fates_length : forall fn vs ys, fates L fn vs = Ok ys -> List.length ys = List.length vs.
Proof.
  intros fn vs ys H. unfold fates in H. destruct fn; try discriminate;
    destruct (collect (double L) vs) eqn:E; try discriminate; injection H as <-; rewrite map_length; eapply collect_length; eauto.
Qed.

Lemma all_raise : forall A (f : A -> res string) (l : list A) a e, In a l -> f a = Raise e ->
  exists e', snd (print_all (map f l)) = Some e'.
Proof.
  intros A f l a e Hin E. destruct (print_all_raise (map f l) e) as (o & e' & E'); [|exists e'; now rewrite E'].
  rewrite <- E. now apply in_map.
Qed.

Lemma body_int : forall r z l, rowed (r_type r) -> r_type r <> pdf -> r_at r = Some l -> In (PInt z) l ->
  structcost (r_type r) = false -> exists e, snd (body L r) = Some e.
Proof.
  intros r z l Hr Hp Ha Hin Hs. unfold body, at_list. rewrite Ha. cbn [after].
  destruct (r_type r) eqn:Et; try destruct Hr; try discriminate; try congruence;
    try (eapply all_raise; [exact Hin|reflexivity]); apply after_ends; intros ys E.
  - apply rows_int with (z := z); auto. now apply rates_length in E.
  - apply rows_int with (z := z); auto. now apply fates_length in E.
Qed.

Lemma made_at : forall t fn cols at_ d n (r : recorder L), make t fn cols at_ d n = Ok r -> r_type r = t /\ r_at r = at_.
Proof.
  intros t fn cols at_ d n r H. unfold make in H.
  assert (G : forall m : res (option (list (pv L))), bind m (fun c => Ok (Recorder t fn c at_ d n)) = Ok r -> r_type r = t /\ r_at r = at_).
  { intros [c|e] E; cbn in E; [injection E as <-; auto|discriminate]. }
  destruct t, at_; try discriminate H; eapply G; exact H.
Qed.

Lemma print_end : forall h (o : out), (exists e, snd o = Some e) -> exists e, snd (print h o) = Some e.
Proof. intros h o [e H]. now apply print_ends with (e := e). Qed.

Lemma by_out_int : forall C w im (name : C -> string) cats cost (r : recorder L) z l, r_at r = Some l -> In (PInt z) l ->
  exists e, snd (by_out L w im name cats cost r) = Some e.
Proof.
  intros C w im name cats cost r z l Ha Hin. unfold by_out. apply print_end.
  unfold at_list. rewrite Ha. cbn [after]. eapply all_raise; [exact Hin|reflexivity].
Qed.

Lemma by_groups_int : forall w comps (r : recorder L) z l, r_at r = Some l -> In (PInt z) l ->
  exists e, snd (by_groups_out L w comps r) = Some e.
Proof.
  intros w comps r z l Ha Hin. unfold by_groups_out. destruct (r_fn r); try (eexists; reflexivity).
  apply after_ends. intros d _. destruct im; [|eexists; reflexivity]. eapply by_out_int; eauto.
Qed.

Lemma pdf_int : forall (r : recorder L) z l, r_at r = Some l -> In (PInt z) l -> exists e, snd (pdf_out L r) = Some e.
Proof.
  intros r z l Ha Hin. unfold pdf_out. apply print_end. unfold at_list. rewrite Ha. cbn [after].
  apply after_ends. intros ps E. apply collect_length in E.
  destruct (r_normalise r).
  - destruct (max_pdf L ps None) as [m|].
    + cbn [bind]. apply (rows_int _ (fun xp => [PNum (quot L (snd xp) m)]) l ps z E Hin).
    + destruct l as [|x l]; [destruct Hin|]. destruct ps as [|p ps]; [discriminate|]. cbn. eauto.
  - cbn [bind]. apply (rows_int _ (fun xp => [PNum (quot L (snd xp) (ofZ L 1))]) l ps z E Hin).
Qed.

Lemma integers_never : forall t fn cols l z (d : num) n h rows, rowed t -> In (PInt z) l ->
  ~ prints t fn cols (Some l) d n h rows.
Proof.
  intros t fn cols l z d n h rows Ht Hin (r & a & b & Hm & Hg & _).
  destruct (made_at _ _ _ _ _ _ _ Hm) as [Er Ea].
  assert (X : exists e, snd (generate r) = Some e); [|destruct X as [e X]; rewrite Hg in X; discriminate].
  destruct (structcost t) eqn:Es.
  - unfold generate. rewrite Er. destruct t; try discriminate; try destruct Ht.
    + eapply by_groups_int; eauto.
    + eapply by_groups_int; eauto.
    + unfold fate_out. destruct (r_fn r); try (eexists; reflexivity). destruct im; [|eexists; reflexivity]. eapply by_out_int; eauto.
  - assert (Hp : {t = pdf} + {t <> pdf}) by (destruct t; (left; reflexivity) || (right; discriminate)).
    destruct Hp as [->|Hp].
    + unfold generate. rewrite Er. eapply pdf_int; eauto.
    + assert (Eg : generate r = print (header L r) (body L r)).
      { unfold generate. rewrite Er. destruct t; try discriminate; try destruct Ht; congruence. }
      rewrite Eg. apply print_end. apply (body_int r z l); rewrite ?Er; auto.
Qed.

Lemma zip_rows_first : forall xs yss x ys rest, zip_rows L xs yss = (x, ys) :: rest -> exists l, xs = x :: l.
Proof.
  intros [|x0 xs] [|y yss] x ys rest H; cbn in H; try discriminate.
  destruct (match y with [] => None | _ => _ end) as [[h t]|]; [|discriminate].
  injection H as -> _ _. eauto.
Qed.

Lemma integers_demand : forall fn cols l z (d : num) n h rows,
  prints edpim fn cols (Some (PInt z :: l)) d n h rows -> rows = [].
Proof.
  intros fn cols l z d n h rows (r & a & b & Hm & Hg & _ & F).
  destruct (made_at _ _ _ _ _ _ _ Hm) as [Er Ea]. unfold generate in Hg. rewrite Er in Hg.
  unfold body, at_list in Hg. rewrite Ea, Er in Hg. cbn [after] in Hg.
  destruct (header L r) as [hd|]; [|discriminate]. cbn [print] in Hg.
  destruct (match r_cols r with Some cs => edpim_columns L (r_fn r) (PInt z :: l) cs | None => Raise TypeError end) as [yss|e]; [|discriminate].
  cbn [after] in Hg.
  destruct (zip_rows L (PInt z :: l) yss) as [|[x ys] rest] eqn:Ez.
  - cbn in Hg. injection Hg as _ <-. now inversion F.
  - destruct (zip_rows_first _ _ _ _ _ Ez) as (l' & E). injection E as <- _. cbn in Hg. discriminate.
Qed.

(** ** Columns of the annual cost *)

Lemma unknown_column : forall u, unknown_name u -> column u = None.
Proof.
  intros u Hu. unfold column.
  repeat match goal with |- (if String.eqb u ?n then _ else _) = _ =>
    destruct (String.eqb_spec u n) as [->|_];
    [exfalso; solve [apply (Hu mean_x); reflexivity|apply (Hu mean_ln_x); reflexivity|apply (Hu median_x); reflexivity
                    |apply (Hu sd_ln_x); reflexivity|apply (Hu sd_x); reflexivity]|] end.
  reflexivity.
Qed.

Lemma annual_unknown : forall d0 us (v : num), Forall unknown_name us ->
  annual_cells L d0 (map PStr us) (Some (PNum v)) = Ok (map (fun u => (rjust 15 u, rjust 15 (g6 L v))) us).
Proof.
  intros d0 us v H. induction H as [|u us Hu Hus IH]; cbn [map annual_cells]; [reflexivity|].
  cbn [fmt bind]. rewrite (unknown_column u Hu). cbn [bind fmt6]. rewrite IH. reflexivity.
Qed.

Lemma annual_repeats : forall b id ss s us at_ (d : num) n, Forall unknown_name us ->
  prints annual (OStr b id) (Some (map (fun s => PStr (spell s)) (ss ++ [s]) ++ map PStr us)) at_ d n
    (map label (map spell (ss ++ [s]) ++ us))
    [map (fun s => datum (stat_of L s (costs L (AnnualCost b)))) (ss ++ [s]) ++
     map (fun _ => datum (stat_of L s (costs L (AnnualCost b)))) us].
Proof.
  intros b id ss s us at_ d n Hus.
  set (cols := map (fun s => PStr (spell s)) (ss ++ [s]) ++ map PStr us).
  exists (Recorder annual (OStr b id) (Some cols) at_ d n).
  set (d0 := costs L (AnnualCost b)).
  assert (E : forall last, annual_cells L d0 cols last
    = Ok (map (fun s => (rjust 15 (spell s), rjust 15 (g6 L (stat_of L s d0)))) (ss ++ [s]) ++
          map (fun u => (rjust 15 u, rjust 15 (g6 L (stat_of L s d0)))) us)).
  { unfold cols. induction ss as [|s0 ss IH]; intros last; cbn [map app annual_cells fmt bind];
      rewrite column_spell; cbn [bind fmt6].
    - rewrite (annual_unknown d0 us _ Hus). reflexivity.
    - rewrite IH. reflexivity. }
  eexists. eexists. refine (conj _ (conj _ (conj _ _))).
  - unfold cols. destruct ss; cbn; destruct at_; reflexivity.
  - cbn [generate r_type]. unfold annual_out. cbn [r_fn]. unfold col_list. cbn [r_cols].
    fold d0. rewrite (E None). cbn [after]. reflexivity.
  - rewrite (map_app fst), (map_app label), !map_map. cbn [fst]. rewrite concat_app. apply shows_app.
    + rewrite <- (map_map spell label), <- (map_map spell (rjust 15)). apply (shows_all 15).
    + apply (shows_all 15).
  - constructor; [|constructor]. rewrite (map_app snd), !map_map. cbn [snd]. rewrite concat_app. apply shows_app.
    + rewrite <- (map_map (fun s => stat_of L s d0) datum),
              <- (map_map (fun s => stat_of L s d0) (fun y => rjust 15 (g6 L y))).
      apply shows_data.
    + rewrite <- (map_map (fun _ : string => stat_of L s d0) datum),
              <- (map_map (fun _ : string => stat_of L s d0) (fun y => rjust 15 (g6 L y))).
      apply shows_data.
Qed.

Lemma annual_first : forall b id u cols at_ (d : num) n h rows, unknown_name u ->
  ~ prints annual (OStr b id) (Some (PStr u :: cols)) at_ d n h rows.
Proof.
  intros b id u cols at_ d n h rows Hu P.
  apply (prints_generate _ _ _ _ _ _ _ _ _ (Recorder annual (OStr b id) (Some (PStr u :: cols)) at_ d n) [] NameError P).
  - destruct at_; reflexivity.
  - cbn [generate r_type]. unfold annual_out. cbn [r_fn]. unfold col_list. cbn [r_cols annual_cells fmt bind].
    rewrite (unknown_column u Hu). reflexivity.
Qed.

End Tables.
