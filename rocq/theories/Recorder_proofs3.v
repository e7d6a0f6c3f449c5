(** Tables that recorders do not print. *)

Require Import String Ascii ZArith List Bool Permutation Sorted Lia Arith.
From Verif Require Import Recorder Recorder_spec Recorder_proofs Recorder_proofs2.
Import ListNotations.
Open Scope string_scope.
Open Scope list_scope.

Section Tables.

Variable L : lib.
Notation num := (num L).

Lemma prints_generate : forall t fn cols at_ d n h rows (r : recorder L) ls e,
  prints t fn cols at_ d n h rows -> make t fn cols at_ d n = Ok r -> generate r = (ls, Some e) -> False.
Proof.
  intros t fn cols at_ d n h rows r ls e [r' [a [b [Hm [Hg _]]]]] Hm' Hg'.
  rewrite Hm in Hm'. injection Hm' as ->. rewrite Hg in Hg'. discriminate.
Qed.

Lemma print_raise : forall h e, exists ls, print h ([], Some e) = (ls, @Some exn (match h with Ok _ => e | Raise e' => e' end)).
Proof. intros [h|e'] e; cbn; eauto. Qed.

(** Means of logarithms, medians and deviations of demand parameters. *)
Lemma edpim_columns_bad : forall e id (vs : list num) (cs : list (col L)) s,
  In (Fig s) cs -> s <> mean_x -> s <> sd_ln_x ->
  edpim_columns L (OEdp e id) (map PNum vs) (map written cs) = Raise TypeError.
Proof.
  intros e id vs cs s Hin H1 H2. induction cs as [|c cs IH]; [contradiction|].
  cbn [map]. destruct c as [s'|p].
  - cbn [written edpim_columns]. rewrite column_spell.
    destruct Hin as [E|Hin].
    + injection E as ->. destruct s; try contradiction; reflexivity.
    + rewrite (IH Hin). destruct s'; cbn [edp_stats]; rewrite ?double_all; reflexivity.
  - destruct Hin as [E|Hin]; [discriminate|]. cbn [written edpim_columns]. auto.
Qed.

Lemma edpim_never : forall e id cols cs (xs : list num) d n s h rows,
  asked L edpim cols cs -> In (Fig s) cs -> s <> mean_x -> s <> sd_ln_x ->
  ~ prints edpim (OEdp e id) cols (Some (map PNum xs)) d n h rows.
Proof.
  intros e id cols cs xs d n s h rows Ha Hin H1 H2 P.
  assert (Hm : make edpim (OEdp e id) cols (Some (map PNum xs)) d n
               = Ok (Recorder edpim (OEdp e id) (Some (map written cs)) (Some (map PNum xs)) d n)).
  { destruct cols as [l|]; cbn in Ha; subst; reflexivity. }
  assert (Hg : generate (Recorder edpim (OEdp e id) (Some (map written cs)) (Some (map PNum xs)) d n)
               = print (header L (Recorder edpim (OEdp e id) (Some (map written cs)) (Some (map PNum xs)) d n)) ([], Some TypeError)).
  { cbn [generate r_type]. unfold body. cbn [at_list r_at after r_type r_cols r_fn].
    rewrite (edpim_columns_bad e id xs cs s Hin H1 H2). reflexivity. }
  destruct (print_raise (header L (Recorder edpim (OEdp e id) (Some (map written cs)) (Some (map PNum xs)) d n)) TypeError) as [ls E].
  rewrite E in Hg. exact (prints_generate _ _ _ _ _ _ _ _ _ _ _ P Hm Hg).
Qed.

(** Columns of probabilities alone: no rows. *)
Lemma edpim_quantiles : forall e id ps (xs : list num) d n h rows,
  prints edpim (OEdp e id) (Some (map PNum ps)) (Some (map PNum xs)) d n h rows -> rows = [].
Proof.
  intros e id ps xs d n h rows [r [a [b [Hm [Hg [_ F]]]]]].
  injection Hm as <-.
  cbn [generate r_type] in Hg. unfold body in Hg. cbn [at_list r_at after r_type r_cols r_fn] in Hg.
  assert (E : edpim_columns L (OEdp e id) (map PNum xs) (map PNum ps) = Ok []).
  { clear. induction ps as [|p ps IH]; cbn; auto. }
  rewrite E in Hg. cbn [after] in Hg.
  assert (Ez : zip_rows L (map PNum xs) [] = []) by (destruct xs; reflexivity). rewrite Ez in Hg. cbn [map print_all] in Hg.
  destruct (header L _); cbn in Hg; [|discriminate]. injection Hg as <- <-. inversion F. reflexivity.
Qed.

(** A column of probabilities with others: left out of the rows. *)
Lemma edpim_dropped : forall e id (ps : list num) s vs,
  edpim_columns L (OEdp e id) vs (PStr (spell s) :: map PNum ps) = edpim_columns L (OEdp e id) vs [PStr (spell s)].
Proof.
  intros e id ps s vs.
  assert (E : edpim_columns L (OEdp e id) vs (map PNum ps) = Ok []).
  { induction ps as [|p ps IH]; cbn; auto. }
  cbn [edpim_columns]. rewrite E. reflexivity.
Qed.

(** Probabilistic functions. *)
Lemma ordinary_never : forall t fn cols cols' v (at_ : list (pv L)) d n h rows e,
  ordinary t = true ->
  make t fn cols (Some (v :: at_)) d n = Ok (Recorder t fn cols' (Some (v :: at_)) d n) ->
  general_row L t fn cols' v = Raise e ->
  ~ prints t fn cols (Some (v :: at_)) d n h rows.
Proof.
  intros t fn cols cols' v at_ d n h rows e Ht Hm Hr P.
  assert (Hg : generate (Recorder t fn cols' (Some (v :: at_)) d n)
               = print (header L (Recorder t fn cols' (Some (v :: at_)) d n)) ([], Some e)).
  { assert (Eg : generate (Recorder t fn cols' (Some (v :: at_)) d n)
                 = print (header L (Recorder t fn cols' (Some (v :: at_)) d n)) (print_all (map (general_row L t fn cols') (v :: at_))))
      by (destruct t; try discriminate; reflexivity).
    rewrite Eg. cbn [map print_all]. now rewrite Hr. }
  destruct (print_raise (header L (Recorder t fn cols' (Some (v :: at_)) d n)) e) as [ls E].
  rewrite E in Hg. exact (prints_generate _ _ _ _ _ _ _ _ _ _ _ P Hm Hg).
Qed.

Lemma probfn_never : forall f cols cs x (xs : list num) d n h rows,
  asked L probfn cols cs -> cs <> [] ->
  ~ prints probfn (OProb f) cols (Some (map PNum (x :: xs))) d n h rows.
Proof.
  intros f cols cs x xs d n h rows Ha Hne. cbn [map].
  eapply (ordinary_never probfn (OProb f) cols (Some (map written cs)) (PNum x) _ d n h rows AttributeError eq_refl).
  - destruct cols as [l|]; cbn in Ha; subst; reflexivity.
  - destruct cs as [|c cs]; [contradiction|]. unfold general_row. cbn [fmt6 bind figures map collect].
    destruct c as [s|p]; cbn [written cell quantile]; [|reflexivity].
    rewrite column_spell. destruct s; reflexivity.
Qed.

(** Deaggregated costs, and losses by damage state. *)
Lemma deagg_never : forall fn cols v (at_ : list (pv L)) d n h rows,
  ~ prints deagg fn cols (Some (v :: at_)) d n h rows.
Proof.
  intros fn cols v at_ d n h rows.
  destruct (fmt6 L 15 v) eqn:E.
  - apply (ordinary_never deagg fn cols cols v at_ d n h rows AttributeError eq_refl eq_refl).
    unfold general_row. rewrite E. reflexivity.
  - apply (ordinary_never deagg fn cols cols v at_ d n h rows e eq_refl eq_refl).
    unfold general_row. rewrite E. reflexivity.
Qed.

Lemma lossds_never : forall g id f k cols cs x (xs : list num) d n h rows,
  cols = None \/ (cols = Some (map written cs) /\ exists s, In (Fig s) cs) ->
  ~ prints lossds (OGrp g id f k) cols (Some (map PNum (x :: xs))) d n h rows.
Proof.
  intros g id f k cols cs x xs d n h rows [->|[-> [s Hin]]].
  - cbn [map]. intros P. eapply (prints_generate _ _ _ _ _ _ _ _ _ _ _ P); reflexivity.
  - cbn [map]. apply (ordinary_never lossds (OGrp g id f k) (Some (map written cs)) (Some (map written cs)) (PNum x)
        (map PNum xs) d n h rows AttributeError eq_refl eq_refl).
    unfold general_row. cbn [fmt6 bind figures].
    assert (E : collect (cell L lossds (OGrp g id f k) (PNum x)) (map written cs) = Raise AttributeError).
    { clear - Hin. induction cs as [|c cs IH]; [contradiction|]. cbn [map collect].
      destruct c as [s'|p]; cbn [written cell].
      - rewrite column_spell. destruct s'; reflexivity.
      - destruct Hin as [E|Hin]; [discriminate|]. cbn [quantile bind]. now rewrite (IH Hin). }
    now rewrite E.
Qed.

(** Costs and delays of groups: no medians and so on. *)
Lemma cost_never : forall t g id f k cs s x (xs : list num) d n h rows,
  In t [costedp; costim; delayedp; delayim] ->
  In (Fig s) cs -> s <> mean_x -> s <> sd_ln_x ->
  ~ prints t (OGrp g id f k) (Some (map written cs)) (Some (map PNum (x :: xs))) d n h rows.
Proof.
  intros t g id f k cs s x xs d n h rows Ht Hin H1 H2. cbn [map].
  apply (ordinary_never t (OGrp g id f k) (Some (map written cs)) (Some (map written cs)) (PNum x) (map PNum xs) d n h rows AttributeError).
  - cbn in Ht. intuition subst; reflexivity.
  - cbn in Ht. intuition subst; reflexivity.
  - unfold general_row. cbn [fmt6 bind].
    assert (Ef : figures L t (OGrp g id f k) (Some (map written cs)) (PNum x) = collect (cell L t (OGrp g id f k) (PNum x)) (map written cs))
      by (cbn in Ht; intuition subst; reflexivity).
    assert (E : collect (cell L t (OGrp g id f k) (PNum x)) (map written cs) = Raise AttributeError).
    { clear - Ht Hin H1 H2. induction cs as [|c cs IH]; [contradiction|]. cbn [map collect].
      destruct Hin as [->|Hin].
      - cbn [written cell]. rewrite column_spell. destruct s; try contradiction; cbn in Ht; intuition subst; reflexivity.
      - rewrite (IH Hin). destruct c as [s'|p]; cbn [written cell]; [|reflexivity].
        rewrite column_spell. destruct s'; cbn in Ht; intuition subst; reflexivity. }
    now rewrite Ef, E.
Qed.

(** Costs by demand parameter, fragility function or fate: no medians, no means of
    logarithms. *)
Lemma by_out_never : forall C w t fn im (name : C -> string) c0 cats cost cs x (xs : list num) d n h rows,
  structcost t = true -> In (PStr (spell mean_ln_x)) cs \/ In (PStr (spell median_x)) cs ->
  (forall r : recorder L, r_type r = t -> r_fn r = fn -> generate r = by_out L w im name (c0 :: cats) cost r) ->
  ~ prints t fn (Some cs) (Some (map PNum (x :: xs))) d n h rows.
Proof.
  intros C w t fn im name c0 cats cost cs x xs d n h rows Ht Hin Hg P.
  assert (Hne : cs <> []) by (intros ->; destruct Hin as [[]|[]]).
  assert (Hm : make t fn (Some cs) (Some (map PNum (x :: xs))) d n = Ok (Recorder t fn (Some cs) (Some (map PNum (x :: xs))) d n)).
  { destruct cs; [contradiction|]. destruct t; try discriminate; reflexivity. }
  assert (Hb : collect (fmt6 L w) (map (deagg_cell L (cost c0 x)) cs) = Raise TypeError).
  { clear - Hin. induction cs as [|c cs IH]; [destruct Hin as [[]|[]]|]. cbn [map collect].
    destruct Hin as [[->|Hin]|[->|Hin]]; try reflexivity; rewrite IH by auto;
      assert (Hc : (exists v, deagg_cell L (cost c0 x) c = PNum v) \/ deagg_cell L (cost c0 x) c = PNone)
        by (unfold deagg_cell; destruct c; auto; repeat (destruct (String.eqb _ _); [left; eauto|]); auto);
      destruct Hc as [[v ->]| ->]; reflexivity. }
  specialize (Hg (Recorder t fn (Some cs) (Some (map PNum (x :: xs))) d n) eq_refl eq_refl).
  unfold by_out in Hg. cbn [at_list r_at after map print_all collect] in Hg. unfold col_list in Hg. cbn [r_cols fmt6 bind double] in Hg.
  rewrite Hb in Hg. cbn [bind print_all print] in Hg.
  exact (prints_generate _ _ _ _ _ _ _ _ _ _ _ P Hm Hg).
Qed.

Lemma by_fate_never : forall b id cs x (xs : list num) d n h rows,
  In (PStr (spell mean_ln_x)) cs \/ In (PStr (spell median_x)) cs ->
  ~ prints by_fate (OStr b (Some id)) (Some cs) (Some (map PNum (x :: xs))) d n h rows.
Proof.
  intros b id cs x xs d n h rows Hin.
  apply (by_out_never nat 15 by_fate _ id fate_name 0 [1; 2] (fun f x => costs L (Fate b f x))); auto.
  intros r Er Ef. unfold generate. rewrite Er. unfold fate_out. rewrite Ef. reflexivity.
Qed.

Lemma by_groups_never : forall t comps b id cs c0 cats x (xs : list num) d n h rows,
  t = by_edp_t /\ comps = by_edp L \/ t = by_frag_t /\ comps = by_frag L ->
  sorted_categories (comps b) (c0 :: cats) ->
  In (PStr (spell mean_ln_x)) cs \/ In (PStr (spell median_x)) cs ->
  ~ prints t (OStr b (Some id)) (Some cs) (Some (map PNum (x :: xs))) d n h rows.
Proof.
  intros t comps b id cs c0 cats x xs d n h rows Ht Hc Hin.
  destruct (categories_sorted _ _ Hc) as [dd [E1 E2]].
  apply (by_out_never (string * list nat) (if match t with by_edp_t => true | _ => false end then 15 else 20) t _ id fst c0 cats
           (fun c x => joint (snd c) x)); auto.
  - destruct Ht as [[-> _]|[-> _]]; reflexivity.
  - intros r Er Ef. unfold generate. rewrite Er.
    destruct Ht as [[-> ->]|[-> ->]]; unfold by_groups_out; rewrite Ef, E1; cbn [after]; rewrite E2; reflexivity.
Qed.

(** Damage states: the rows are the same whatever columns are asked for. *)
Lemma states_ignored : forall t g id f k cols cols' at_ d n (r r' : recorder L) a b ls ls',
  t = dsedp \/ t = dsim ->
  make t (OGrp g id f k) cols (Some at_) d n = Ok r -> make t (OGrp g id f k) cols' (Some at_) d n = Ok r' ->
  generate r = (a :: ls, None) -> generate r' = (b :: ls', None) -> ls = ls'.
Proof.
  intros t g id f k cols cols' at_ d n r r' a b ls ls' Ht Hm Hm' Hg Hg'.
  assert (E : exists c, r = Recorder t (OGrp g id f k) c (Some at_) d n)
    by (destruct Ht as [-> | ->]; destruct cols; injection Hm as <-; eauto).
  assert (E' : exists c, r' = Recorder t (OGrp g id f k) c (Some at_) d n)
    by (destruct Ht as [-> | ->]; destruct cols'; injection Hm' as <-; eauto).
  destruct E as [c ->]. destruct E' as [c' ->].
  assert (Eb : forall c, generate (Recorder t (OGrp g id f k) c (Some at_) d n)
                       = print (header L (Recorder t (OGrp g id f k) c (Some at_) d n))
                               (print_all (map (general_row L t (OGrp g id f k) None) at_))).
  { intros c0. destruct Ht as [-> | ->]; reflexivity. }
  rewrite Eb in Hg, Hg'.
  destruct (header L (Recorder t (OGrp g id f k) c (Some at_) d n)); cbn in Hg; [|discriminate].
  destruct (header L (Recorder t (OGrp g id f k) c' (Some at_) d n)); cbn in Hg'; [|discriminate].
  destruct (print_all _) as [o e]. congruence.
Qed.

(** A group's fragility function as it was when the group was defined. *)
Lemma dsedp_old : forall g id f k cols cols' at_ d n f' (r r' : recorder L),
  make dsedp (OGrp g id f k) cols (Some at_) d n = Ok r ->
  make dsedp (OGrp f' id f k) cols' (Some at_) d n = Ok r' ->
  cols = cols' -> generate r = generate r'.
Proof.
  intros g id f k cols cols' at_ d n f' r r' Hm Hm' <-.
  destruct cols; injection Hm as <-; injection Hm' as <-; reflexivity.
Qed.

(** Long names of measures in a 'pdf' table. *)
Lemma pdf_heading : forall b id at_ d n (r : recorder L) a ls e,
  make pdf (OStr b (Some id)) None (Some at_) d n = Ok r -> generate r = (a :: ls, e) ->
  shows [label (substring 0 6 id); label "pdf"] a.
Proof.
  intros b id at_ d n r a ls e Hm Hg. injection Hm as <-.
  cbn [generate r_type] in Hg. unfold pdf_out in Hg. cbn [r_fn im_id bind fmt6 print] in Hg.
  destruct (after _ _) in Hg. injection Hg as <- _ _. apply (shows_labels (substring 0 6 id) ["pdf"]).
Qed.

End Tables.

(** A library small enough to compute with. *)
Definition toy : lib := {|
  num := Z; dist := Z * Z; g6 := dec; repr := dec; ofZ := fun z => z; gtb := Z.gtb; plus := Z.add; quot := Z.div;
  value := fun q => match q with
                    | Pdf _ x => x | EdpStat mean_x _ x => x + 1 | EdpStat _ _ _ => 2 | ImLambda _ x => 10 - x
                    | CostIM g x => Z.of_nat g * x | SdCostIM _ _ => 1 | _ => 7 end%Z;
  values := fun q => match q with DsEdp f x => [x; Z.of_nat f] | DsIm _ x => [x] | DsRate _ => [3; 2; 1] end%Z;
  costs := fun q => match q with TotalCost _ x => (x * 100, 1) | AnnualCost _ => (500, 2) | Fate _ f x => (Z.of_nat f * x, 1) end%Z;
  lognormal := fun m s => (m, s);
  add_dists := fun l => (fold_left Z.add (map fst l) 0, fold_left Z.add (map snd l) 0)%Z;
  stat_of := fun s d => match s with mean_x => fst d | _ => snd d end;
  frag_of := fun g => g;
  by_edp := fun _ => [(Some "drift", [2; 3]); (Some "accel", [1])];
  by_frag := fun _ => [(Some "walls", [1; 2; 3])]
|}.

Definition toy_r (t : rtype) (fn : obj) (cols : option (list (pv toy))) (at_ : option (list (pv toy))) : recorder toy :=
  @Recorder toy t fn cols at_ (5%Z : num toy) false.

Lemma refute_tables : exists (L : lib) t fn cols at_ d n heading rows,
  @table L t fn cols at_ d n heading rows /\ ~ prints t fn cols at_ d n heading rows.
Proof.
  exists toy, edpim, (OEdp 0 "im"), None, (Some (map (@PNum toy) [1%Z])), (0%Z : num toy), false. eexists. eexists. split.
  - apply (T_cols toy edpim (OEdp 0 "im") None (default edpim) [1%Z] 0%Z false
             (fun c x => match c with Fig s => value toy (EdpStat s 0 x) | Quant p => value toy (EdpAt 0 x p) end)).
    + reflexivity.
    + discriminate.
    + discriminate.
    + intros [s|p] x _; reflexivity.
  - apply (edpim_never toy 0 "im" None (default edpim) [1%Z] 0%Z false mean_ln_x).
    + reflexivity.
    + now left.
    + discriminate.
    + discriminate.
Qed.
