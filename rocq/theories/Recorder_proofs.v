(** Proofs about the tables of recorders. *)

Require Import String Ascii ZArith List Bool Permutation Sorted Lia Arith.
From Verif Require Import Recorder Recorder_spec.
Import ListNotations.
Open Scope string_scope.
Open Scope list_scope.

Lemma append_assoc : forall a b c : string, append (append a b) c = append a (append b c).
Proof. induction a; cbn; intros; [reflexivity|now rewrite IHa]. Qed.

Lemma append_nil : forall a : string, append a "" = a.
Proof. induction a; cbn; [reflexivity|now rewrite IHa]. Qed.

Lemma concat_cons : forall a l, String.concat "" (a :: l) = append a (String.concat "" l).
Proof. intros a [|b l]; cbn; [now rewrite append_nil|reflexivity]. Qed.

Lemma concat_app : forall l m, String.concat "" (l ++ m) = append (String.concat "" l) (String.concat "" m).
Proof.
  induction l as [|a l IH]; intros m; [reflexivity|].
  change ((a :: l) ++ m) with (a :: (l ++ m)). now rewrite !concat_cons, IH, append_assoc.
Qed.

Lemma spaces_blank : forall n, all_blank (spaces n).
Proof. induction n; cbn; auto. Qed.

Lemma spaces_length : forall n, String.length (spaces n) = n.
Proof. induction n; cbn; auto. Qed.

Lemma shows_cell : forall w text rest line,
  shows rest line -> shows ((w, text) :: rest) (append (rjust w text) line).
Proof.
  intros w text rest line H. unfold rjust. rewrite append_assoc.
  apply Cell; auto using spaces_blank. rewrite spaces_length. lia.
Qed.

Lemma shows_app : forall a la b lb, shows a la -> shows b lb -> shows (a ++ b) (append la lb).
Proof.
  induction 1; intros Hb; cbn; [exact Hb|].
  rewrite !append_assoc. apply Cell; auto.
Qed.

Lemma shows_all : forall w ts, shows (map (fun t => (w, t)) ts) (String.concat "" (map (rjust w) ts)).
Proof.
  induction ts as [|t ts IH]; [constructor|].
  cbn [map]. rewrite concat_cons. now apply shows_cell.
Qed.

Lemma shows_one : forall w text, shows [(w, text)] (rjust w text).
Proof. intros. rewrite <- (append_nil (rjust w text)). apply shows_cell. constructor. Qed.

Lemma collect_ok : forall A B (f : A -> res B) (g : A -> B) l,
  (forall a, In a l -> f a = Ok (g a)) -> collect f l = Ok (map g l).
Proof.
  induction l as [|a l IH]; intros H; cbn; [reflexivity|].
  rewrite (H a (or_introl eq_refl)). cbn. rewrite IH; [reflexivity|]. intros; apply H; now right.
Qed.

Lemma collect_raise : forall A B (f : A -> res B) (g : A -> B) l a r e,
  (forall a, In a l -> f a = Ok (g a)) -> f a = Raise e -> collect f (l ++ a :: r) = Raise e.
Proof.
  induction l as [|b l IH]; intros a r e H Ha; cbn.
  - now rewrite Ha.
  - rewrite (H b (or_introl eq_refl)). cbn. rewrite (IH a r e); auto. intros; apply H; now right.
Qed.

Lemma print_all_ok : forall rs rows,
  Forall2 (fun r row => exists l, r = Ok l /\ shows row l) rs rows ->
  exists ls, print_all rs = (ls, None) /\ Forall2 shows rows ls.
Proof.
  induction 1 as [|r row rs rows [l [-> Hl]] _ [ls [E F]]]; cbn.
  - exists []. auto.
  - rewrite E. exists (l :: ls). auto.
Qed.

Lemma Forall2_map_both : forall A B C (R : B -> C -> Prop) (f : A -> B) (g : A -> C) l,
  (forall a, In a l -> R (f a) (g a)) -> Forall2 R (map f l) (map g l).
Proof.
  induction l as [|a l IH]; intros H; cbn; constructor.
  - apply H. now left.
  - apply IH. intros; apply H; now right.
Qed.

Section Tables.

Variable L : lib.
Notation num := (num L).

Lemma double_all : forall xs : list num, collect (@double L) (map PNum xs) = Ok xs.
Proof.
  induction xs as [|x xs IH]; cbn; [reflexivity|]. now rewrite IH.
Qed.

Lemma fmt6_all : forall w (ys : list num),
  collect (@fmt6 L w) (map PNum ys) = Ok (map (fun y => rjust w (g6 L y)) ys).
Proof.
  induction ys as [|y ys IH]; cbn; [reflexivity|]. now rewrite IH.
Qed.

Lemma fmt_all : forall w (ts : list string),
  collect (@fmt L w) (map PStr ts) = Ok (map (rjust w) ts).
Proof.
  induction ts as [|y ys IH]; cbn; [reflexivity|]. now rewrite IH.
Qed.

Lemma shows_data : forall ys : list num,
  shows (map datum ys) (String.concat "" (map (fun y => rjust 15 (g6 L y)) ys)).
Proof.
  induction ys as [|y ys IH]; [constructor|]. cbn [map]. rewrite concat_cons. now apply shows_cell.
Qed.

(** A row of numbers comes out as it should. *)
Lemma row_ok : forall (x : num) ys,
  exists l, row L (PNum x) (map PNum ys) = Ok l /\ shows (datum x :: map datum ys) l.
Proof.
  intros x ys. unfold row. cbn [fmt6 bind]. rewrite fmt6_all. cbn [bind].
  eexists. split; [reflexivity|]. apply shows_cell. apply shows_data.
Qed.

Lemma general_row_ok : forall t fn cols (x : num) ys,
  figures L t fn cols (PNum x) = Ok (map PNum ys) ->
  exists l, general_row L t fn cols (PNum x) = Ok l /\ shows (datum x :: map datum ys) l.
Proof.
  intros t fn cols x ys E. unfold general_row. cbn [fmt6 bind]. rewrite E. cbn [bind]. rewrite fmt6_all.
  cbn [bind]. eexists. split; [reflexivity|]. apply shows_cell. apply shows_data.
Qed.

(** The general case: header, then rows. *)
Definition ordinary (t : rtype) : bool :=
  match t with
  | detfn | probfn | edprate | dsedp | dsim | costedp | costim | delayim | delayedp | costrate | totalcost | lossds | deagg => true
  | _ => false
  end.

Lemma ordinary_ok : forall t fn cols cols' (xs : list num) d n head ys heading,
  ordinary t = true ->
  make t fn cols (Some (map PNum xs)) d n = Ok (Recorder t fn cols' (Some (map PNum xs)) d n) ->
  header L (Recorder t fn cols' (Some (map PNum xs)) d n) = Ok head -> shows heading head ->
  (forall x, In x xs -> figures L t fn cols' (PNum x) = Ok (map PNum (ys x))) ->
  prints t fn cols (Some (map PNum xs)) d n heading (map (fun x => datum x :: map datum (ys x)) xs).
Proof.
  intros t fn cols cols' xs d n head ys heading Ht Hm Hh Hs Hf.
  destruct (print_all_ok (map (general_row L t fn cols') (map PNum xs)) (map (fun x => datum x :: map datum (ys x)) xs))
    as [ls [E F]].
  { rewrite map_map. apply Forall2_map_both. intros x Hx. apply general_row_ok. auto. }
  exists (Recorder t fn cols' (Some (map PNum xs)) d n), head, ls.
  refine (conj Hm (conj _ (conj Hs F))).
  assert (Eg : generate (Recorder t fn cols' (Some (map PNum xs)) d n)
               = print (header L (Recorder t fn cols' (Some (map PNum xs)) d n)) (print_all (map (general_row L t fn cols') (map PNum xs)))).
  { destruct t; try discriminate; reflexivity. }
  rewrite Eg, Hh, E. reflexivity.
Qed.

Lemma prints_rows : forall t fn cols at_ d n h rows rows',
  rows = rows' -> @prints L t fn cols at_ d n h rows' -> prints t fn cols at_ d n h rows.
Proof. intros; subst; auto. Qed.

Lemma shows_labels : forall x ts, shows (label x :: map label ts) (append (rjust 15 x) (String.concat "" (map (rjust 15) ts))).
Proof. intros. apply shows_cell. apply (shows_all 15). Qed.

Lemma detfn_ok : forall f (xs : list num) d n,
  prints detfn (ODet f) None (Some (map PNum xs)) d n
    [label "x"; label "y"] (map (fun x => [datum x; datum (value L (ValueAt f x))]) xs).
Proof.
  intros. apply (ordinary_ok detfn _ None None xs d n _ (fun x => [value L (ValueAt f x)]) _ eq_refl eq_refl eq_refl).
  - apply (shows_labels "x" ["y"]).
  - intros. reflexivity.
Qed.

Lemma edprate_ok : forall e id (xs : list num) d n,
  prints edprate (OEdp e id) None (Some (map PNum xs)) d n
    [label "EDP"; label "lambda"] (map (fun x => [datum x; datum (value L (EdpLambda e x))]) xs).
Proof.
  intros. apply (ordinary_ok edprate _ None None xs d n _ (fun x => [value L (EdpLambda e x)]) _ eq_refl eq_refl eq_refl).
  - apply (shows_labels "EDP" ["lambda"]).
  - intros. reflexivity.
Qed.

Lemma costrate_ok : forall g id f k (xs : list num) d n,
  prints costrate (OGrp g id f k) None (Some (map PNum xs)) d n
    [label "t"; label "Rate"] (map (fun x => [datum x; datum (value L (CostRate g x))]) xs).
Proof.
  intros. apply (ordinary_ok costrate _ None None xs d n _ (fun x => [value L (CostRate g x)]) _ eq_refl eq_refl eq_refl).
  - apply (shows_labels "t" ["Rate"]).
  - intros. reflexivity.
Qed.

Lemma ds_labels_states : forall k, ds_labels k = states k.
Proof. reflexivity. Qed.

Lemma sum_some : forall l : list num, l <> [] -> sum L l = PNum (total_of L l).
Proof. intros [|v l] H; [contradiction|reflexivity]. Qed.

Lemma dsedp_ok : forall g id f k (xs : list num) d n,
  f = frag_of L g -> (forall x, values L (DsEdp f x) <> []) ->
  prints dsedp (OGrp g id f k) None (Some (map PNum xs)) d n
    (label "EDP" :: map label (states k ++ ["E(DS)"]))
    (map (fun x => let ps := values L (DsEdp (frag_of L g) x) in datum x :: map datum (ps ++ [total_of L ps])) xs).
Proof.
  intros g id f k xs d n -> Hne.
  eapply prints_rows; [|eapply (ordinary_ok dsedp _ None (Some (map PStr (states k ++ ["E(DS)"]))) xs d n _
    (fun x => values L (DsEdp (frag_of L g) x) ++ [total_of L (values L (DsEdp (frag_of L g) x))]) _ eq_refl)].
  - reflexivity.
  - reflexivity.
  - unfold header. cbn [r_type labels r_cols bind String.eqb]. cbn [bind Ascii.eqb]. rewrite fmt_all. reflexivity.
  - apply shows_labels.
  - intros x _. cbn [figures double bind]. rewrite sum_some by apply Hne. now rewrite map_app.
Qed.

Lemma dsim_ok : forall g id f k (xs : list num) d n,
  (forall x, values L (DsIm g x) <> []) ->
  prints dsim (OGrp g id f k) None (Some (map PNum xs)) d n
    (label id :: map label (states k ++ ["E(DS)"]))
    (map (fun x => let ps := values L (DsIm g x) in datum x :: map datum (ps ++ [total_of L ps])) xs).
Proof.
  intros g id f k xs d n Hne.
  eapply prints_rows; [|eapply (ordinary_ok dsim _ None (Some (map PStr (states k ++ ["E(DS)"]))) xs d n _
    (fun x => values L (DsIm g x) ++ [total_of L (values L (DsIm g x))]) _ eq_refl)].
  - reflexivity.
  - reflexivity.
  - unfold header. cbn [r_type labels r_cols bind String.eqb r_fn im_id]. cbn [bind Ascii.eqb Bool.eqb r_fn im_id]. rewrite fmt_all. reflexivity.
  - apply shows_labels.
  - intros x _. cbn [figures double bind]. rewrite sum_some by apply Hne. now rewrite map_app.
Qed.

(** Tables with columns. *)
Lemma column_spell : forall s, column (spell s) = Some s.
Proof. destruct s; reflexivity. Qed.

Lemma titles_ok : forall cs : list (col L),
  collect (@fmt L 15) (map written cs) = Ok (map (rjust 15) (map title cs)).
Proof.
  intros cs. rewrite map_map.
  induction cs as [|c cs IH]; cbn [map collect]; [reflexivity|]. destruct c; cbn [written fmt bind]; rewrite IH; reflexivity.
Qed.

Definition columned (t : rtype) : bool :=
  match t with costedp | costim | delayedp | delayim | totalcost => true | _ => false end.

Lemma cell_ok : forall t fn c x y, columned t = true ->
  figure t fn c x = Some y -> cell L t fn (PNum x) (written c) = Ok (PNum y).
Proof.
  intros t fn c x y Ht E.
  destruct t; try discriminate; destruct fn; try discriminate; destruct c as [s|p]; try discriminate;
    destruct s; try discriminate; cbn in E; injection E as <-; reflexivity.
Qed.

Lemma figures_ok : forall t fn cs x (fig : col L -> num -> num), columned t = true ->
  (forall c x, In c cs -> figure t fn c x = Some (fig c x)) ->
  figures L t fn (Some (map written cs)) (PNum x) = Ok (map PNum (map (fun c => fig c x) cs)).
Proof.
  intros t fn cs x fig Ht H.
  assert (E : figures L t fn (Some (map written cs)) (PNum x) = collect (cell L t fn (PNum x)) (map written cs))
    by (destruct t; try discriminate; reflexivity).
  rewrite E, map_map. clear E. induction cs as [|c cs IH]; cbn [map collect]; [reflexivity|].
  rewrite (cell_ok t fn c x (fig c x) Ht) by (apply H; now left). cbn [bind].
  rewrite IH; [reflexivity|]. intros; apply H; now right.
Qed.

Lemma make_cols : forall t fn cols cs at_ d n, columned t = true -> asked L t cols cs ->
  make t fn cols (Some at_) d n = Ok (Recorder t fn (Some (map written cs)) (Some at_) d n).
Proof.
  intros t fn cols cs at_ d n Ht H. destruct cols as [l|]; cbn in H; subst;
    destruct t; try discriminate; reflexivity.
Qed.

Lemma abscissa_ok : forall t fn cols at_ d n (cs : list (col L)) x y, columned t = true -> In cs [cs] ->
  cs <> [] -> (forall c, In c cs -> figure t fn c x = Some (y c)) -> abscissa t fn <> "" ->
  cols = Some (map written cs) ->
  header L (Recorder t fn cols at_ d n) = Ok (append (rjust 15 (abscissa t fn)) (String.concat "" (map (rjust 15) (map title cs)))).
Proof.
  intros t fn cols at_ d n cs x y Ht _ Hne Hf Ha ->.
  destruct cs as [|c cs]; [contradiction|]. specialize (Hf c (or_introl eq_refl)).
  destruct t; try discriminate; destruct fn as [| | | | |b [i|]|]; try discriminate; unfold header;
    cbn [r_type labels r_cols bind String.eqb r_fn im_id Ascii.eqb Bool.eqb abscissa];
    try (rewrite titles_ok; reflexivity).
  cbn in Ha. contradiction.
Qed.

Lemma cols_ok : forall t fn cols cs (xs : list num) d n fig, columned t = true ->
  asked L t cols cs -> cs <> [] -> abscissa t fn <> "" ->
  (forall c x, In c cs -> figure t fn c x = Some (fig c x)) ->
  prints t fn cols (Some (map PNum xs)) d n
    (label (abscissa t fn) :: map (fun c => label (title c)) cs)
    (map (fun x => datum x :: map (fun c => datum (fig c x)) cs) xs).
Proof.
  intros t fn cols cs xs d n fig Ht Hc Hne Ha Hf.
  eapply prints_rows; [|eapply (ordinary_ok t fn cols (Some (map written cs)) xs d n _ (fun x => map (fun c => fig c x) cs))].
  - apply map_ext. intros x. now rewrite map_map.
  - destruct t; try discriminate; reflexivity.
  - now apply make_cols.
  - apply (abscissa_ok t fn (Some (map written cs)) (Some (map PNum xs)) d n cs (ofZ L 0) (fun c => fig c (ofZ L 0)));
      auto. now left.
  - rewrite <- (map_map title label). apply shows_labels.
  - intros x _. now apply figures_ok.
Qed.

(** Tables whose figures are found all at once. *)
Lemma made_ok : forall t fn cols cols' (at_ : list (pv L)) d n heading head rows (rs : list (res string)),
  make t fn cols (Some at_) d n = Ok (Recorder t fn cols' (Some at_) d n) ->
  generate (Recorder t fn cols' (Some at_) d n) = print (Ok head) (print_all rs) ->
  shows heading head -> Forall2 (fun r row => exists l, r = Ok l /\ shows row l) rs rows ->
  prints t fn cols (Some at_) d n heading rows.
Proof.
  intros t fn cols cols' at_ d n heading head rows rs Hm Hg Hh Hr.
  destruct (print_all_ok _ _ Hr) as [ls [E F]].
  exists (Recorder t fn cols' (Some at_) d n), head, ls. rewrite Hg, E. auto.
Qed.

Lemma combine_map : forall A B C (f : A -> B) (g : A -> C) l, combine (map f l) (map g l) = map (fun a => (f a, g a)) l.
Proof. induction l; cbn; [reflexivity|now f_equal]. Qed.

Lemma imrate_ok : forall i id (xs : list num) d n,
  prints imrate (OIm i id) None (Some (map PNum xs)) d n
    [label id; label "lambda"] (map (fun x => [datum x; datum (value L (ImLambda i x))]) xs).
Proof.
  intros. eapply (made_ok imrate _ None None _ d n).
  - reflexivity.
  - cbn [generate r_type header labels r_fn r_cols bind String.eqb Ascii.eqb Bool.eqb map fmt collect].
    unfold body. cbn [at_list r_at after r_type rates r_fn]. rewrite double_all. cbn [bind after].
    rewrite combine_map, map_map. reflexivity.
  - apply (shows_labels id ["lambda"]).
  - apply Forall2_map_both. intros x _. apply (row_ok x [value L (ImLambda i x)]).
Qed.

Lemma collapse_ok : forall i id (xs : list num) d n,
  prints collapse (OIm i id) None (Some (map PNum xs)) d n
    [label id; label "p(Demolition)"; label "p(Collapse)"]
    (map (fun x => [datum x; datum (value L (PDemolition i x)); datum (value L (PCollapse i x))]) xs).
Proof.
  intros. eapply (made_ok collapse _ None None _ d n).
  - reflexivity.
  - cbn [generate r_type header labels r_fn r_cols bind String.eqb Ascii.eqb Bool.eqb map fmt collect].
    unfold body. cbn [at_list r_at after r_type fates r_fn]. rewrite double_all. cbn [bind after].
    rewrite combine_map, map_map. reflexivity.
  - apply (shows_labels id ["p(Demolition)"; "p(Collapse)"]).
  - apply Forall2_map_both. intros x _. apply (row_ok x [value L (PDemolition i x); value L (PCollapse i x)]).
Qed.

Lemma heads_map : forall A (f : A -> num) (g : A -> list num) l,
  heads L (map (fun a => f a :: g a) l) = Some (map f l, map g l).
Proof. induction l as [|a l IH]; cbn; [reflexivity|]. now rewrite IH. Qed.

Lemma zip_rows_map : forall A (f : A -> num -> num) (l : list A) (xs : list num), l <> [] ->
  zip_rows L (map PNum xs) (map (fun a => map (f a) xs) l) = map (fun x => (PNum x, map (fun a => f a x) l)) xs.
Proof.
  intros A f l xs Hne. induction xs as [|x xs IH]; [reflexivity|].
  cbn [map zip_rows].
  assert (E : exists y ys, map (fun a => f a x :: map (f a) xs) l = y :: ys)
    by (destruct l; [contradiction|cbn; eauto]).
  destruct E as [y [ys E]]. rewrite E, <- E, heads_map, IH. reflexivity.
Qed.

Lemma edpim_columns_ok : forall e id (xs : list num) (cs : list (col L)),
  Forall (fun c => c = Fig mean_x \/ c = Fig sd_ln_x) cs ->
  exists ss, cs = map Fig ss /\
    edpim_columns L (OEdp e id) (map PNum xs) (map written cs) = Ok (map (fun s => map (fun x => value L (EdpStat s e x)) xs) ss).
Proof.
  intros e id xs cs H. induction H as [|c cs Hc _ [ss [-> IH]]].
  - exists []. auto.
  - exists ((match c with Fig s => s | Quant _ => mean_x end) :: ss).
    destruct Hc as [-> | ->]; (split; [reflexivity|]); cbn [map written edpim_columns spell column String.eqb Ascii.eqb Bool.eqb edp_stats];
      rewrite double_all; cbn [bind]; rewrite IH; reflexivity.
Qed.

Lemma edpim_ok : forall e id cols cs (xs : list num) d n fig,
  asked L edpim cols cs -> cs <> [] -> id <> "" ->
  (forall c x, In c cs -> figure edpim (OEdp e id) c x = Some (fig c x)) ->
  (exists cs, cols = Some (map written cs) /\ Forall (fun c => c = Fig mean_x \/ c = Fig sd_ln_x) cs) ->
  prints edpim (OEdp e id) cols (Some (map PNum xs)) d n
    (label id :: map (fun c => label (title c)) cs)
    (map (fun x => datum x :: map (fun c => datum (fig c x)) cs) xs).
Proof.
  intros e id cols cs xs d n fig Ha Hne Hid Hf [cs' [-> Hs]].
  cbn in Ha.
  assert (Es : cs = cs').
  { clear - Ha Hs. revert cs' Ha Hs. induction cs as [|c cs IH]; intros [|c' cs'] Ha Hs; cbn in Ha; try discriminate; [reflexivity|].
    inversion Hs as [|? ? Hc Hs']; subst. injection Ha as Ec Ecs. f_equal; [|now apply IH].
    destruct Hc as [-> | ->]; destruct c as [s|p]; cbn in Ec; try discriminate; destruct s; cbn in Ec; try discriminate; reflexivity. }
  subst cs'.
  destruct (edpim_columns_ok e id xs cs Hs) as [ss [-> E]].
  assert (Hn : ss <> []) by (intros ->; now apply Hne).
  eapply (made_ok edpim _ (Some (map written (map Fig ss))) (Some (map written (map Fig ss))) _ d n).
  - reflexivity.
  - cbn [generate r_type]. unfold header. cbn [r_type labels r_cols bind String.eqb r_fn im_id Ascii.eqb Bool.eqb].
    rewrite titles_ok. cbn [bind]. unfold body. cbn [at_list r_at after r_type r_fn r_cols]. rewrite E. cbn [after].
    rewrite (zip_rows_map stat (fun s x => value L (EdpStat s e x)) ss xs Hn). reflexivity.
  - rewrite <- (map_map title label). apply shows_labels.
  - rewrite map_map. apply Forall2_map_both. intros x _. cbn [fst snd].
    assert (Ef : map (fun c => datum (fig c x)) (map Fig ss) = map datum (map (fun s => value L (EdpStat s e x)) ss)).
    { rewrite !map_map. apply map_ext_in. intros s Hin. f_equal.
      specialize (Hf (Fig s) x (in_map _ _ _ Hin)). cbn in Hf. now injection Hf. }
    rewrite Ef. apply row_ok.
Qed.

(** Tables without values. *)
Lemma dsrate_ok : forall g id f k d n,
  @prints L dsrate (OGrp g id f k) None None d n
    (map (fun s => (20, s)) (states (List.length (values L (DsRate g)))))
    [map (fun v => (20, g6 L v)) (values L (DsRate g))].
Proof.
  intros. exists (Recorder dsrate (OGrp g id f k) None None d n). eexists. eexists.
  refine (conj eq_refl (conj eq_refl (conj _ _))).
  - apply shows_all.
  - constructor; [|constructor]. rewrite <- (map_map (g6 L) (fun t => (20, t))), <- (map_map (g6 L) (rjust 20)).
    apply shows_all.
Qed.

Lemma collrate_ok : forall i id d n,
  @prints L collrate (OIm i id) None None d n
    [label "IM"; (30, "rate(Demolition)"); (30, "rate(Collapse)")]
    [[label id; (30, repr L (value L (DemolitionRate i))); (30, repr L (value L (CollapseRate i)))]].
Proof.
  intros. exists (Recorder collrate (OIm i id) None None d n). eexists. eexists.
  refine (conj eq_refl (conj eq_refl (conj _ _))).
  - apply shows_cell, shows_cell, shows_one.
  - constructor; [|constructor]. apply shows_cell, shows_cell, shows_one.
Qed.

Lemma annual_cells_ok : forall d0 ss last,
  annual_cells L d0 (map (fun s => PStr (spell s)) ss) last
  = Ok (map (fun s => (rjust 15 (spell s), rjust 15 (g6 L (stat_of L s d0)))) ss).
Proof.
  intros d0 ss. induction ss as [|s ss IH]; intros last; cbn [map annual_cells]; [reflexivity|].
  cbn [fmt bind]. rewrite column_spell. cbn [bind fmt6]. rewrite IH. reflexivity.
Qed.

Lemma annual_ok : forall b id ss at_ d n, ss <> [] ->
  @prints L annual (OStr b id) (Some (map (fun s => PStr (spell s)) ss)) at_ d n
    (map (fun s => label (spell s)) ss)
    [map (fun s => datum (stat_of L s (costs L (AnnualCost b)))) ss].
Proof.
  intros b id ss at_ d n Hne.
  exists (Recorder annual (OStr b id) (Some (map (fun s => PStr (spell s)) ss)) at_ d n). eexists. eexists.
  refine (conj _ (conj _ (conj _ _))).
  - destruct ss as [|s ss]; [contradiction|]. cbn. destruct at_; reflexivity.
  - cbn [generate r_type]. unfold annual_out. cbn [r_fn col_list r_cols]. unfold col_list. cbn [r_cols].
    rewrite annual_cells_ok. cbn [after]. rewrite !map_map. cbn [fst snd]. reflexivity.
  - rewrite <- (map_map spell label), <- (map_map spell (rjust 15)). apply (shows_all 15).
  - constructor; [|constructor].
    rewrite <- (map_map (fun s => stat_of L s (costs L (AnnualCost b))) datum),
            <- (map_map (fun s => stat_of L s (costs L (AnnualCost b))) (fun y => rjust 15 (g6 L y))).
    apply shows_data.
Qed.

(** Deaggregated costs. *)
Definition plain_stat (s : stat) : Prop := s <> mean_ln_x /\ s <> median_x.

Lemma deagg_cell_ok : forall dd s, plain_stat s -> deagg_cell L dd (PStr (spell s)) = PNum (stat_of L s dd).
Proof. intros dd s [H1 H2]. destruct s; try contradiction; try reflexivity. Qed.

Lemma shows_crossed : forall A B w (f : A -> B -> string) l m,
  shows (crossed (fun a b => (w, f a b)) l m)
        (String.concat "" (flat_map (fun a => map (fun b => rjust w (f a b)) m) l)).
Proof.
  intros A B w f l m. unfold crossed. induction l as [|a l IH]; [constructor|].
  cbn [flat_map]. rewrite concat_app. apply shows_app; [|exact IH].
  rewrite <- (map_map (f a) (fun t => (w, t))), <- (map_map (f a) (rjust w)). apply shows_all.
Qed.

Lemma by_out_ok : forall C w t fn cols im (name : C -> string) cats cost ss (xs : list num) d n,
  ss <> [] -> Forall plain_stat ss -> cols = Some (map (fun s => PStr (spell s)) ss) ->
  structcost t = true ->
  (forall r, r_type r = t -> r_fn r = fn -> generate r = by_out L w im name cats cost r) ->
  prints t fn cols (Some (map PNum xs)) d n
    (label im :: crossed (fun c s => (w, append (name c) (append "." (spell s)))) cats ss)
    (map (fun x => datum x :: crossed (fun c s => (w, g6 L (stat_of L s (cost c x)))) cats ss) xs).
Proof.
  intros C w t fn cols im name cats cost ss xs d n Hne Hss -> Ht Hg.
  eapply (made_ok t fn (Some (map (fun s => PStr (spell s)) ss)) (Some (map (fun s => PStr (spell s)) ss)) (map PNum xs) d n).
  - destruct ss as [|s ss]; [contradiction|]. destruct t; try discriminate; reflexivity.
  - rewrite Hg by reflexivity. unfold by_out. cbn [at_list r_at after col_list r_cols]. reflexivity.
  - apply shows_cell. unfold col_list. cbn [r_cols].
    match goal with |- shows _ (String.concat "" ?l) =>
      replace l with (flat_map (fun c => map (fun s => rjust w (append (name c) (append "." (spell s)))) ss) cats) end.
    + apply shows_crossed.
    + apply flat_map_ext. intros c. rewrite map_map. reflexivity.
  - rewrite map_map. apply Forall2_map_both. intros x _. cbn [fmt6 bind]. unfold col_list. cbn [r_cols].
    assert (E : collect (fun c => bind (double L (PNum x)) (fun x0 =>
                 collect (fmt6 L w) (map (deagg_cell L (cost c x0)) (map (fun s => PStr (spell s)) ss)))) cats
              = Ok (map (fun c => map (fun s => rjust w (g6 L (stat_of L s (cost c x)))) ss) cats)).
    { apply collect_ok. intros c _. cbn [double bind]. rewrite map_map.
      rewrite (map_ext_in _ (fun s => PNum (stat_of L s (cost c x)))).
      - rewrite <- (map_map (fun s => stat_of L s (cost c x)) PNum), fmt6_all, map_map. reflexivity.
      - intros s Hin. apply deagg_cell_ok. rewrite Forall_forall in Hss. auto. }
    rewrite E. cbn [bind]. eexists. split; [reflexivity|]. apply shows_cell.
    rewrite <- flat_map_concat_map. apply shows_crossed.
Qed.

End Tables.
