(** Properties C64 and C65: the tables recorders print. *)

Require Import String Ascii ZArith List Bool Permutation Sorted.
From Verif Require Import Recorder Recorder_spec Recorder_proofs Recorder_proofs2 Recorder_proofs3 Recorder_proofs4 Recorder_proofs5.
Import ListNotations.
Open Scope string_scope.
Open Scope list_scope.

(** ** C64 *)

(** Full statement: every recorder prints the table described in the manual:
    [tables_right L] for every [L].  False: a recorder of a demand parameter
    without columns raises an exception. *)
Theorem C64_tables_refuted : exists (L : lib) t fn cols at_ d n heading rows,
  @table L t fn cols at_ d n heading rows /\ ~ prints t fn cols at_ d n heading rows.
Proof. exact refute_tables. Qed.
Print Assumptions C64_tables_refuted.

(** Where [sound] holds, the recorder prints its table, heading and rows, and ends
    normally, whatever the library's figures are. *)
Theorem C64_tables_partial : forall L t fn cols at_ d n heading rows,
  @table L t fn cols at_ d n heading rows -> sound L t fn cols at_ n ->
  prints t fn cols at_ d n heading rows.
Proof. exact tables_ok. Qed.
Print Assumptions C64_tables_partial.

Example C64_tables_case :
  (exists h rows, @table toy imrate (OIm 0 "im") None (Some (map (@PNum toy) [1; 2]%Z)) (0%Z : num toy) false h rows /\
     sound toy imrate (OIm 0 "im") None (Some (map (@PNum toy) [1; 2]%Z)) false) /\
  generate (toy_r imrate (OIm 0 "im") None (Some (map (@PNum toy) [1; 2]%Z)))
    = (["             im         lambda"; "              1              9"; "              2              8"], None) /\
  (exists h rows, @table toy by_edp_t (OStr 0 (Some "im")) (Some [PStr "mean_x"; PStr "sd_ln_x"]) (Some (map (@PNum toy) [4]%Z)) (0%Z : num toy) false h rows /\
     sound toy by_edp_t (OStr 0 (Some "im")) (Some [PStr "mean_x"; PStr "sd_ln_x"]) (Some (map (@PNum toy) [4]%Z)) false) /\
  generate (toy_r by_edp_t (OStr 0 (Some "im")) (Some [PStr "mean_x"; PStr "sd_ln_x"]) (Some (map (@PNum toy) [4]%Z)))
    = (["             im   accel.mean_x  accel.sd_ln_x   drift.mean_x  drift.sd_ln_x";
        "              4              4              1             20              2"], None).
Proof.
  refine (conj _ (conj eq_refl (conj _ eq_refl))).
  - eexists. eexists. split; [apply T_imrate|exact I].
  - eexists. eexists. split.
    + apply (T_by_edp toy 0 "im" [mean_x; sd_ln_x] [("accel", [1]); ("drift", [2; 3])] [4%Z] 0%Z false); [discriminate|].
      split; [apply perm_swap|repeat constructor].
    + exists [mean_x; sd_ln_x]. split; [reflexivity|]. repeat (apply Forall_cons || apply Forall_nil); split; discriminate.
Qed.

(** Outside [sound] no recorder prints its table.  Of a demand parameter: with a
    column other than 'mean_x' and 'sd_ln_x', nothing is printed under the heading
    but an exception raised. *)
Theorem C64_edp_fails : forall L e id cols cs (xs : list (num L)) d n s h rows,
  asked L edpim cols cs -> In (Fig s) cs -> s <> mean_x -> s <> sd_ln_x ->
  ~ prints edpim (OEdp e id) cols (Some (map PNum xs)) d n h rows.
Proof. exact edpim_never. Qed.
Print Assumptions C64_edp_fails.

Example C64_edp_case : asked toy edpim None [Fig mean_ln_x; Fig sd_ln_x].
Proof. reflexivity. Qed.

(** With columns of probabilities only, the table has no rows. *)
Theorem C64_edp_quantiles : forall L e id ps (xs : list (num L)) d n h rows,
  prints edpim (OEdp e id) (Some (map PNum ps)) (Some (map PNum xs)) d n h rows -> rows = [].
Proof. exact edpim_quantiles. Qed.
Print Assumptions C64_edp_quantiles.

Example C64_edp_quantiles_case :
  generate (toy_r edpim (OEdp 0 "im") (Some [@PNum toy 1%Z]) (Some (map (@PNum toy) [1; 2]%Z)))
  = (["             im              1"], None).
Proof. reflexivity. Qed.

(** Of a probabilistic function, whatever the columns. *)
Theorem C64_probfn_fails : forall L f cols cs x (xs : list (num L)) d n h rows,
  asked L probfn cols cs -> cs <> [] ->
  ~ prints probfn (OProb f) cols (Some (map PNum (x :: xs))) d n h rows.
Proof. exact probfn_never. Qed.
Print Assumptions C64_probfn_fails.

Example C64_probfn_case :
  exists h rows, @table toy probfn (OProb 0) None (Some (map (@PNum toy) [1]%Z)) (0%Z : num toy) false h rows.
Proof.
  eexists. eexists. apply (T_cols toy probfn (OProb 0) None (default probfn) [1%Z] 0%Z false
    (fun c x => match c with Fig s => value toy (ProbStat s 0 x) | Quant p => value toy (ProbAt 0 x p) end));
    try discriminate; [reflexivity|]. intros [s|p] x _; reflexivity.
Qed.

(** Of deaggregated costs, and of losses by damage state. *)
Theorem C64_deagg_fails : forall L fn cols v (at_ : list (pv L)) d n h rows,
  ~ prints deagg fn cols (Some (v :: at_)) d n h rows.
Proof. exact deagg_never. Qed.
Print Assumptions C64_deagg_fails.

Theorem C64_lossds_fails : forall L g id f k cols cs x (xs : list (num L)) d n h rows,
  cols = None \/ (cols = Some (map written cs) /\ exists s, In (Fig s) cs) ->
  ~ prints lossds (OGrp g id f k) cols (Some (map PNum (x :: xs))) d n h rows.
Proof. exact lossds_never. Qed.
Print Assumptions C64_lossds_fails.

Example C64_lossds_case :
  snd (generate (toy_r lossds (OGrp 0 "im" 0 2) None (Some [@PNum toy 1%Z]))) <> None /\
  snd (generate (toy_r deagg (OGrp 0 "im" 0 2) None (Some [@PNum toy 1%Z]))) <> None.
Proof. split; discriminate. Qed.

(** Of costs and delays of groups, with a column other than mean and dispersion. *)
Theorem C64_cost_fails : forall L t g id f k cs s x (xs : list (num L)) d n h rows,
  In t [costedp; costim; delayedp; delayim] ->
  In (Fig s) cs -> s <> mean_x -> s <> sd_ln_x ->
  ~ prints t (OGrp g id f k) (Some (map written cs)) (Some (map PNum (x :: xs))) d n h rows.
Proof. exact cost_never. Qed.
Print Assumptions C64_cost_fails.

Example C64_cost_case : In costim [costedp; costim; delayedp; delayim] /\ In (Fig median_x) [@Fig toy mean_x; Fig median_x].
Proof. split; cbn; auto. Qed.

(** Of a structure's cost by fate, demand parameter or fragility function, with the
    median or the mean of logarithms among the columns. *)
Theorem C64_fate_fails : forall L b id cs x (xs : list (num L)) d n h rows,
  In (PStr (spell mean_ln_x)) cs \/ In (PStr (spell median_x)) cs ->
  ~ prints by_fate (OStr b (Some id)) (Some cs) (Some (map PNum (x :: xs))) d n h rows.
Proof. exact by_fate_never. Qed.
Print Assumptions C64_fate_fails.

Theorem C64_groups_fails : forall L t comps b id cs c0 cats x (xs : list (num L)) d n h rows,
  t = by_edp_t /\ comps = by_edp L \/ t = by_frag_t /\ comps = by_frag L ->
  sorted_categories (comps b) (c0 :: cats) ->
  In (PStr (spell mean_ln_x)) cs \/ In (PStr (spell median_x)) cs ->
  ~ prints t (OStr b (Some id)) (Some cs) (Some (map PNum (x :: xs))) d n h rows.
Proof. exact by_groups_never. Qed.
Print Assumptions C64_groups_fails.

Example C64_groups_case :
  sorted_categories (by_edp toy 0) [("accel", [1]); ("drift", [2; 3])] /\
  (exists h rows, @table toy by_fate (OStr 0 (Some "im")) (Some [PStr "median_x"]) (Some (map (@PNum toy) [4]%Z)) (0%Z : num toy) false h rows).
Proof.
  split; [split; [apply perm_swap|repeat constructor]|].
  eexists. eexists. apply (T_by_fate toy 0 "im" [median_x] [4%Z] 0%Z false). discriminate.
Qed.

(** Of damage states: the rows do not depend on the columns asked for. *)
Theorem C64_states_ignored : forall L t g id f k cols cols' at_ d n (r r' : recorder L) a b ls ls',
  t = dsedp \/ t = dsim ->
  make t (OGrp g id f k) cols (Some at_) d n = Ok r -> make t (OGrp g id f k) cols' (Some at_) d n = Ok r' ->
  generate r = (a :: ls, None) -> generate r' = (b :: ls', None) -> ls = ls'.
Proof. exact states_ignored. Qed.
Print Assumptions C64_states_ignored.

Example C64_states_case :
  (exists r, make dsedp (OGrp 0 "im" 3 2) (Some [@PInt toy 1%Z]) (Some [@PNum toy 5%Z]) (0%Z : num toy) false = Ok r /\
     generate r = (["            EDP              1"; "              5              5              3              8"], None)) /\
  (exists r, make dsedp (OGrp 0 "im" 3 2) None (Some [@PNum toy 5%Z]) (0%Z : num toy) false = Ok r /\
     generate r = (["            EDP            DS1            DS2          E(DS)"; "              5              5              3              8"], None)).
Proof. split; eexists; split; reflexivity. Qed.

(** A 'pdf' table shows the first six characters of the measure's name. *)
Theorem C64_pdf_heading : forall L b id at_ d n (r : recorder L) a ls e,
  make pdf (OStr b (Some id)) None (Some at_) d n = Ok r -> generate r = (a :: ls, e) ->
  shows [label (substring 0 6 id); label "pdf"] a.
Proof. exact pdf_heading. Qed.
Print Assumptions C64_pdf_heading.

Example C64_pdf_case :
  generate (toy_r pdf (OStr 0 (Some "im_rate_1")) None (Some [@PNum toy 5%Z]))
  = (["         im_rat            pdf"; "              5              5"], None).
Proof. reflexivity. Qed.

(** Values that are integers, as Python programs may give them, are not printed; nor
    is the table then completed, whatever its type and object. *)
Theorem C64_integers_fails : forall L t fn cols l z (d : num L) n h rows, rowed t -> In (PInt z) l ->
  ~ prints t fn cols (Some l) d n h rows.
Proof. exact integers_never. Qed.
Print Assumptions C64_integers_fails.

Theorem C64_integers_demand : forall L fn cols l z (d : num L) n h rows,
  prints edpim fn cols (Some (PInt z :: l)) d n h rows -> rows = [].
Proof. exact integers_demand. Qed.
Print Assumptions C64_integers_demand.

Example C64_integers_case :
  generate (toy_r imrate (OIm 0 "im") None (Some [@PNum toy 1%Z; PInt 2; @PNum toy 3%Z]))
    = (["             im         lambda"; "              1              9"], Some ValueError) /\
  prints edpim (OEdp 0 "im") (Some []) (Some [@PInt toy 2]) (0%Z : num toy) false [label "im"] [].
Proof.
  split; [reflexivity|]. eexists. eexists. eexists. refine (conj eq_refl (conj eq_refl (conj _ _))); [|constructor].
  apply (Cell 15 "im" _ "             " _); [cbn; tauto|reflexivity|constructor].
Qed.

(** Without values only those recorders print anything that need none. *)
Theorem C64_values_needed : forall L t fn cols (d : num L) n h rows,
  prints t fn cols None d n h rows -> t = dsrate \/ t = collrate \/ t = annual.
Proof. exact values_needed. Qed.
Print Assumptions C64_values_needed.

Example C64_values_case : exists h rows, @prints toy annual (OStr 0 None) None None (0%Z : num toy) false h rows.
Proof.
  exists [label "mean_x"], [[label "500"]]. eexists. eexists. eexists. refine (conj eq_refl (conj eq_refl (conj _ _))).
  - apply (Cell 15 "mean_x" _ "         " _); [cbn; tauto|reflexivity|constructor].
  - constructor; [|constructor]. apply (Cell 15 "500" _ "            " _); [cbn; tauto|reflexivity|constructor].
Qed.

(** Full statement: no figure is shown in a column with a name that is not its own.
    False: of annual costs, a column of any other name repeats the figure before
    it, *)
Theorem C64_annual_repeats : forall L b id ss s us at_ (d : num L) n, Forall unknown_name us ->
  prints annual (OStr b id) (Some (map (fun s => PStr (spell s)) (ss ++ [s]) ++ map PStr us)) at_ d n
    (map label (map spell (ss ++ [s]) ++ us))
    [map (fun s => datum (stat_of L s (costs L (AnnualCost b)))) (ss ++ [s]) ++
     map (fun _ => datum (stat_of L s (costs L (AnnualCost b)))) us].
Proof. exact annual_repeats. Qed.
Print Assumptions C64_annual_repeats.

(** unless it is the first, in which case there is no table. *)
Theorem C64_annual_fails : forall L b id u cols at_ (d : num L) n h rows, unknown_name u ->
  ~ prints annual (OStr b id) (Some (PStr u :: cols)) at_ d n h rows.
Proof. exact annual_first. Qed.
Print Assumptions C64_annual_fails.

Example C64_annual_case : Forall unknown_name ["median"] /\
  generate (toy_r annual (OStr 0 None) (Some [@PStr toy "mean_x"; PStr "median"]) None)
    = (["         mean_x         median"; "            500            500"], None).
Proof. split; [constructor; [intros []; discriminate|constructor]|reflexivity]. Qed.

(** Costs by demand parameter or fragility function: each name has its columns once;
    where several have one name, the groups of the last only are counted. *)
Theorem C64_names_once : forall L w t comps b id ss cats (xs : list (num L)) d n,
  t = by_edp_t /\ w = 15 /\ comps = by_edp L \/ t = by_frag_t /\ w = 20 /\ comps = by_frag L ->
  ss <> [] -> Forall (fun s => s <> mean_ln_x /\ s <> median_x) ss ->
  (forall e, In e (comps b) -> fst e <> None) -> last_categories (comps b) cats ->
  prints t (OStr b (Some id)) (Some (map (fun s => PStr (spell s)) ss)) (Some (map PNum xs)) d n
    (label id :: crossed (fun c s => (w, append (fst c) (append "." (spell s)))) cats ss)
    (map (fun x => datum x :: crossed (fun c s => (w, g6 L (stat_of L s (joint (snd c) x)))) cats ss) xs).
Proof. exact groups_last. Qed.
Print Assumptions C64_names_once.

(** If one has no name, there is no table. *)
Theorem C64_unnamed_fails : forall L t comps b id gs cols at_ (d : num L) n h rows,
  t = by_edp_t /\ comps = by_edp L \/ t = by_frag_t /\ comps = by_frag L ->
  In (None, gs) (comps b) -> ~ prints t (OStr b id) cols at_ d n h rows.
Proof. exact groups_unnamed. Qed.
Print Assumptions C64_unnamed_fails.

Example C64_names_case :
  last_categories [(Some "drift", [2; 3]); (Some "accel", [1]); (Some "drift", [4])] [("accel", [1]); ("drift", [4])].
Proof.
  split; [|repeat constructor]. intros k gs. split.
  - intros [E|[E|[]]]; injection E as <- <-.
    + exists [(Some "drift", [2; 3])], [(Some "drift", [4])]. split; [reflexivity|]. intros gs' [E|[]]. discriminate.
    + exists [(Some "drift", [2; 3]); (Some "accel", [1])], []. split; [reflexivity|]. intros gs' [].
  - intros (a & b & E & H).
    destruct a as [|a0 a]; [injection E as <- <- <-; exfalso; apply (H [4]); cbn; auto|injection E as <- E].
    destruct a as [|a1 a]; [injection E as <- <- <-; cbn; auto|injection E as <- E].
    destruct a as [|a2 a]; [injection E as <- <- <-; cbn; auto|injection E as <- E]. destruct a; discriminate.
Qed.

(** ** C65 *)

(** A line of one-word cells reads back as these words exactly if every cell but
    the first is narrower than its column. *)
Theorem C65_line : forall cells line, shows cells line -> Forall (fun c => word (snd c)) cells ->
  (words line = map snd cells <-> fits cells).
Proof. exact words_iff. Qed.
Print Assumptions C65_line.

Example C65_line_case :
  shows [(5, "x"); (4, "y")] "    x   y" /\ words "    x   y" = ["x"; "y"] /\ fits [(5, "x"); (4, "y")] /\
  shows [(2, "x"); (3, "y.y")] " xy.y" /\ words " xy.y" = ["xy.y"] /\ ~ fits [(2, "x"); (3, "y.y")].
Proof.
  refine (conj _ (conj eq_refl (conj _ (conj _ (conj eq_refl _))))).
  - apply (Cell 5 "x" _ "    " _); [cbn; tauto|reflexivity|].
    apply (Cell 4 "y" _ "   " _); [cbn; tauto|reflexivity|constructor].
  - repeat constructor.
  - apply (Cell 2 "x" _ " " _); [cbn; tauto|reflexivity|].
    apply (Cell 3 "y.y" _ "" _); [exact I|reflexivity|constructor].
  - intros H. inversion H as [|? ? H1 _]. cbn in H1. now apply PeanoNat.Nat.lt_irrefl in H1.
Qed.

(** The rows of a table can be read back, numbers being short and names of measures
    one word. *)
Theorem C65_rows : forall L t fn cols at_ d n heading rows, short_numbers L ->
  match fn with OIm _ i => word i | _ => True end ->
  @table L t fn cols at_ d n heading rows -> sound L t fn cols at_ n ->
  exists r first rest, make t fn cols at_ d n = Ok r /\ generate r = (first :: rest, None) /\
    map words rest = map (map snd) rows.
Proof. exact printed_rows. Qed.
Print Assumptions C65_rows.

Example C65_rows_case : short_numbers tiny /\
  (exists h rows, @table tiny collrate (OIm 0 "im") None None (0%Z : num tiny) false h rows) /\
  sound tiny collrate (OIm 0 "im") None None false /\ word "im".
Proof.
  refine (conj tiny_short (conj _ (conj I _))).
  - eexists. eexists. apply T_collrate.
  - split; [discriminate|cbn; repeat split; discriminate].
Qed.

(** Full statement: so can headings.  False: names of demand parameters of eight
    characters run into the column before. *)
Theorem C65_heading_refuted : exists L t fn cols at_ d n heading rows r first rest,
  @table L t fn cols at_ d n heading rows /\ sound L t fn cols at_ n /\ Forall (fun c => word (snd c)) heading /\
  make t fn cols at_ d n = Ok r /\ generate r = (first :: rest, None) /\ words first <> map snd heading.
Proof. exact refute_heading. Qed.
Print Assumptions C65_heading_refuted.

(** The heading of costs by demand parameter can be read back exactly if every name
    together with every column asked for has less than fourteen characters. *)
Theorem C65_heading_partial : forall L b id ss (cats : list (string * list nat)) (xs : list (num L)) d n heading rows,
  heading = label id :: crossed (fun c s => label (append (fst c) (append "." (spell s)))) cats ss ->
  @table L by_edp_t (OStr b (Some id)) (Some (map (fun s => PStr (spell s)) ss)) (Some (map PNum xs)) d n heading rows ->
  Forall (fun s => s <> mean_ln_x /\ s <> median_x) ss ->
  word id -> Forall (fun c => word (fst c)) cats ->
  exists r first rest,
    make by_edp_t (OStr b (Some id)) (Some (map (fun s => PStr (spell s)) ss)) (Some (map PNum xs)) d n = Ok r /\
    generate r = (first :: rest, None) /\
    (words first = map snd heading <->
     Forall (fun c => Forall (fun s => String.length (fst c) + String.length (spell s) < 14) ss) cats).
Proof. exact printed_by_edp. Qed.
Print Assumptions C65_heading_partial.

Example C65_heading_case :
  (exists rows, @table toy by_edp_t (OStr 0 (Some "im")) (Some (map (fun s => PStr (spell s)) [mean_x])) (Some (map (@PNum toy) [4]%Z))
     (0%Z : num toy) false [label "im"; label "accel.mean_x"; label "drift.mean_x"] rows) /\
  Forall (fun s => s <> mean_ln_x /\ s <> median_x) [mean_x].
Proof.
  split.
  - eexists. apply (T_by_edp toy 0 "im" [mean_x] [("accel", [1]); ("drift", [2; 3])] [4%Z] 0%Z false); [discriminate|].
    split; [apply perm_swap|repeat constructor].
  - constructor; [split; discriminate|constructor].
Qed.
