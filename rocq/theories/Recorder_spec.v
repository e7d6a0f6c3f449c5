(** What the tables of recorders should look like: /repo/slat-lang.org 385-812 and
    the comments at /repo/src/pyslat.py 1405-1436, 1696-1699, 1735-1743, 1910-1913.

    A table is a heading and rows; each is a list of cells, a cell a width and a
    text.  Nothing here refers to how recorders print. *)

Require Import String Ascii ZArith List Bool Permutation Sorted.
From Verif Require Import Recorder.
Import ListNotations.
Open Scope string_scope.
Open Scope list_scope.

(** A line shows cells: blanks and the text, together as wide as the cell unless
    the text is too long. *)
Fixpoint all_blank (s : string) : Prop :=
  match s with EmptyString => True | String c s => c = " "%char /\ all_blank s end.

Inductive shows : list (nat * string) -> string -> Prop :=
| Nothing : shows [] ""
| Cell : forall w text rest pad line,
    all_blank pad ->
    String.length pad + String.length text = Nat.max w (String.length text) ->
    shows rest line ->
    shows ((w, text) :: rest) (append pad (append text line)).

Section Tables.

Variable L : lib.

(** Columns a user can ask for: a figure, or the value exceeded with some
    probability. *)
Inductive col := Fig (s : stat) | Quant (p : num L).

(** As they are written and printed. *)
Definition written (c : col) : pv L := match c with Fig s => PStr (spell s) | Quant p => PNum p end.
Definition title (c : col) : string := match c with Fig s => spell s | Quant p => repr L p end.

(** The figures tables with columns are about. *)
Definition figure (t : rtype) (fn : obj) (c : col) (x : num L) : option (num L) :=
  match t, fn, c with
  | probfn, OProb f, Fig s => Some (value L (ProbStat s f x))
  | probfn, OProb f, Quant p => Some (value L (ProbAt f x p))
  | edpim, OEdp e _, Fig s => Some (value L (EdpStat s e x))
  | edpim, OEdp e _, Quant p => Some (value L (EdpAt e x p))
  | costedp, OGrp g _ _ _, Fig mean_x => Some (value L (CostEDP g x))
  | costedp, OGrp g _ _ _, Fig sd_ln_x => Some (value L (SdCostEDP g x))
  | costim, OGrp g _ _ _, Fig mean_x => Some (value L (CostIM g x))
  | costim, OGrp g _ _ _, Fig sd_ln_x => Some (value L (SdCostIM g x))
  | delayedp, OGrp g _ _ _, Fig mean_x => Some (value L (DelayEDP g x))
  | delayedp, OGrp g _ _ _, Fig sd_ln_x => Some (value L (SdDelayEDP g x))
  | delayim, OGrp g _ _ _, Fig mean_x => Some (value L (DelayIM g x))
  | delayim, OGrp g _ _ _, Fig sd_ln_x => Some (value L (SdDelayIM g x))
  | totalcost, OStr b _, Fig s => Some (stat_of L s (costs L (TotalCost b x)))
  | _, _, _ => None
  end.

(** The heading of the first column. *)
Definition abscissa (t : rtype) (fn : obj) : string :=
  match t, fn with
  | probfn, _ => "x"
  | costedp, _ | delayedp, _ => "EDP"
  | _, OEdp _ i | _, OGrp _ i _ _ | _, OStr _ (Some i) => i
  | _, _ => ""
  end.

(** Columns without '--cols'. *)
Definition default (t : rtype) : list col :=
  match t with
  | probfn | edpim => [Fig mean_ln_x; Fig sd_ln_x]
  | _ => [Fig mean_x; Fig sd_ln_x]
  end.

(** Whether [cs] are the columns asked for. *)
Definition asked (t : rtype) (cols : option (list (pv L))) (cs : list col) : Prop :=
  match cols with Some l => l = map written cs | None => cs = default t end.

(** Cells. *)
Definition label (s : string) : nat * string := (15, s).
Definition datum (x : num L) : nat * string := (15, g6 L x).

(** The labels of damage states. *)
Definition states (n : nat) : list string := map (fun i => append "DS" (dec (Z.of_nat (S i)))) (seq 0 n).

(** The sum of a row of probabilities. *)
Definition total_of (l : list (num L)) : num L := fold_left (plus L) l (ofZ L 0).

(** The cost of some groups at an intensity, each group's lognormal with the
    group's mean and dispersion. *)
Definition joint (gs : list nat) (x : num L) : dist L :=
  add_dists L (map (fun g => lognormal L (value L (CostIM g x)) (value L (SdCostIM g x))) gs).

(** The columns of a deaggregated table: each figure of each category. *)
Definition crossed {A B C} (f : A -> B -> C) (l : list A) (m : list B) : list C :=
  flat_map (fun a => map (f a) m) l.

(** [cats] are the categories of [l], by name, in alphabetical order. *)
Definition sorted_categories (l : list (option string * list nat)) (cats : list (string * list nat)) : Prop :=
  Permutation l (map (fun c => (Some (fst c), snd c)) cats) /\
  StronglySorted (fun a b => String.ltb (fst a) (fst b) = true) cats.

(** Largest of some densities: no other is greater. *)
Definition largest (l : list (num L)) (m : num L) : Prop :=
  In m l /\ Forall (fun p => gtb L p m = false) l.

(** What a recorder should print: type, object, columns, values, discount rate and
    whether to normalise; heading; rows. *)
Inductive table : rtype -> obj -> option (list (pv L)) -> option (list (pv L)) -> num L -> bool ->
    list (nat * string) -> list (list (nat * string)) -> Prop :=
| T_detfn : forall f xs d n,
    table detfn (ODet f) None (Some (map PNum xs)) d n
      [label "x"; label "y"] (map (fun x => [datum x; datum (value L (ValueAt f x))]) xs)
| T_imrate : forall i id xs d n,
    table imrate (OIm i id) None (Some (map PNum xs)) d n
      [label id; label "lambda"] (map (fun x => [datum x; datum (value L (ImLambda i x))]) xs)
| T_edprate : forall e id xs d n,
    table edprate (OEdp e id) None (Some (map PNum xs)) d n
      [label "EDP"; label "lambda"] (map (fun x => [datum x; datum (value L (EdpLambda e x))]) xs)
| T_collapse : forall i id xs d n,
    table collapse (OIm i id) None (Some (map PNum xs)) d n
      [label id; label "p(Demolition)"; label "p(Collapse)"]
      (map (fun x => [datum x; datum (value L (PDemolition i x)); datum (value L (PCollapse i x))]) xs)
| T_costrate : forall g id f k xs d n,
    table costrate (OGrp g id f k) None (Some (map PNum xs)) d n
      [label "t"; label "Rate"] (map (fun x => [datum x; datum (value L (CostRate g x))]) xs)
| T_cols : forall t fn cols cs xs d n fig,
    asked t cols cs -> cs <> [] -> abscissa t fn <> "" ->
    (forall c x, In c cs -> figure t fn c x = Some (fig c x)) ->
    table t fn cols (Some (map PNum xs)) d n
      (label (abscissa t fn) :: map (fun c => label (title c)) cs)
      (map (fun x => datum x :: map (fun c => datum (fig c x)) cs) xs)
| T_dsedp : forall g id f k xs d n,
    table dsedp (OGrp g id f k) None (Some (map PNum xs)) d n
      (label "EDP" :: map label (states k ++ ["E(DS)"]))
      (map (fun x => let ps := values L (DsEdp (frag_of L g) x) in datum x :: map datum (ps ++ [total_of ps])) xs)
| T_dsedp_cols : forall g id f k is xs d n fig,
    (forall i x, In i is -> nth_error (values L (DsEdp (frag_of L g) x)) i = Some (fig i x)) ->
    table dsedp (OGrp g id f k) (Some (map (fun i => PInt (Z.of_nat (S i))) is)) (Some (map PNum xs)) d n
      (label "EDP" :: map (fun i => label (dec (Z.of_nat (S i)))) is)
      (map (fun x => datum x :: map (fun i => datum (fig i x)) is) xs)
| T_dsim : forall g id f k xs d n,
    table dsim (OGrp g id f k) None (Some (map PNum xs)) d n
      (label id :: map label (states k ++ ["E(DS)"]))
      (map (fun x => let ps := values L (DsIm g x) in datum x :: map datum (ps ++ [total_of ps])) xs)
| T_dsim_cols : forall g id f k is xs d n fig,
    (forall i x, In i is -> nth_error (values L (DsIm g x)) i = Some (fig i x)) ->
    table dsim (OGrp g id f k) (Some (map (fun i => PInt (Z.of_nat (S i))) is)) (Some (map PNum xs)) d n
      (label id :: map (fun i => label (dec (Z.of_nat (S i)))) is)
      (map (fun x => datum x :: map (fun i => datum (fig i x)) is) xs)
| T_dsrate : forall g id f k d n,
    table dsrate (OGrp g id f k) None None d n
      (map (fun s => (20, s)) (states (List.length (values L (DsRate g)))))
      [map (fun v => (20, g6 L v)) (values L (DsRate g))]
| T_collrate : forall i id d n,
    table collrate (OIm i id) None None d n
      [label "IM"; (30, "rate(Demolition)"); (30, "rate(Collapse)")]
      [[label id; (30, repr L (value L (DemolitionRate i))); (30, repr L (value L (CollapseRate i)))]]
| T_annual : forall b id ss at_ d n,
    ss <> [] ->
    table annual (OStr b id) (Some (map (fun s => PStr (spell s)) ss)) at_ d n
      (map (fun s => label (spell s)) ss)
      [map (fun s => datum (stat_of L s (costs L (AnnualCost b)))) ss]
| T_by_edp : forall b id ss cats xs d n,
    ss <> [] -> sorted_categories (by_edp L b) cats ->
    table by_edp_t (OStr b (Some id)) (Some (map (fun s => PStr (spell s)) ss)) (Some (map PNum xs)) d n
      (label id :: crossed (fun c s => label (append (fst c) (append "." (spell s)))) cats ss)
      (map (fun x => datum x :: crossed (fun c s => datum (stat_of L s (joint (snd c) x))) cats ss) xs)
| T_by_frag : forall b id ss cats xs d n,
    ss <> [] -> sorted_categories (by_frag L b) cats ->
    table by_frag_t (OStr b (Some id)) (Some (map (fun s => PStr (spell s)) ss)) (Some (map PNum xs)) d n
      (label id :: crossed (fun c s => (20, append (fst c) (append "." (spell s)))) cats ss)
      (map (fun x => datum x :: crossed (fun c s => (20, g6 L (stat_of L s (joint (snd c) x)))) cats ss) xs)
| T_by_fate : forall b id ss xs d n,
    ss <> [] ->
    table by_fate (OStr b (Some id)) (Some (map (fun s => PStr (spell s)) ss)) (Some (map PNum xs)) d n
      (label id :: crossed (fun f s => label (append f (append "." (spell s)))) ["repair"; "demo"; "coll"] ss)
      (map (fun x => datum x :: crossed (fun f s => datum (stat_of L s (costs L (Fate b f x)))) [0; 1; 2] ss) xs)
| T_npv : forall b id zs d n,
    table npv (OStr b id) None (Some (map PInt zs)) d n
      [label "Year"; label "E[ALt]"] (map (fun z => [label (dec z); datum (value L (Npv b z d))]) zs)
| T_pdf : forall b id xs d,
    table pdf (OStr b (Some id)) None (Some (map PNum xs)) d false
      [label id; label "pdf"] (map (fun x => [datum x; datum (value L (Pdf b x))]) xs)
| T_pdf_normalised : forall b id xs d m,
    largest (map (fun x => value L (Pdf b x)) xs) m ->
    table pdf (OStr b (Some id)) None (Some (map PNum xs)) d true
      [label id; label "pdf"] (map (fun x => [datum x; datum (quot L (value L (Pdf b x)) m)]) xs).

(** A recorder prints a table and ends normally. *)
Definition prints (t : rtype) (fn : obj) (cols at_ : option (list (pv L))) (d : num L) (n : bool)
    (heading : list (nat * string)) (rows : list (list (nat * string))) : Prop :=
  exists r first rest, make t fn cols at_ d n = Ok r /\ generate r = (first :: rest, None) /\
    shows heading first /\ Forall2 shows rows rest.

End Tables.

Arguments Fig {L}. Arguments Quant {L}. Arguments written {L}. Arguments title {L}. Arguments figure {L}.
Arguments default {L}. Arguments table {L}. Arguments prints {L}. Arguments datum {L}. Arguments joint {L}.

(** The full claim. *)
Definition tables_right (L : lib) : Prop :=
  forall t fn cols at_ d n heading rows,
    @table L t fn cols at_ d n heading rows -> prints t fn cols at_ d n heading rows.

(** What the claim needs to hold: no columns of probabilities or states; only means
    and dispersions of demand parameters; no probabilistic functions; of the
    deaggregated costs no medians or means of logarithms; a group's fragility
    function not redefined since; at least one damage state; short names of
    measures in a 'pdf' table; a positive largest density, and division by one that
    does nothing. *)
Definition sound (L : lib) (t : rtype) (fn : obj) (cols : option (list (pv L))) (at_ : option (list (pv L))) (n : bool) : Prop :=
  match t with
  | probfn => False
  | edpim => exists cs, cols = Some (map written cs) /\ Forall (fun c => c = Fig mean_x \/ c = Fig sd_ln_x) cs
  | dsedp => cols = None /\
      match fn with
      | OGrp g _ f _ => f = frag_of L g /\ forall x, values L (DsEdp f x) <> []
      | _ => False
      end
  | dsim => cols = None /\ match fn with OGrp g _ _ _ => forall x, values L (DsIm g x) <> [] | _ => False end
  | by_edp_t | by_frag_t | by_fate =>
      exists ss, cols = Some (map (fun s => PStr (spell s)) ss) /\ Forall (fun s => s <> mean_ln_x /\ s <> median_x) ss
  | pdf =>
      match fn with
      | OStr b (Some id) =>
          String.length id <= 6 /\
          (forall v, quot L v (ofZ L 1) = v) /\
          (n = true ->
             (forall a b c, gtb L a b = true -> gtb L b c = true -> gtb L a c = true) /\
             (forall a b, gtb L a b = true \/ a = b \/ gtb L b a = true) /\ (forall a, gtb L a a = false) /\
             exists l x, at_ = Some l /\ In (PNum x) l /\ gtb L (value L (Pdf b x)) (ofZ L 0) = true)
      | _ => False
      end
  | _ => True
  end.

(** Recorders whose rows begin with a value of the 'at' clause, figures following. *)
Definition rowed (t : rtype) : Prop :=
  match t with dsrate | collrate | annual | npv | edpim => False | _ => True end.

(** A name that is no figure's. *)
Definition unknown_name (u : string) : Prop := forall s, u <> spell s.

(** The last entry of a name among named entries. *)
Definition last_entry (l : list (option string * list nat)) (k : string) (gs : list nat) : Prop :=
  exists a b, l = a ++ (Some k, gs) :: b /\ forall gs', ~ In (Some k, gs') b.

(** [cats] has the last entry of each name in [l], in alphabetical order. *)
Definition last_categories (l : list (option string * list nat)) (cats : list (string * list nat)) : Prop :=
  (forall k gs, In (k, gs) cats <-> last_entry l k gs) /\
  StronglySorted (fun a b => String.ltb (fst a) (fst b) = true) cats.

(** Reading a line back: its words, as Python's [split()] or awk find them. *)
Fixpoint scan (s : string) : string * list string :=
  match s with
  | EmptyString => (EmptyString, [])
  | String c s =>
      let (w, ws) := scan s in
      if Ascii.eqb c " "%char then (EmptyString, match w with EmptyString => ws | _ => w :: ws end)
      else (String c w, ws)
  end.

Definition words (s : string) : list string :=
  let (w, ws) := scan s in match w with EmptyString => ws | _ => w :: ws end.

(** A text that is one word. *)
Fixpoint no_blank (s : string) : Prop :=
  match s with EmptyString => True | String c s => c <> " "%char /\ no_blank s end.
Definition word (s : string) : Prop := s <> EmptyString /\ no_blank s.

(** Cells narrow enough for their place: all but the first. *)
Definition fits (cells : list (nat * string)) : Prop :=
  Forall (fun c => String.length (snd c) < fst c) (tl cells).

(** What can be said of the text of numbers: words of less than 15 characters, with
    all figures less than 30. *)
Definition short_numbers (L : lib) : Prop :=
  (forall x, word (g6 L x) /\ String.length (g6 L x) < 15) /\
  (forall x, word (repr L x) /\ String.length (repr L x) < 30).
