(** Recorders: the tables that [analyze] prints.

    Sources: /repo/src/pyslat.py 1410-1952 (the class recorder, its subclasses and
    MakeRecorder) and the methods of the classes detfn, probfn, im, edp, compgroup
    and structure they call; /repo/src/pyslatcore.i for what those classes find in
    the library.

    Simplifications:
    - a line is a string, and the text of a number is given by the library record
      ([g6] for the format '.6', [repr] for none);
    - the figures themselves are given by the library record, one answer to each
      question;
    - what the constructor prints for debugging (1440-1445, 1475, 1719-1724) is
      left out;
    - exceptions carry no message;
    - an object is of the class the command looks it up in (SlatInterpreter.py
      602-620) or missing: for 'by-fate' and another object, which only a Python
      program can bring about, the header is left out;
    - what runs on the Python side but cannot fail, such as the rounding of the
      sums of lists, is given by the library record. *)

Require Import String Ascii ZArith List Bool DecimalString.
Import ListNotations.
Open Scope string_scope.
Open Scope list_scope.

(** Python's exceptions, as far as they come up (UnboundLocalError is a
    NameError); /repo/src/pyslat.py 1410-1952. *)
Inductive exn := TypeError | ValueError | AttributeError | NameError | ZeroDivisionError.

(** The five figures of a distribution, in the spelling of columns
    (pyslat.py 1567-1576). *)
Inductive stat := mean_x | mean_ln_x | median_x | sd_ln_x | sd_x.

(** Their spelling (pyslat.py 1567-1576). *)
Definition spell (s : stat) : string :=
  match s with
  | mean_x => "mean_x" | mean_ln_x => "mean_ln_x" | median_x => "median_x"
  | sd_ln_x => "sd_ln_x" | sd_x => "sd_x"
  end.

(** Questions with a number for an answer; objects are numbered (pyslat.py, as
    said below). *)
Inductive ask (num : Type) :=
| ValueAt (f : nat) (x : num)               (* detfn.ValueAt, pyslat.py 416-417 *)
| ProbStat (s : stat) (f : nat) (x : num)   (* pyslatcore.cpp 188-206 *)
| ProbAt (f : nat) (x p : num)              (* pyslatcore.cpp 208-211 *)
| ImLambda (i : nat) (x : num)              (* im.getlambda, 623-628 *)
| PDemolition (i : nat) (x : num)           (* im.pDemolition, 663-668 *)
| PCollapse (i : nat) (x : num)             (* im.pCollapse, 641-646 *)
| DemolitionRate (i : nat)                  (* im.DemolitionRate, 680-681 *)
| CollapseRate (i : nat)                    (* im.CollapseRate, 658-659 *)
| EdpLambda (e : nat) (x : num)             (* edp.getlambda, 817-822 *)
| EdpStat (s : stat) (e : nat) (x : num)    (* edp.Mean ... edp.SD, 770-811 *)
| EdpAt (e : nat) (x p : num)               (* edp.X_at_exceedence, 834-835 *)
| CostEDP (g : nat) (x : num)               (* compgroup.E_Cost_EDP, 1159-1160 *)
| SdCostEDP (g : nat) (x : num)             (* compgroup.SD_ln_Cost_EDP, 1164-1165 *)
| CostIM (g : nat) (x : num)                (* compgroup.E_Cost_IM, 1169-1170 *)
| SdCostIM (g : nat) (x : num)              (* compgroup.SD_ln_Cost_IM, 1174-1175 *)
| DelayEDP (g : nat) (x : num)              (* compgroup.E_Delay_EDP, 1206-1207 *)
| SdDelayEDP (g : nat) (x : num)            (* compgroup.SD_ln_Delay_EDP, 1216-1217 *)
| DelayIM (g : nat) (x : num)               (* compgroup.E_Delay_IM, 1201-1202 *)
| SdDelayIM (g : nat) (x : num)             (* compgroup.SD_ln_Delay_IM, 1211-1212 *)
| CostRate (g : nat) (x : num)              (* compgroup.lambda_cost, 1190-1191 *)
| Npv (t : nat) (years : Z) (rate : num)    (* structure.E_cost, 1375-1376 *)
| Pdf (t : nat) (x : num).                  (* structure.pdf, 1286-1287 *)

(** Questions with a list for an answer (pyslat.py 898-899, 1196-1197, 1221-1222). *)
Inductive asks (num : Type) :=
| DsEdp (f : nat) (x : num)                 (* fragfn.pExceeded, 898-899 *)
| DsIm (g : nat) (x : num)                  (* compgroup.pDS_IM, 1196-1197 *)
| DsRate (g : nat).                         (* compgroup.Rate, 1221-1222 *)

(** Questions with a distribution for an answer (pyslat.py 1351-1369). *)
Inductive cask (num : Type) :=
| TotalCost (t : nat) (x : num)             (* structure.TotalCost, 1351-1352 *)
| AnnualCost (t : nat)                      (* structure.AnnualCost, 1368-1369 *)
| Fate (t : nat) (which : nat) (x : num).   (* structure.CostsByFate, 1360-1364 *)

Arguments ValueAt {num}. Arguments ProbStat {num}. Arguments ProbAt {num}. Arguments ImLambda {num}.
Arguments PDemolition {num}. Arguments PCollapse {num}. Arguments DemolitionRate {num}.
Arguments CollapseRate {num}. Arguments EdpLambda {num}. Arguments EdpStat {num}. Arguments EdpAt {num}.
Arguments CostEDP {num}. Arguments SdCostEDP {num}. Arguments CostIM {num}. Arguments SdCostIM {num}.
Arguments DelayEDP {num}. Arguments SdDelayEDP {num}. Arguments DelayIM {num}. Arguments SdDelayIM {num}.
Arguments CostRate {num}. Arguments Npv {num}. Arguments Pdf {num}. Arguments DsEdp {num}. Arguments DsIm {num}.
Arguments DsRate {num}. Arguments TotalCost {num}. Arguments AnnualCost {num}. Arguments Fate {num}.

(** The library, as a recorder sees it: numbers, their text, the answers to
    questions, and lognormal distributions (pyslatcore.i 56-71).  [frag_of] is the
    fragility function a group has now (comp_group.cpp 61-66), and [by_edp] and
    [by_frag] the groups of a structure by demand parameter and by fragility, each
    with the name found for it, if any (pyslat.py 1765-1768, 1813-1816; 737-744,
    1132-1139). *)
Record lib := Lib {
  num : Type;
  dist : Type;
  g6 : num -> string;
  repr : num -> string;
  ofZ : Z -> num;
  gtb : num -> num -> bool;
  plus : num -> num -> num;
  quot : num -> num -> num;
  value : ask num -> num;
  values : asks num -> list num;
  costs : cask num -> dist;
  lognormal : num -> num -> dist;
  add_dists : list dist -> dist;
  stat_of : stat -> dist -> num;
  frag_of : nat -> nat;
  by_edp : nat -> list (option string * list nat);
  by_frag : nat -> list (option string * list nat)
}.

Section Recorder.

Variable L : lib.
Notation num := (num L).

(** Python values, as far as recorders print them (pyslat.py 1410-1952). *)
Inductive pv := PNum (v : num) | PInt (z : Z) | PStr (s : string) | PNone.

(** A result or an exception, as of any of the functions in pyslat.py 1410-1952. *)
Inductive res (A : Type) := Ok (a : A) | Raise (e : exn).
Arguments Ok {A}. Arguments Raise {A}.

(** One computation and then another, in pyslat.py 1410-1952. *)
Definition bind {A B} (m : res A) (f : A -> res B) : res B :=
  match m with Ok a => f a | Raise e => Raise e end.
Notation "x <- m ;; f" := (bind m (fun x => f)) (at level 61, m at next level, right associativity).

(** The loops over lists of columns and values (pyslat.py 1550, 1579, 1612, 1794 and
    so on). *)
Fixpoint collect {A B} (f : A -> res B) (l : list A) : res (list B) :=
  match l with
  | [] => Ok []
  | a :: r => b <- f a ;; bs <- collect f r ;; Ok (b :: bs)
  end.

(** The decimal text of an integer; Python's str, as in pyslat.py 1462, 1512. *)
Definition dec (z : Z) : string := NilZero.string_of_int (Z.to_int z).

(** Blanks, for [rjust] (pyslat.py 1513). *)
Fixpoint spaces (n : nat) : string := match n with O => "" | S n => String " " (spaces n) end.

(** The alignment '>w' of Python's format (pyslat.py 1513, 1549 and elsewhere). *)
Definition rjust (w : nat) (s : string) : string := append (spaces (w - String.length s)) s.

(** The format '>w.6' (pyslat.py 1514, 1558 and elsewhere): six figures of a
    float, six characters of a string; Python allows no precision with integers,
    and no format with None. *)
Definition fmt6 (w : nat) (v : pv) : res string :=
  match v with
  | PNum v => Ok (rjust w (g6 L v))
  | PStr s => Ok (rjust w (substring 0 6 s))
  | PInt _ => Raise ValueError
  | PNone => Raise TypeError
  end.

(** The format '>w' (pyslat.py 1513, 1549-1551, 1709-1710, 1750, 1903). *)
Definition fmt (w : nat) (v : pv) : res string :=
  match v with
  | PNum v => Ok (rjust w (repr L v))
  | PStr s => Ok (rjust w s)
  | PInt z => Ok (rjust w (dec z))
  | PNone => Raise TypeError
  end.

(** The conversion of an argument to double in the bindings (pyslatcore.i). *)
Definition double (v : pv) : res num :=
  match v with PNum v => Ok v | PInt z => Ok (ofZ L z) | _ => Raise TypeError end.

(** The objects that can be recorded, with what recorders know about them on the
    Python side: the name of the measure behind a demand parameter (edp._im,
    pyslat.py 719), a group (1142-1143) or a structure (1267, 1300-1301), and the
    fragility function a group was made with and its number of states (1110,
    1146-1151, 946-947).  [ONone] is the result of looking up an unknown name. *)
Inductive obj :=
| ODet (o : nat)
| OProb (o : nat)
| OIm (o : nat) (id : string)
| OEdp (o : nat) (im : string)
| OGrp (o : nat) (im : string) (frag states : nat)
| OStr (o : nat) (im : option string)
| ONone.

(** The types of recorder (/repo/src/slatParser.g4 113-123; pyslat.py 1507-1533). *)
Inductive rtype :=
| detfn | probfn | imrate | edpim | edprate | dsedp | dsim | lossds | costedp | costim | delayim | delayedp
| dsrate | collrate | costrate | collapse | deagg | totalcost | pdf
| annual | by_edp_t | by_frag_t | by_fate | npv.

(** A recorder: pyslat.py 1447-1473; [annual] to [npv] are the types of
    'structcost' (the option 'structcost-type', SlatInterpreter.py 564-581);
    [rate] is the option 'discount-rate', [normalise] the option of that name. *)
Record recorder := Recorder {
  r_type : rtype;
  r_fn : obj;
  r_cols : option (list pv);
  r_at : option (list pv);
  r_rate : num;
  r_normalise : bool
}.

(** [list(map(...))] for the labels DS1, DS2, ... (pyslat.py 1461-1462, 1512). *)
Definition ds_labels (n : nat) : list string := map (fun i => append "DS" (dec (Z.of_nat (S i)))) (seq 0 n).

(** Whether a recorder is of the type 'structcost' (pyslat.py 1947-1948). *)
Definition structcost (t : rtype) : bool :=
  match t with annual | by_edp_t | by_frag_t | by_fate | npv => true | _ => false end.

(** The constructor (pyslat.py 1437-1473, 1718-1732): the checks on the 'at'
    clause and the default columns. *)
Definition make (t : rtype) (fn : obj) (cols : option (list pv)) (at_ : option (list pv)) (rate : num) (nrm : bool)
    : res recorder :=
  match t, at_ with
  | dsrate, _ | collrate, _ | annual, _ | _, Some _ =>
      cols <- (if structcost t then
                 match cols with None | Some [] => Ok (Some [PStr "mean_x"]) | _ => Ok cols end
               else match t, cols with
               | dsedp, None | dsim, None =>
                   match fn with
                   | OGrp _ _ _ n => Ok (Some (map PStr (ds_labels n ++ ["E(DS)"])))
                   | _ => Raise AttributeError
                   end
               | probfn, None | edpim, None => Ok (Some [PStr "mean_ln_x"; PStr "sd_ln_x"])
               | costedp, None | costim, None | delayedp, None | delayim, None | totalcost, None =>
                   Ok (Some [PStr "mean_x"; PStr "sd_ln_x"])
               | _, _ => Ok cols
               end) ;;
      Ok (Recorder t fn cols at_ rate nrm)
  | _, None => Raise ValueError
  end.

(** The table [labels] (pyslat.py 1518-1533). *)
Definition labels (t : rtype) : string * option (list string) :=
  match t with
  | detfn => ("x", Some ["y"])
  | probfn => ("x", None)
  | imrate => ("IM", Some ["lambda"])
  | edpim => ("IM", None)
  | edprate => ("EDP", Some ["lambda"])
  | dsedp => ("EDP", None)
  | dsim => ("IM", None)
  | lossds => ("DS", None)
  | costedp => ("EDP", None)
  | costim => ("IM", None)
  | delayedp => ("EDP", None)
  | delayim => ("IM", None)
  | costrate => ("t", Some ["Rate"])
  | totalcost => ("IM", None)
  | collapse => ("IM", Some ["p(Demolition)"; "p(Collapse)"])
  | _ => ("IM", Some ["mean_nc"; "sd_nc"; "mean_c"; "sd_c"])
  end.

(** [get_IM().id()]: pyslat.py 761-762, 1142-1143, 1282-1283, 614-615. *)
Definition im_id (fn : obj) : res string :=
  match fn with
  | OEdp _ i | OGrp _ i _ _ | OStr _ (Some i) => Ok i
  | _ => Raise AttributeError
  end.

(** The header line (pyslat.py 1535-1552). *)
Definition header (r : recorder) : res string :=
  let (x, y) := labels (r_type r) in
  x_label <- (if String.eqb x "IM"
              then match r_fn r with OIm _ i => Ok i | fn => im_id fn end
              else Ok x) ;;
  y_label <- match y with
             | Some l => Ok (map PStr l)
             | None => match r_cols r with Some l => Ok l | None => Raise TypeError end
             end ;;
  cells <- collect (fmt 15) y_label ;;
  Ok (append (rjust 15 x_label) (String.concat "" cells)).

(** edp.Mean and so on, of a number (pyslat.py 770-811; pyslatcore.i 99-103). *)
Definition edp_stat (s : stat) (fn : obj) (v : pv) : res pv :=
  match fn with
  | OEdp e _ => x <- double v ;; Ok (PNum (value L (EdpStat s e x)))
  | _ => Raise AttributeError
  end.

(** The same of a list: [Mean] and [SD_ln] call the library's functions for lists
    (pyslat.py 772, 799; pyslatcore.i 105, 108), the others those for numbers
    (781, 790, 808), which take no list. *)
Definition edp_stats (s : stat) (fn : obj) (vs : list pv) : res (list num) :=
  match fn, s with
  | OEdp e _, mean_x | OEdp e _, sd_ln_x => xs <- collect double vs ;; Ok (map (fun x => value L (EdpStat s e x)) xs)
  | OEdp _ _, _ => Raise TypeError
  | _, _ => Raise AttributeError
  end.

(** The column named by a string (pyslat.py 1567-1576). *)
Definition column (s : string) : option stat :=
  if String.eqb s "mean_x" then Some mean_x
  else if String.eqb s "mean_ln_x" then Some mean_ln_x
  else if String.eqb s "median_x" then Some median_x
  else if String.eqb s "sd_ln_x" then Some sd_ln_x
  else if String.eqb s "sd_x" then Some sd_x
  else None.

(** The columns of an 'edpim' recorder, those it knows (pyslat.py 1565-1576). *)
Fixpoint edpim_columns (fn : obj) (xs cols : list pv) : res (list (list num)) :=
  match cols with
  | [] => Ok []
  | PStr s :: r =>
      match column s with
      | Some c => ys <- edp_stats c fn xs ;; yss <- edpim_columns fn xs r ;; Ok (ys :: yss)
      | None => edpim_columns fn xs r
      end
  | _ :: r => edpim_columns fn xs r
  end.

(** The heads and tails of some lists, if all have one; for [zip]
    (pyslat.py 1577). *)
Fixpoint heads (l : list (list num)) : option (list num * list (list num)) :=
  match l with
  | [] => Some ([], [])
  | (y :: t) :: r => match heads r with Some (ys, ts) => Some (y :: ys, t :: ts) | None => None end
  | [] :: _ => None
  end.

(** [zip(self._at, map(list, zip( *yvals)))] (pyslat.py 1577). *)
Fixpoint zip_rows (xs : list pv) (yss : list (list num)) : list (pv * list num) :=
  match xs, yss with
  | x :: r, _ :: _ => match heads yss with Some (ys, ts) => (x, ys) :: zip_rows r ts | None => [] end
  | _, _ => []
  end.

(** A row: the value and its figures (pyslat.py 1578-1580, and as in 1558,
    1563, 1938). *)
Definition row (x : pv) (ys : list pv) : res string :=
  line <- fmt6 15 x ;; cells <- collect (fmt6 15) ys ;; Ok (append line (String.concat "" cells)).

(** What has been printed, and the exception that put an end to it, if any
    (pyslat.py 1690-1694). *)
Definition out := (list string * option exn)%type.

(** Lines printed one by one (pyslat.py 1558, 1563, 1581, 1677). *)
Fixpoint print_all (l : list (res string)) : out :=
  match l with
  | [] => ([], None)
  | Ok s :: r => let (o, e) := print_all r in (s :: o, e)
  | Raise e :: _ => ([], Some e)
  end.

(** First one line, then what follows (pyslat.py 1552-1677, 1709-1710, 1780-1809,
    1901-1906, 1923-1938). *)
Definition print (s : res string) (f : out) : out :=
  match s with
  | Ok s => let (o, e) := f in (s :: o, e)
  | Raise e => ([], Some e)
  end.

(** Lines made from a list found first (such as the columns, pyslat.py 1565-1577). *)
Definition after {A} (m : res A) (f : A -> out) : out :=
  match m with Ok a => f a | Raise e => ([], Some e) end.

(** Python's [sum] (pyslat.py 1593, 1598): the integer 0 for nothing. *)
Definition sum (l : list num) : pv :=
  match l with [] => PInt 0 | _ => PNum (fold_left (plus L) l (ofZ L 0)) end.

(** The cost or delay of a group; other objects have no such method
    (pyslat.py 1600, 1621-1628, 1644-1651). *)
Definition of_group (q : nat -> num -> ask num) (fn : obj) (v : pv) : res pv :=
  match fn with
  | OGrp g _ _ _ => x <- double v ;; Ok (PNum (value L (q g x)))
  | _ => Raise AttributeError
  end.

(** [TotalCost(x)] of a structure (pyslat.py 1630, 1635, 1640, 1653, 1658). *)
Definition total (s : stat) (fn : obj) (v : pv) : res pv :=
  match fn with
  | OStr t _ => x <- double v ;; Ok (PNum (stat_of L s (costs L (TotalCost t x))))
  | _ => Raise AttributeError
  end.

(** The figure in a column headed by a number (pyslat.py 1613-1619).  The
    library's probabilistic functions have no methods in Python, as pyslatcore.i
    does not declare their class (pyslat.py 469-541; pyslatcore.i 51). *)
Definition quantile (fn : obj) (v : pv) (p : num) : res pv :=
  match fn with
  | OProb _ => Raise AttributeError
  | OEdp e _ => x <- double v ;; Ok (PNum (value L (EdpAt e x p)))
  | _ => Ok (PStr "----")
  end.

(** The figure in a column (pyslat.py 1612-1662). *)
Definition cell (t : rtype) (fn : obj) (v : pv) (y : pv) : res pv :=
  match y with
  | PNum p => quantile fn v p
  | PInt z => quantile fn v (ofZ L z)
  | PNone => Ok (PStr "+++++++++")
  | PStr s =>
      match column s with
      | Some mean_x =>
          match t with
          | costedp => of_group CostEDP fn v
          | costim => of_group CostIM fn v
          | delayim => of_group DelayIM fn v
          | delayedp => of_group DelayEDP fn v
          | totalcost => total mean_x fn v
          | _ => edp_stat mean_x fn v
          end
      | Some sd_ln_x =>
          match t with
          | costedp => of_group SdCostEDP fn v
          | costim => of_group SdCostIM fn v
          | delayim => of_group SdDelayIM fn v
          | delayedp => of_group SdDelayEDP fn v
          | totalcost => total sd_ln_x fn v
          | _ => edp_stat sd_ln_x fn v
          end
      | Some c => match t with totalcost => total c fn v | _ => edp_stat c fn v end
      | None => Ok (PStr "+++++++++")
      end
  end.

(** The figure without columns (pyslat.py 1665-1675); the names IM and EDP do not
    exist. *)
Definition plain (fn : obj) (v : pv) : res pv :=
  match fn with
  | ODet f => x <- double v ;; Ok (PNum (value L (ValueAt f x)))
  | OIm i _ => x <- double v ;; Ok (PNum (value L (ImLambda i x)))
  | OEdp e _ => x <- double v ;; Ok (PNum (value L (EdpLambda e x)))
  | _ => Raise NameError
  end.

(** The figures in a row, in the general case (pyslat.py 1589-1675).  There is no
    method DeaggregatedLoss (1603). *)
Definition figures (t : rtype) (fn : obj) (cols : option (list pv)) (v : pv) : res (list pv) :=
  match t with
  | deagg => Raise AttributeError
  | dsedp => match fn with
             | OGrp _ _ f _ => x <- double v ;; let l := values L (DsEdp f x) in Ok (map PNum l ++ [sum l])
             | _ => Raise AttributeError
             end
  | dsim => match fn with
            | OGrp g _ _ _ => x <- double v ;; let l := values L (DsIm g x) in Ok (map PNum l ++ [sum l])
            | _ => Raise AttributeError
            end
  | costrate => y <- of_group CostRate fn v ;; Ok [y]
  | _ => match cols with
         | Some cols => collect (cell t fn v) cols
         | None => y <- plain fn v ;; Ok [y]
         end
  end.

(** The row for one value, in the general case (pyslat.py 1588-1677). *)
Definition general_row (t : rtype) (fn : obj) (cols : option (list pv)) (v : pv) : res string :=
  line <- fmt6 15 v ;;
  ys <- figures t fn cols v ;;
  cells <- collect (fmt6 15) ys ;;
  Ok (append line (String.concat "" cells)).

(** [self._at], to be iterated over (pyslat.py 1587 and elsewhere). *)
Definition at_list (r : recorder) : res (list pv) :=
  match r_at r with Some l => Ok l | None => Raise TypeError end.

(** The rates of an 'imrate' recorder (pyslat.py 1556). *)
Definition rates (fn : obj) (vs : list pv) : res (list num) :=
  match fn with
  | OIm i _ => xs <- collect double vs ;; Ok (map (fun x => value L (ImLambda i x)) xs)
  | OEdp e _ => xs <- collect double vs ;; Ok (map (fun x => value L (EdpLambda e x)) xs)
  | _ => Raise AttributeError
  end.

(** The probabilities of a 'collapse' recorder (pyslat.py 1560-1561). *)
Definition fates (fn : obj) (vs : list pv) : res (list (num * num)) :=
  match fn with
  | OIm i _ => xs <- collect double vs ;; Ok (map (fun x => (value L (PDemolition i x), value L (PCollapse i x))) xs)
  | _ => Raise AttributeError
  end.

(** recorder.generate_output (pyslat.py 1555-1677). *)
Definition body (r : recorder) : out :=
  after (at_list r) (fun xs =>
  match r_type r with
  | imrate =>
      after (rates (r_fn r) xs)
        (fun ys => print_all (map (fun xy => row (fst xy) [PNum (snd xy)]) (combine xs ys)))
  | collapse =>
      after (fates (r_fn r) xs)
        (fun ys => print_all (map (fun xy => row (fst xy) [PNum (fst (snd xy)); PNum (snd (snd xy))]) (combine xs ys)))
  | edpim =>
      after (match r_cols r with
             | Some cols => edpim_columns (r_fn r) xs cols
             | None => Raise TypeError
             end)
        (fun yss => print_all (map (fun xys => row (fst xys) (map PNum (snd xys))) (zip_rows xs yss)))
  | t => print_all (map (general_row t (r_fn r) (r_cols r)) xs)
  end).

(** The recorder 'dsrate' (pyslat.py 1507-1516): a line of labels and a line of
    rates. *)
Definition dsrate_out (r : recorder) : out :=
  match r_fn r with
  | OGrp g _ _ _ =>
      let l := values L (DsRate g) in
      ([String.concat "" (map (rjust 20) (ds_labels (List.length l)));
        String.concat "" (map (fun v => rjust 20 (g6 L v)) l)], None)
  | _ => ([], Some AttributeError)
  end.

(** CollRateRecorder.generate_output (pyslat.py 1708-1711). *)
Definition collrate_out (r : recorder) : out :=
  print (Ok (append (rjust 15 "IM") (append (rjust 30 "rate(Demolition)") (rjust 30 "rate(Collapse)"))))
    (match r_fn r with
     | OIm i id => ([append (rjust 15 id) (append (rjust 30 (repr L (value L (DemolitionRate i))))
                                                  (rjust 30 (repr L (value L (CollapseRate i)))))], None)
     | _ => ([], Some AttributeError)
     end).

(** The figures of the annual cost (pyslat.py 1749-1761), with their labels; a
    column that is none of the five repeats the figure before, if there is one. *)
Fixpoint annual_cells (d : dist L) (cols : list pv) (last : option pv) : res (list (string * string)) :=
  match cols with
  | [] => Ok []
  | c :: r =>
      l1 <- fmt 15 c ;;
      v <- match match c with PStr s => column s | _ => None end, last with
           | Some st, _ => Ok (PNum (stat_of L st d))
           | None, Some v => Ok v
           | None, None => Raise NameError
           end ;;
      l2 <- fmt6 15 v ;;
      ls <- annual_cells d r (Some v) ;;
      Ok ((l1, l2) :: ls)
  end.

(** The columns, to be iterated over; the constructor sees to it that there are
    some (pyslat.py 1729-1730). *)
Definition col_list (r : recorder) : list pv := match r_cols r with Some l => l | None => [] end.

(** 'structcost' of type 'annual' (pyslat.py 1745-1763). *)
Definition annual_out (r : recorder) : out :=
  match r_fn r with
  | OStr t _ =>
      after (annual_cells (costs L (AnnualCost t)) (col_list r) None)
        (fun l => ([String.concat "" (map fst l); String.concat "" (map snd l)], None))
  | _ => ([], Some AttributeError)
  end.

(** The text of a column in "{}.{}".format(c, y) (pyslat.py 1779, 1827, 1868). *)
Definition col_text (v : pv) : string :=
  match v with PNum v => repr L v | PInt z => dec z | PStr s => s | PNone => "None" end.

(** The figure of a distribution in a column of the deaggregated costs
    (pyslat.py 1794-1806, 1842-1854, 1883-1895): of the five names three are known
    there, and two others. *)
Definition deagg_cell (d : dist L) (y : pv) : pv :=
  match y with
  | PStr s =>
      if String.eqb s "mean_x" then PNum (stat_of L mean_x d)
      else if String.eqb s "mean_ln" then PNum (stat_of L mean_ln_x d)
      else if String.eqb s "median" then PNum (stat_of L median_x d)
      else if String.eqb s "sd_ln_x" then PNum (stat_of L sd_ln_x d)
      else if String.eqb s "sd_x" then PNum (stat_of L sd_x d)
      else PNone
  | _ => PNone
  end.

(** The table of deaggregated costs: for each value, each category [c] and each
    column a figure of [cost c x] (pyslat.py 1775-1809, 1823-1857, 1865-1898). *)
Definition by_out {C} (w : nat) (im : string) (name : C -> string) (cats : list C) (cost : C -> num -> dist L)
    (r : recorder) : out :=
  print (Ok (append (rjust 15 im)
           (String.concat "" (flat_map (fun c => map (fun y => rjust w (append (name c) (append "." (col_text y))))
                                                   (col_list r)) cats))))
    (after (at_list r) (fun xs => print_all (map (fun v =>
       line <- fmt6 15 v ;;
       cells <- collect (fun c => x <- double v ;; collect (fmt6 w) (map (deagg_cell (cost c x)) (col_list r))) cats ;;
       Ok (append line (String.concat "" (List.concat cells)))) xs))).

(** [groups[id] = c] (pyslat.py 1768, 1816): a dictionary. *)
Fixpoint put (d : list (string * list nat)) (k : string) (v : list nat) : list (string * list nat) :=
  match d with
  | [] => [(k, v)]
  | (k', v') :: r => if String.eqb k' k then (k, v) :: r else (k', v') :: put r k v
  end.

(** The dictionary of categories (pyslat.py 1766-1768, 1814-1816); [lookup]
    gives None for an object without a name, which has no method id. *)
Fixpoint categories (l : list (option string * list nat)) (d : list (string * list nat)) : res (list (string * list nat)) :=
  match l with
  | [] => Ok d
  | (Some k, v) :: r => categories r (put d k v)
  | (None, _) :: _ => Raise AttributeError
  end.

(** [categories.sort()] (pyslat.py 1772-1773, 1820-1821). *)
Fixpoint insert (e : string * list nat) (l : list (string * list nat)) : list (string * list nat) :=
  match l with
  | [] => [e]
  | x :: r => if String.leb (fst e) (fst x) then e :: l else x :: insert e r
  end.
(** The same (pyslat.py 1772-1773, 1820-1821). *)
Definition sort_keys (l : list (string * list nat)) : list (string * list nat) := fold_right insert [] l.

(** The cost of some groups: the sum of lognormals with each group's mean and
    dispersion (pyslat.py 1785-1792, 1833-1840). *)
Definition groups_cost (gs : list nat) (x : num) : dist L :=
  add_dists L (map (fun g => lognormal L (value L (CostIM g x)) (value L (SdCostIM g x))) gs).

(** 'structcost' of types 'by-edp' and 'by-frag' (pyslat.py 1764-1857). *)
Definition by_groups_out (w : nat) (comps : nat -> list (option string * list nat)) (r : recorder) : out :=
  match r_fn r with
  | OStr t im =>
      after (categories (comps t) []) (fun d =>
        match im with
        | Some im => by_out w im fst (sort_keys d) (fun c x => groups_cost (snd c) x) r
        | None => ([], Some AttributeError)
        end)
  | _ => ([], Some AttributeError)
  end.

(** The names of the three costs, in the order of structure.CostsByFate
    (pyslat.py 1863, 1874-1881). *)
Definition fate_name (f : nat) : string := nth f ["repair"; "demo"; "coll"] "".

(** 'structcost' of type 'by-fate' (pyslat.py 1860-1898). *)
Definition fate_out (r : recorder) : out :=
  match r_fn r with
  | OStr t (Some im) => by_out 15 im fate_name [0; 1; 2] (fun f x => costs L (Fate t f x)) r
  | _ => ([], Some AttributeError)
  end.

(** 'structcost' of type 'npv' (pyslat.py 1899-1906); the number of years must be
    an integer (pyslatcore.i 188). *)
Definition npv_out (r : recorder) : out :=
  print (Ok (append (rjust 15 "Year") (rjust 15 "E[ALt]")))
    (after (at_list r) (fun xs => print_all (map (fun v =>
       line <- fmt 15 v ;;
       match r_fn r, v with
       | OStr t _, PInt z => c <- fmt6 15 (PNum (value L (Npv t z (r_rate r)))) ;; Ok (append line c)
       | OStr _ _, _ => Raise TypeError
       | _, _ => Raise AttributeError
       end) xs))).

(** The largest of the densities, 0 (an integer) if none is positive
    (pyslat.py 1925-1930). *)
Fixpoint max_pdf (l : list num) (m : option num) : option num :=
  match l with
  | [] => m
  | p :: r => max_pdf r (if gtb L p (match m with Some m => m | None => ofZ L 0 end) then Some p else m)
  end.

(** PdfRecorder.generate_output (pyslat.py 1922-1938). *)
Definition pdf_out (r : recorder) : out :=
  print (i <- im_id (r_fn r) ;; a <- fmt6 15 (PStr i) ;; b <- fmt6 15 (PStr "pdf") ;; Ok (append a b))
    (after (at_list r) (fun xs =>
       after (collect (fun v => match r_fn r with
                                | OStr t _ => x <- double v ;; Ok (value L (Pdf t x))
                                | _ => Raise AttributeError
                                end) xs)
         (fun ps => print_all (map (fun xp =>
            y <- (if r_normalise r
                  then match max_pdf ps None with
                       | Some m => Ok (quot L (snd xp) m)
                       | None => Raise ZeroDivisionError
                       end
                  else Ok (quot L (snd xp) (ofZ L 1))) ;;
            row (fst xp) [PNum y]) (combine xs ps))))).

(** generate_output of a recorder of any class (pyslat.py 1505-1677, 1708-1711,
    1744-1908, 1922-1938; MakeRecorder, 1944-1952). *)
Definition generate (r : recorder) : out :=
  match r_type r with
  | dsrate => dsrate_out r
  | collrate => collrate_out r
  | annual => annual_out r
  | by_edp_t => by_groups_out 15 (by_edp L) r
  | by_frag_t => by_groups_out 20 (by_frag L) r
  | by_fate => fate_out r
  | npv => npv_out r
  | pdf => pdf_out r
  | _ => print (header r) (body r)
  end.

End Recorder.

Arguments PNum {L}. Arguments PInt {L}. Arguments PStr {L}. Arguments PNone {L}.
Arguments Ok {A}. Arguments Raise {A}.
Arguments Recorder {L}. Arguments r_type {L}. Arguments r_fn {L}. Arguments r_cols {L}. Arguments r_at {L}.
Arguments r_rate {L}. Arguments r_normalise {L}. Arguments generate {L}. Arguments make {L}.
