(** * The questions Python objects answer
    (src/pyslat.py 320-338, 416-417, 502-542, 598-681, 752-758, 770-835, 898-899, 1159-1222,
    1286-1400; src/pyslatcore.i 43-200; src/pyslatcore.cpp)

    A method of a Python class asks the object it wraps, by name; the bindings know the
    classes and functions declared in pyslatcore.i, and convert the arguments; the function
    found asks the library.  Modelled are the methods that put a question to the library or
    set something there, except those that take a list (see C84) and those that take or
    give groups (see C44, C45, C48, C88).

    Simplifications:
    - Python numbers are integers or floats, the latter of any type [T]; integers become
      floats by [of_int], without overflow;
    - the attributes [_collapse] and [_demolition] that only a description shows (652, 674)
      are left out;
    - what the library answers is not modelled here: the answer is the question it is asked,
      and the form in which Python gets what it says. *)
From Coq Require Import List String ZArith Bool.
Import ListNotations.
Local Open Scope string_scope.

Section Methods.

Context {T : Type}.
Variable of_int : Z -> T.

(** Python values: numbers, truth values, the distributions of the bindings
    (pyslatcore.i 56-67), the objects of the class [lognormaldist] (pyslat.py 313-317), and
    others but lists, among them the objects of the class [detfn] (pyslat.py 348) and what
    they wrap (pyslatcore.i 43-46).  Distributions are numbered. *)
Inductive value :=
| VInt (z : Z) | VFloat (x : T) | VBool (b : bool) | VDist (d : nat) | VLognormal (d : nat) | VOther (n : nat).

(** The classes the Python objects wrap (pyslatcore.h 30-43, 82, 108, 150, 200, 230, 250,
    300). *)
Inductive native := NDet | NProb | NDist | NIm | NEdp | NFrag | NGrp | NStr.

(** The types of parameters (pyslatcore.i 43-200). *)
Inductive type := TDouble | TInt | TBool | TDist.

(** What a question to the library gets as arguments (pyslatcore.cpp 98-875). *)
Inductive cvalue := CDouble (x : T) | CInt (z : Z) | CBool (b : bool) | CDist (d : nat).

(** What is returned: a number, numbers, a distribution, distributions, nothing
    (pyslatcore.i 43-200). *)
Inductive return_type := RNumber | RNumbers | RDist | RDists | RVoid.

(** What Python gets: a number, a tuple of numbers, a distribution of the bindings, a tuple
    of them, an object of the class [lognormaldist], a list of them, [None] (pyslat.py
    320-1400). *)
Inductive form := PyNumber | PyNumbers | PyDist | PyDists | PyLognormal | PyLognormals | PyNone.

(** How a call ends: with what the library says to a question; AttributeError; an exception
    over the arguments, be it TypeError, OverflowError or NotImplementedError (pyslat.py
    320-1400, pyslatcore.i 43-200). *)
Inductive answer :=
| Says (function : string) (args : list cvalue) (f : form)
| NoAttribute
| Refused.

(** The functions declared (pyslatcore.i 43-46, 56-66, 73-89, 93-113, 118-126, 150-173,
    179-200) with the types of their parameters, the type returned, and the function of the
    library they ask with these arguments (pyslatcore.cpp 98-101, 254-293, 313-372,
    388-436, 576-584, 664-711, 734-742, 759-815, 867-875).  The class ProbabilisticFn is not
    declared, so that its objects have no attributes.  The overloads for lists are left
    out, and functions that no method here asks for. *)
Definition declared (c : native) : list (string * (list type * return_type * string)) :=
  match c with
  | NDet => [("ValueAt", ([TDouble], RNumber, "DeterministicFn::ValueAt"))]
  | NProb => []
  | NDist =>
      [("get_mu_lnX", ([], RNumber, "LogNormalDist::get_mu_lnX"));
       ("get_median_X", ([], RNumber, "LogNormalDist::get_median_X"));
       ("get_mean_X", ([], RNumber, "LogNormalDist::get_mean_X"));
       ("get_sigma_lnX", ([], RNumber, "LogNormalDist::get_sigma_lnX"));
       ("get_sigma_X", ([], RNumber, "LogNormalDist::get_sigma_X"))]
  | NIm =>
      [("get_lambda", ([TDouble], RNumber, "IM::lambda"));
       ("SetCollapse", ([TDist], RVoid, "IM::SetCollapse"));
       ("pCollapse", ([TDouble], RNumber, "IM::pCollapse"));
       ("CollapseRate", ([], RNumber, "IM::CollapseRate"));
       ("SetDemolition", ([TDist], RVoid, "IM::SetDemolition"));
       ("pDemolition", ([TDouble], RNumber, "IM::pDemolition"));
       ("DemolitionRate", ([], RNumber, "IM::DemolitionRate"));
       ("pRepair", ([TDouble], RNumber, "IM::pRepair"))]
  | NEdp =>
      [("get_lambda", ([TDouble], RNumber, "EDP::lambda"));
       ("Mean", ([TDouble], RNumber, "EDP::Mean"));
       ("MeanLn", ([TDouble], RNumber, "EDP::MeanLn"));
       ("Median", ([TDouble], RNumber, "EDP::Median"));
       ("SD_ln", ([TDouble], RNumber, "EDP::SD_ln"));
       ("SD", ([TDouble], RNumber, "EDP::SD"));
       ("X_at_exceedence", ([TDouble; TDouble], RNumber, "EDP::X_at_exceedence"))]
  | NFrag =>
      [("pExceeded", ([TDouble], RNumbers, "FragilityFn::pExceeded"))]
  | NGrp =>
      [("E_Cost_EDP", ([TDouble], RNumber, "CompGroup::E_cost_EDP"));
       ("SD_ln_cost_EDP", ([TDouble], RNumber, "CompGroup::SD_ln_cost_EDP"));
       ("E_Cost_IM", ([TDouble], RNumber, "CompGroup::E_cost_IM"));
       ("SD_ln_Cost_IM", ([TDouble], RNumber, "CompGroup::SD_ln_cost_IM"));
       ("E_annual_cost", ([], RNumber, "CompGroup::E_annual_cost"));
       ("E_Delay_EDP", ([TDouble], RNumber, "CompGroup::E_delay_EDP"));
       ("SD_ln_Delay_EDP", ([TDouble], RNumber, "CompGroup::SD_ln_delay_EDP"));
       ("E_Delay_IM", ([TDouble], RNumber, "CompGroup::E_delay_IM"));
       ("SD_ln_Delay_IM", ([TDouble], RNumber, "CompGroup::SD_ln_delay_IM"));
       ("pDS_IM", ([TDouble], RNumbers, "CompGroup::pDS_IM"));
       ("Rate", ([], RNumbers, "CompGroup::Rate"));
       ("lambda_cost", ([TDouble], RNumber, "CompGroup::lambda_cost"))]
  | NStr =>
      [("Cost", ([TDouble; TBool], RDist, "Structure::Cost"));
       ("TotalCost", ([TDouble], RDist, "Structure::TotalCost"));
       ("DeaggregatedCost", ([TDouble], RDists, "Structure::DeaggregatedCost"));
       ("CostsByFate", ([TDouble], RDists, "Structure::CostsByFate"));
       ("E_cost", ([TInt; TDouble], RNumber, "Structure::E_cost"));
       ("setRebuildCost", ([TDist], RVoid, "Structure::setRebuildCost"));
       ("getRebuildCost", ([], RDist, "Structure::getRebuildCost"));
       ("setDemolitionCost", ([TDist], RVoid, "Structure::setDemolitionCost"));
       ("getDemolitionCost", ([], RDist, "Structure::getDemolitionCost"));
       ("AnnualCost", ([], RDist, "Structure::AnnualCost"));
       ("pdf", ([TDouble], RNumber, "Structure::pdf"));
       ("Clear_Cache", ([], RVoid, "Structure::Clear_Cache"))]
  end.

(** How the bindings convert an argument (SWIG without its cast mode, which pyslatcore.i
    does not switch on; other versions may convert floats to integers): a float
    parameter takes integers and truth values too; an integer parameter takes no floats, and
    nothing out of range (188: int); a truth value must be one. *)
Definition convert (t : type) (v : value) : option cvalue :=
  match t, v with
  | TDouble, VFloat x => Some (CDouble x)
  | TDouble, VInt z => Some (CDouble (of_int z))
  | TDouble, VBool b => Some (CDouble (of_int (if b then 1 else 0)%Z))
  | TInt, VInt z => if ((-2147483648 <=? z) && (z <=? 2147483647))%Z then Some (CInt z) else None
  | TInt, VBool b => Some (CInt (if b then 1 else 0)%Z)
  | TBool, VBool b => Some (CBool b)
  | TDist, VDist d => Some (CDist d)
  | _, _ => None
  end.

(** All of them, as many as there are parameters (pyslatcore.i 43-200). *)
Fixpoint converts (ts : list type) (vs : list value) : option (list cvalue) :=
  match ts, vs with
  | [], [] => Some []
  | t :: ts, v :: vs =>
      match convert t v, converts ts vs with Some c, Some cs => Some (c :: cs) | _, _ => None end
  | _, _ => None
  end.

(** What Python gets from the bindings (pyslatcore.i 6-18). *)
Definition given (r : return_type) : form :=
  match r with RNumber => PyNumber | RNumbers => PyNumbers | RDist => PyDist | RDists => PyDists | RVoid => PyNone end.

(** The first declaration of a name (pyslatcore.i 43-200; no name here has two). *)
Fixpoint find (n : string) (l : list (string * (list type * return_type * string))) :
  option (list type * return_type * string) :=
  match l with
  | [] => None
  | (m, d) :: r => if String.eqb m n then Some d else find n r
  end.

(** A function of the bindings called on an object of a class (pyslatcore.i 43-200). *)
Definition call (c : native) (n : string) (vs : list value) : answer :=
  match find n (declared c) with
  | None => NoAttribute
  | Some (ts, r, f) => match converts ts vs with Some cs => Says f cs (given r) | None => Refused end
  end.

(** The methods of the Python classes (pyslat.py, lines as below). *)
Inductive method :=
| DistMean | DistMedian | DistMeanLn | DistSd | DistSdLn
| DetValueAt
| ProbMean | ProbMeanLn | ProbMedian | ProbSDLn | ProbSD | ProbX
| ImLambda | ImRepair | ImCollapse | ImDemolition | ImCollapseRate | ImDemolitionRate
| ImSetCollapse | ImSetDemolition
| EdpMean | EdpMeanLn | EdpMedian | EdpSDLn | EdpSD | EdpLambda | EdpX
| FragExceeded
| GrpCostEdp | GrpSDCostEdp | GrpCostIm | GrpSDCostIm | GrpCost | GrpAnnual | GrpLambda | GrpDS
| GrpDelayIm | GrpDelayEdp | GrpSDDelayIm | GrpSDDelayEdp | GrpRate
| StrPdf | StrSetRebuild | StrGetRebuild | StrSetDemolition | StrGetDemolition | StrCost | StrTotal
| StrFates | StrAnnual | StrECost | StrDeaggregated | StrClear.

(** How many arguments a method has, besides the object (pyslat.py, lines as at [ask]). *)
Definition arity (m : method) : nat :=
  match m with
  | DistMean | DistMedian | DistMeanLn | DistSd | DistSdLn | ImCollapseRate | ImDemolitionRate | GrpAnnual | GrpRate
  | StrGetRebuild | StrGetDemolition | StrAnnual | StrClear => 0
  | ProbX | EdpX | GrpCost | StrCost | StrECost => 2
  | _ => 1
  end.

(** [lognormaldist(...)] around what a call gives (pyslat.py 1322, 1332, 1343, 1352, 1369). *)
Definition wrapped (a : answer) : answer :=
  match a with Says f cs PyDist => Says f cs PyLognormal | _ => a end.

(** The list of three (pyslat.py 1361-1364). *)
Definition wrapped_list (a : answer) : answer :=
  match a with Says f cs PyDists => Says f cs PyLognormals | _ => a end.

(** What a method does with its arguments; too many or too few raise TypeError
    (pyslat.py, lines as given). *)
Definition ask (m : method) (vs : list value) : answer :=
  if Nat.eqb (List.length vs) (arity m) then
    match m with
    | DistMean => call NDist "get_mean_X" vs                    (* pyslat.py 320-321 *)
    | DistMedian => call NDist "get_median_X" vs                (* 324-325 *)
    | DistMeanLn => call NDist "get_mu_lnX" vs                  (* 328-329 *)
    | DistSd => call NDist "get_sigma_X" vs                     (* 332-333 *)
    | DistSdLn => call NDist "get_sigma_lnX" vs                 (* 336-337 *)
    | DetValueAt => call NDet "ValueAt" vs                      (* 416-417 *)
    | ProbMean => call NProb "Mean" vs                          (* 502-503 *)
    | ProbMeanLn => call NProb "MeanLn" vs                      (* 508-509 *)
    | ProbMedian => call NProb "Median" vs                      (* 514-515 *)
    | ProbSDLn => call NProb "SD_ln" vs                         (* 521-522 *)
    | ProbSD => call NProb "SD" vs                              (* 528-529 *)
    | ProbX => call NProb "X_at_exceedence" vs                  (* 541-542 *)
    | ImLambda => call NIm "get_lambda" vs                      (* 623-628 *)
    | ImRepair => call NIm "pRepair" vs                         (* 632-637 *)
    | ImCollapse => call NIm "pCollapse" vs                     (* 641-646 *)
    | ImSetCollapse => call NIm "SetCollapse" vs                (* 651-653 *)
    | ImCollapseRate => call NIm "CollapseRate" vs              (* 658-659 *)
    | ImDemolition => call NIm "pDemolition" vs                 (* 663-668 *)
    | ImSetDemolition => call NIm "SetDemolition" vs            (* 673-675 *)
    | ImDemolitionRate => call NIm "DemolitionRate" vs          (* 680-681 *)
    | EdpMean => call NEdp "Mean" vs                            (* 770-775 *)
    | EdpMeanLn => call NEdp "MeanLn" vs                        (* 779-784 *)
    | EdpMedian => call NEdp "Median" vs                        (* 788-793 *)
    | EdpSDLn => call NEdp "SD_ln" vs                           (* 797-802 *)
    | EdpSD => call NEdp "SD" vs                                (* 806-811 *)
    | EdpLambda => call NEdp "get_lambda" vs                    (* 817-822 *)
    | EdpX => call NEdp "X_at_exceedence" vs                    (* 834-835 *)
    | FragExceeded => call NFrag "pExceeded" vs                 (* 898-899 *)
    | GrpCostEdp => call NGrp "E_Cost_EDP" vs                   (* 1159-1160 *)
    | GrpSDCostEdp => call NGrp "SD_ln_cost_EDP" vs             (* 1164-1165 *)
    | GrpCostIm => call NGrp "E_Cost_IM" vs                     (* 1169-1170 *)
    | GrpSDCostIm => call NGrp "SD_ln_Cost_IM" vs               (* 1174-1175 *)
    | GrpCost => call NGrp "E_cost" vs                          (* 1181-1182 *)
    | GrpAnnual => call NGrp "E_annual_cost" vs                 (* 1185-1186 *)
    | GrpLambda => call NGrp "lambda_cost" vs                   (* 1190-1191 *)
    | GrpDS => call NGrp "pDS_IM" vs                            (* 1196-1197 *)
    | GrpDelayIm => call NGrp "E_Delay_IM" vs                   (* 1201-1202 *)
    | GrpDelayEdp => call NGrp "E_Delay_EDP" vs                 (* 1206-1207 *)
    | GrpSDDelayIm => call NGrp "SD_ln_Delay_IM" vs             (* 1211-1212 *)
    | GrpSDDelayEdp => call NGrp "SD_ln_Delay_EDP" vs           (* 1216-1217 *)
    | GrpRate => call NGrp "Rate" vs                            (* 1221-1222 *)
    | StrPdf => call NStr "pdf" vs                              (* 1286-1287 *)
    | StrSetRebuild => call NStr "setRebuildCost" vs            (* 1317-1318 *)
    | StrGetRebuild => wrapped (call NStr "getRebuildCost" vs)  (* 1321-1322 *)
    | StrSetDemolition => call NStr "setDemolitionCost" vs      (* 1327-1328 *)
    | StrGetDemolition => wrapped (call NStr "getDemolitionCost" vs) (* 1331-1332 *)
    | StrCost => wrapped (call NStr "Cost" vs)                  (* 1342-1343 *)
    | StrTotal => wrapped (call NStr "TotalCost" vs)            (* 1351-1352 *)
    | StrFates => wrapped_list (call NStr "CostsByFate" vs)     (* 1360-1364 *)
    | StrAnnual => wrapped (call NStr "AnnualCost" vs)          (* 1368-1369 *)
    | StrECost => call NStr "E_cost" vs                         (* 1375-1376 *)
    | StrDeaggregated => call NStr "DeaggregatedCost" vs        (* 1383-1384 *)
    | StrClear => call NStr "Clear_Cache" vs                    (* 1399-1400 *)
    end
  else Refused.

(** ** Hints for plotting *)

(** What has an attribute for the hint once made (pyslat.py 589, 728): measures, compound
    demand parameters; not simple ones. *)
Inductive plotted := PlotIm | PlotSimple | PlotCompound.

(** The hint: no attribute, [None], a value (pyslat.py 589, 728, 604, 758). *)
Inductive hint := Absent | Unset | Hint (v : value).

(** When made (pyslat.py 583-589, 717-728). *)
Definition hint_made (p : plotted) : hint := match p with PlotSimple => Absent | _ => Unset end.

(** [set_plot_max] (pyslat.py 603-604, 757-758). *)
Definition hint_set (h : hint) (v : value) : hint := Hint v.

(** [plot_max] (pyslat.py 598-599, 752-753): [None] inside stands for an exception. *)
Definition hint_get (h : hint) : option (option value) :=
  match h with Absent => None | Unset => Some None | Hint v => Some (Some v) end.

End Methods.

Arguments value : clear implicits. Arguments cvalue : clear implicits. Arguments answer : clear implicits.
Arguments hint : clear implicits.
