(** * What the documentation says the methods give (C92)

    Written from the comments above each method (src/pyslat.py, lines as at
    [Methods.ask]): the kinds of its arguments, the figure, the form it comes in. *)
From Coq Require Import List String ZArith Bool.
From Verif Require Import Methods.
Import ListNotations.
Local Open Scope string_scope.

(** The kinds of arguments the documentation speaks of: a number; a boolean; a log normal
    distribution; a deterministic function (not modelled but as something else). *)
Inductive kind := Number | Boolean | Lognormal | Deterministic.

Section Spec.
Context {T : Type}.
Variable of_int : Z -> T.

(** What is of a kind, and what the library should get for it. *)
Inductive fits : kind -> value T -> cvalue T -> Prop :=
| fits_float x : fits Number (VFloat x) (CDouble x)
| fits_int z : fits Number (VInt z) (CDouble (of_int z))
| fits_bool b : fits Boolean (VBool b) (CBool b)
| fits_dist d : fits Lognormal (VDist d) (CDist d)
| fits_lognormal d : fits Lognormal (VLognormal d) (CDist d).

(** The documentation: name, arguments, figure, form.  [SetCollapse] and [SetDemolition]
    are said to take deterministic functions, and the structure's setters distributions;
    [DeaggregatedCost] to give a pair of [lognormaldist]. *)
Inductive says : method -> list kind -> string -> form -> Prop :=
(* class lognormaldist *)
| s_mean : says DistMean [] "LogNormalDist::get_mean_X" PyNumber
| s_median : says DistMedian [] "LogNormalDist::get_median_X" PyNumber
| s_mean_ln : says DistMeanLn [] "LogNormalDist::get_mu_lnX" PyNumber
| s_sd : says DistSd [] "LogNormalDist::get_sigma_X" PyNumber
| s_sd_ln : says DistSdLn [] "LogNormalDist::get_sigma_lnX" PyNumber
(* class detfn *)
| s_value : says DetValueAt [Number] "DeterministicFn::ValueAt" PyNumber
(* class probfn *)
| s_pmean : says ProbMean [Number] "ProbabilisticFn::Mean" PyNumber
| s_pmean_ln : says ProbMeanLn [Number] "ProbabilisticFn::MeanLn" PyNumber
| s_pmedian : says ProbMedian [Number] "ProbabilisticFn::Median" PyNumber
| s_psd_ln : says ProbSDLn [Number] "ProbabilisticFn::SD_ln" PyNumber
| s_psd : says ProbSD [Number] "ProbabilisticFn::SD" PyNumber
| s_px : says ProbX [Number; Number] "ProbabilisticFn::X_at_exceedence" PyNumber
(* class im *)
| s_lambda : says ImLambda [Number] "IM::lambda" PyNumber
| s_repair : says ImRepair [Number] "IM::pRepair" PyNumber
| s_collapse : says ImCollapse [Number] "IM::pCollapse" PyNumber
| s_demolition : says ImDemolition [Number] "IM::pDemolition" PyNumber
| s_collapse_rate : says ImCollapseRate [] "IM::CollapseRate" PyNumber
| s_demolition_rate : says ImDemolitionRate [] "IM::DemolitionRate" PyNumber
| s_set_collapse : says ImSetCollapse [Deterministic] "IM::SetCollapse" PyNone
| s_set_demolition : says ImSetDemolition [Deterministic] "IM::SetDemolition" PyNone
(* class edp *)
| s_emean : says EdpMean [Number] "EDP::Mean" PyNumber
| s_emean_ln : says EdpMeanLn [Number] "EDP::MeanLn" PyNumber
| s_emedian : says EdpMedian [Number] "EDP::Median" PyNumber
| s_esd_ln : says EdpSDLn [Number] "EDP::SD_ln" PyNumber
| s_esd : says EdpSD [Number] "EDP::SD" PyNumber
| s_elambda : says EdpLambda [Number] "EDP::lambda" PyNumber
| s_ex : says EdpX [Number; Number] "EDP::X_at_exceedence" PyNumber
(* class fragfn *)
| s_exceeded : says FragExceeded [Number] "FragilityFn::pExceeded" PyNumbers
(* class compgroup *)
| s_cost_edp : says GrpCostEdp [Number] "CompGroup::E_cost_EDP" PyNumber
| s_sd_cost_edp : says GrpSDCostEdp [Number] "CompGroup::SD_ln_cost_EDP" PyNumber
| s_cost_im : says GrpCostIm [Number] "CompGroup::E_cost_IM" PyNumber
| s_sd_cost_im : says GrpSDCostIm [Number] "CompGroup::SD_ln_cost_IM" PyNumber
| s_cost : says GrpCost [Number; Number] "CompGroup::E_cost" PyNumber
| s_annual : says GrpAnnual [] "CompGroup::E_annual_cost" PyNumber
| s_glambda : says GrpLambda [Number] "CompGroup::lambda_cost" PyNumber
| s_ds : says GrpDS [Number] "CompGroup::pDS_IM" PyNumbers
| s_delay_im : says GrpDelayIm [Number] "CompGroup::E_delay_IM" PyNumber
| s_delay_edp : says GrpDelayEdp [Number] "CompGroup::E_delay_EDP" PyNumber
| s_sd_delay_im : says GrpSDDelayIm [Number] "CompGroup::SD_ln_delay_IM" PyNumber
| s_sd_delay_edp : says GrpSDDelayEdp [Number] "CompGroup::SD_ln_delay_EDP" PyNumber
| s_rate : says GrpRate [] "CompGroup::Rate" PyNumbers
(* class structure *)
| s_pdf : says StrPdf [Number] "Structure::pdf" PyNumber
| s_set_rebuild : says StrSetRebuild [Lognormal] "Structure::setRebuildCost" PyNone
| s_rebuild : says StrGetRebuild [] "Structure::getRebuildCost" PyLognormal
| s_set_demolish : says StrSetDemolition [Lognormal] "Structure::setDemolitionCost" PyNone
| s_demolish : says StrGetDemolition [] "Structure::getDemolitionCost" PyLognormal
| s_scost : says StrCost [Number; Boolean] "Structure::Cost" PyLognormal
| s_total : says StrTotal [Number] "Structure::TotalCost" PyLognormal
| s_fates : says StrFates [Number] "Structure::CostsByFate" PyLognormals
| s_sannual : says StrAnnual [] "Structure::AnnualCost" PyLognormal
| s_secost : says StrECost [Number; Number] "Structure::E_cost" PyNumber
| s_deaggregated : says StrDeaggregated [Number] "Structure::DeaggregatedCost" PyLognormals
| s_clear : says StrClear [] "Structure::Clear_Cache" PyNone.

(** The methods of the class [probfn]. *)
Definition of_probfn (m : method) : Prop :=
  m = ProbMean \/ m = ProbMeanLn \/ m = ProbMedian \/ m = ProbSDLn \/ m = ProbSD \/ m = ProbX.

(** Where the documentation is not kept: the class [probfn]; the cost of a group over years;
    the form of deaggregated costs; distributions in the class's own form as costs; years
    that the bindings want whole; and functions as probabilities. *)
Definition exempt (m : method) (vs : list (value T)) : Prop :=
  of_probfn m \/ m = GrpCost \/ m = StrDeaggregated \/
  ((m = StrSetRebuild \/ m = StrSetDemolition) /\ exists d, vs = [VLognormal d]) \/
  m = StrECost \/ m = ImSetCollapse \/ m = ImSetDemolition.

(** What one argument becomes on its way to the library, whatever the parameter: the same
    number, truth value or distribution.  Truth values may stand for one and nought. *)
Inductive same : value T -> cvalue T -> Prop :=
| same_float x : same (VFloat x) (CDouble x)
| same_int z : same (VInt z) (CDouble (of_int z))
| same_whole z : (- (2 ^ 31) <= z < 2 ^ 31)%Z -> same (VInt z) (CInt z)
| same_bool b : same (VBool b) (CBool b)
| same_one : same (VBool true) (CDouble (of_int 1))
| same_nought : same (VBool false) (CDouble (of_int 0))
| same_whole_one : same (VBool true) (CInt 1)
| same_whole_nought : same (VBool false) (CInt 0)
| same_dist d : same (VDist d) (CDist d).

(** The hint last set, [None] when there is none. *)
Definition last_set (vs : list (value T)) : option (value T) :=
  match rev vs with [] => None | v :: _ => Some v end.

End Spec.
