(** * What the library itself writes of its objects (src/functions.cpp 24-73;
    src/relationships.cpp 106-121; src/lognormaldist.cpp 233-238; src/fragility.cpp 75-83;
    src/loss_functions.cpp 29-41, 64-73, 138-146; src/comp_group.cpp 646-656)

    The streams have the default format, in which [Report.v] writes numbers.

    Simplifications: texts are lists of characters; a number that is not one is written without
    sign; [exp] is a parameter, as in [Spread.v]; the pointers of a group to its demand parameter
    and its fragility function are never empty, as its constructor has used them. *)
From Coq Require Import ZArith Bool Ascii String List Floats.SpecFloat.
From Verif Require Import Num Report Damage Spread.
Import ListNotations.
Local Open Scope list_scope.

(** Text between quotes (functions.cpp 26 and so on). *)
Definition said (s : string) : list ascii := list_ascii_of_string s.

(** [operator<<] of [int] (comp_group.cpp 649). *)
Definition int_text (n : Z) : list ascii :=
  if (n <? 0)%Z then "-"%char :: unsigned (- n) else unsigned n.

(** The deterministic functions; a table is kept with its function (functions.h 33-300). *)
Inductive curve :=
| Basic
| Hyperbolic (v_asy im_asy alpha : F64)
| Power (a b : F64)
| Linear (points : list (F64 * F64))
| LogLog (points : list (F64 * F64)).

(** [ToString] of deterministic functions (functions.cpp 24-53). *)
Definition curve_text (c : curve) : list ascii :=
  match c with
  | Basic => said "Deterministic Function"
  | Hyperbolic v i a =>
      said "Hyperbolic(" ++ double_text v ++ said ", " ++ double_text i ++ said ", " ++ double_text a ++ said ")"
  | Power a b => said "Power(" ++ double_text a ++ said ", " ++ double_text b ++ said ")"
  | Linear _ => said "LinearInterpolatedFn"
  | LogLog _ => said "LogLogInterpolatedFn"
  end.

(** What the first function of a [LogNormalFn] gives (functions.h 449, functions.cpp
    316-341). *)
Inductive centre := MEAN_LN_X | MEAN_X | MEDIAN_X.

(** What the second one gives (functions.h 450, functions.cpp 343-360). *)
Inductive width := SIGMA_LN_X | SIGMA_X.

(** A [LogNormalFn] (functions.cpp 312-366). *)
Record response := Response { re_mu : curve; re_centre : centre; re_sigma : curve; re_width : width }.

(** [LogNormalFn::ToString] (functions.cpp 61-66). *)
Definition response_text (r : response) : list ascii :=
  said "LogNormal(" ++ curve_text (re_mu r) ++ said ", " ++ curve_text (re_sigma r) ++ said ")".

(** An intensity measure, and what it may have beside its curve (relationships.h 32-137). *)
Record measure := Measure { me_curve : curve; me_collapse : option (F64 * F64); me_demolition : option (F64 * F64) }.

(** [IM::ToString] (relationships.cpp 106-109). *)
Definition measure_text (m : measure) : list ascii := said "IM(" ++ curve_text (me_curve m) ++ said ")".

(** A demand parameter; a compound one has a second response (relationships.h 146-275). *)
Record demand := Demand { de_measure : measure; de_first : response; de_second : option response }.

(** [EDP::ToString], which [CompoundEDP] inherits (relationships.cpp 111-121). *)
Definition demand_text (d : demand) : list ascii :=
  said "EDP((" ++ measure_text (de_measure d) ++ said ", " ++ response_text (de_first d) ++ said ")".

Section Shown.

(** The [exp] of C (lognormaldist.cpp 150). *)
Variable exp : F64 -> F64.

(** [operator<<] of [LogNormalDist] (lognormaldist.cpp 233-238). *)
Definition dist_text (d : F64 * F64) : list ascii :=
  said "(lognormal mean=" ++ double_text (mean_of exp d) ++ said ", sd_ln=" ++ double_text (snd d) ++ said ")".

(** The loop over distributions (fragility.cpp 78-80, loss_functions.cpp 68-70). *)
Fixpoint dists_text (l : list (F64 * F64)) : list ascii :=
  match l with [] => [] | d :: l => dist_text d ++ said "; " ++ dists_text l end.

(** [operator<<] of [FragilityFn] (fragility.cpp 75-83). *)
Definition fragility_text (l : list (F64 * F64)) : list ascii :=
  said "FragilityFn: " ++ dists_text l ++ [newline].

(** A [BiLevelLoss] (loss_functions.h 70-83). *)
Record two_levels := Two { tw_min : Z; tw_max : Z; tw_at_min : F64; tw_at_max : F64; tw_spread : F64 }.

(** The two kinds of loss functions (loss_functions.h 49-104). *)
Inductive loss := Simple (l : list (F64 * F64)) | BiLevel (l : list two_levels).

(** [operator<<] of [LossFn]: [to_string] is virtual, but [BiLevelLossFn] has none of its own
    (loss_functions.cpp 29-41, 64-73). *)
Definition loss_text (l : loss) : list ascii :=
  match l with
  | Simple l => said "SimpleLossFn: " ++ dists_text l ++ [newline]
  | BiLevel _ => said "LossFn: " ++ [newline]
  end.

(** A component group (comp_group.h 224-255). An empty pointer is [None]. *)
Record group := Group {
  gr_name : string; gr_count : Z; gr_demand : demand; gr_states : list (F64 * F64);
  gr_cost : option loss; gr_delay : option loss
}.

(** [operator<<] of [CompGroup] (comp_group.cpp 646-656). The pointers to loss functions are
    followed without asking whether they are empty. *)
Definition group_text (g : group) : outcome (list ascii) :=
  match gr_cost g, gr_delay g with
  | Some c, Some d =>
      Returns (said "CompGroup " ++ said (gr_name g) ++ said ": " ++ int_text (gr_count g) ++
               said ", " ++ demand_text (gr_demand g) ++ said ", " ++ fragility_text (gr_states g) ++
               said ", " ++ loss_text c ++ said ", " ++ loss_text d ++ [newline])
  | _, _ => Undefined
  end.

End Shown.
