(** * Annual rates and the annual cost of a structure

    Source: /repo/src/relationships.cpp, structure.cpp.  Exact arithmetic and open numerical
    derivatives as in [Group.v]; caches and diagnostic context are left out. *)
From Coq Require Import Reals List Bool ZArith.
From Verif Require Import Num ER ERmath Maq Lognormal Damage Group.
Import ListNotations.
Local Open Scope R_scope.

(** What an intensity measure is made of (relationships.h 34-38): its hazard curve and
    its collapse and demolition curves. *)
Record measure := Measure { hazard : er -> er; fates : curves }.

(** [IM::DerivativeAt] (relationships.cpp 123-151). *)
Definition im_slope (D : derivs) (m : measure) (x : er) : er := slope D (hazard m) x.

(** [IM::CollapseRate_calc] (relationships.cpp 153-177). *)
Definition collapse_rate (N : normal) (D : derivs) (s : settings ER) (m : measure) : Maq.outcome er :=
  match collapse (fates m) with
  | Some _ =>
      obind (integrate s (fun im => er_mul (er_abs (im_slope D m im)) (p_collapse N (fates m) im)))
            (fun r => Done (integral_or NaN r))
  | None => Done (Fin 0)
  end.

(** [IM::DemolitionRate_calc] (relationships.cpp 179-202). *)
Definition demolition_rate (N : normal) (D : derivs) (s : settings ER) (m : measure) : Maq.outcome er :=
  match demolition (fates m) with
  | Some _ =>
      obind (integrate s (fun im => er_mul (er_abs (im_slope D m im)) (p_demolition N (fates m) im)))
            (fun r => Done (integral_or NaN r))
  | None => Done (Fin 0)
  end.

(** The integrand of [EDP::calc_lambda] (relationships.cpp 276-287); [exceeds] is the
    exceedence probability of the demand given the intensity. *)
Definition demand_integrand (N : normal) (D : derivs) (m : measure) (exceeds : er -> er -> er) (y im : er) : er :=
  if er_eqb im (Fin 0) then Fin 0
  else
    let d := im_slope D m im in
    let p := exceeds im y in
    er_mul (er_add (er_mul p (p_repair N (fates m) im)) (er_sub (Fin 1) (p_repair N (fates m) im))) (er_abs d).

(** [EDP::calc_lambda] (relationships.cpp 269-294). *)
Definition demand_rate (N : normal) (D : derivs) (s : settings ER) (m : measure) (exceeds : er -> er -> er) (y : er)
  : Maq.outcome er :=
  obind (integrate s (demand_integrand N D m exceeds y)) (fun r => Done (integral_or NaN r)).

(** What a structure is made of (structure.h 55-61): the distributions of its groups'
    costs at each intensity, its intensity measure, and the two other costs. *)
Record building := Building {
  part_costs : list (er -> lnd);
  site_measure : measure;
  rebuilding : lnd;
  demolishing : lnd }.

(** [TotalCost] at an intensity (structure.cpp 114-148); simplified: a structure with groups
    has an intensity measure. *)
Definition building_cost (N : normal) (b : building) (im : er) : lnd :=
  or_nodist (total_cost N (Site (map (fun c => c im) (part_costs b)) (Some (fates (site_measure b)))
                                (rebuilding b) (demolishing b)) im).

(** The two integrands of [calc_AnnualCost] (structure.cpp 202-207, 216-222). *)
Definition building_integrand (N : normal) (D : derivs) (b : building) (im : er) : er :=
  er_mul (get_mean_X (building_cost N b im)) (er_abs (im_slope D (site_measure b) im)).
(** structure.cpp 216-222. *)
Definition building_sq_integrand (N : normal) (D : derivs) (b : building) (im : er) : er :=
  let cost := get_mean_X (building_cost N b im) in
  let sd := get_sigma_X (building_cost N b im) in
  er_mul (er_add (er_mul cost cost) (er_mul sd sd)) (er_abs (im_slope D (site_measure b) im)).

(** [calc_AnnualCost] (structure.cpp 187-231). *)
Definition building_annual (N : normal) (D : derivs) (s : settings ER) (b : building) : Maq.outcome lnd :=
  match part_costs b with
  | [] => Done (annual_cost None)
  | _ =>
      obind (integrate s (building_integrand N D b)) (fun r1 =>
      obind (integrate s (building_sq_integrand N D b)) (fun r2 =>
      Done (annual_cost (Some (r1, r2)))))
  end.
