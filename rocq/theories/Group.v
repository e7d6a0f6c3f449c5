(** * Demand parameters, component groups and the costs of structures

    Source: /repo/src/relationships.cpp, comp_group.cpp, structure.cpp and
    [Structure::ComponentsByEDP] in pyslatcore.cpp.  Exact arithmetic as in
    [Lognormal.v]; integration is that of [Maq.v].  Caches, callbacks and diagnostic
    context are left out (see [Cache.v], [Graph.v], [Context.v]).  The numerical
    derivatives of the GSL are left open here and modelled in [Deriv.v]. *)
From Coq Require Import Reals List Bool ZArith.
From Verif Require Import Num ER ERmath Maq Lognormal Damage.
Import ListNotations.
Local Open Scope R_scope.

(** ** Demand parameters *)

(** A response function: at each intensity the distribution
    [LogNormalFn::distribution] (functions.cpp 399-403, see [Functions.v]) returns. *)
Definition response := er -> lnd.

(** The seven queries of a response (functions.cpp 364-397), which [EDP] passes on
    (relationships.cpp 296-304, 317, 333, 349, 365, 381). *)
Definition resp_p_exceedence (N : normal) (r : response) (im y : er) : er := p_at_least N (r im) y.
(** functions.cpp 369-372. *)
Definition resp_x_at_exceedence (N : normal) (r : response) (im p : er) : er := x_at_p N (r im) p.
(** functions.cpp 374-377. *)
Definition resp_mean (r : response) (im : er) : er := get_mean_X (r im).
(** functions.cpp 379-382. *)
Definition resp_mean_ln (r : response) (im : er) : er := get_mu_lnX (r im).
(** functions.cpp 384-387. *)
Definition resp_median (r : response) (im : er) : er := get_median_X (r im).
(** functions.cpp 389-392. *)
Definition resp_sd_ln (r : response) (im : er) : er := get_sigma_lnX (r im).
(** functions.cpp 394-397. *)
Definition resp_sd (r : response) (im : er) : er := get_sigma_X (r im).

(** [CompoundEDP::DIRECTION] (relationships.h 296). *)
Inductive direction := FIRST | SECOND.

(** [CompoundEDP::WhichToUse] (relationships.cpp 411-417). *)
Definition which_to_use (r1 r2 : response) (im : er) : direction :=
  if er_ltb (resp_mean r2 im) (resp_mean r1 im) then FIRST else SECOND.

(** [CompoundEDP::Mean] (relationships.cpp 419-431). *)
Definition compound_mean (r1 r2 : response) (im : er) : er :=
  match which_to_use r1 r2 im with FIRST => resp_mean r1 im | SECOND => resp_mean r2 im end.
(** [CompoundEDP::MeanLn] (relationships.cpp 433-445). *)
Definition compound_mean_ln (r1 r2 : response) (im : er) : er :=
  match which_to_use r1 r2 im with FIRST => resp_mean_ln r1 im | SECOND => resp_mean_ln r2 im end.
(** [CompoundEDP::Median] (relationships.cpp 447-459). *)
Definition compound_median (r1 r2 : response) (im : er) : er :=
  match which_to_use r1 r2 im with FIRST => resp_median r1 im | SECOND => resp_median r2 im end.
(** [CompoundEDP::SD_ln] (relationships.cpp 461-473). *)
Definition compound_sd_ln (r1 r2 : response) (im : er) : er :=
  match which_to_use r1 r2 im with FIRST => resp_sd_ln r1 im | SECOND => resp_sd_ln r2 im end.
(** [CompoundEDP::SD] (relationships.cpp 475-487). *)
Definition compound_sd (r1 r2 : response) (im : er) : er :=
  match which_to_use r1 r2 im with FIRST => resp_sd r1 im | SECOND => resp_sd r2 im end.
(** [CompoundEDP::P_exceedence] (relationships.cpp 489-501). *)
Definition compound_p_exceedence (N : normal) (r1 r2 : response) (im y : er) : er :=
  match which_to_use r1 r2 im with
  | FIRST => resp_p_exceedence N r1 im y
  | SECOND => resp_p_exceedence N r2 im y
  end.
(** [CompoundEDP::X_at_exceedence] (relationships.cpp 503-515). *)
Definition compound_x_at_exceedence (N : normal) (r1 r2 : response) (im p : er) : er :=
  match which_to_use r1 r2 im with
  | FIRST => resp_x_at_exceedence N r1 im p
  | SECOND => resp_x_at_exceedence N r2 im p
  end.

(** ** Integration *)

(** [gsl_deriv_central], [_forward] and [_backward] with step 1E-8 (called at
    comp_group.cpp 301-303 and elsewhere): arbitrary here, [Deriv.v] has them. *)
Record derivs := Derivs {
  central : (er -> er) -> er -> er; forward : (er -> er) -> er -> er; backward : (er -> er) -> er -> er }.

(** The derivative as the code takes it (comp_group.cpp 297-303, 345-347, 454-456,
    503-505, 585-587; relationships.cpp 142-144). *)
Definition slope (D : derivs) (f : er -> er) (x : er) : er :=
  let d := central D f x in
  let d := if er_isnan d then forward D f x else d in
  if er_isnan d then backward D f x else d.

(** The integral, or a value that stands for failure (comp_group.cpp 313-317 and
    elsewhere). *)
Definition integral_or (fallback : er) (r : maq_result ER) : er :=
  if mr_successful r then mr_integral r else fallback.

(** [Integration::MAQ] of an integrand (called at comp_group.cpp 291 and
    elsewhere), with fuel that suffices (see [C18_terminates]). *)
Definition integrate (s : settings ER) (f : er -> er) : Maq.outcome (maq_result ER) :=
  MAQ ER f (fuel_for ER s) s.

(** ** Component groups *)

(** What a component group is made of (comp_group.h 254-262): the exceedence
    probability of its demand parameter, the derivative of the hazard curve, the
    fragility, the loss functions, the count and the two factors. *)
Record group := Group {
  exceedence : er -> er -> er;
  hazard_slope : er -> er;
  fragility : list lnd;
  cost_fn : option lossfn;
  delay_fn : option lossfn;
  count : Z;
  cost_factor : er;
  delay_factor : er }.

(** What [loss_given] returns; simplified: where it throws (never with a loss
    function of as many states as the fragility, see [C39_accepted]), the default
    distribution (comp_group.cpp 52-69). *)
Definition or_nodist (o : Damage.outcome lnd) : lnd := match o with Returns d => d | _ => nodist end.

(** [cost_EDP_dist] (comp_group.cpp 52-60). *)
Definition cost_edp (N : normal) (g : group) (edp : er) : lnd :=
  or_nodist (loss_given N (fragility g) (cost_fn g) (count g) (cost_factor g) edp).
(** [delay_EDP_dist] (comp_group.cpp 61-69). *)
Definition delay_edp (N : normal) (g : group) (edp : er) : lnd :=
  or_nodist (loss_given N (fragility g) (delay_fn g) (count g) (delay_factor g) edp).

(** The integrand of [E_cost_IM_calc] (comp_group.cpp 292-312). *)
Definition cost_integrand (N : normal) (D : derivs) (g : group) (im edp : er) : er :=
  if er_eqb edp (Fin 0) then Fin 0
  else
    let lambda x := if er_eqb im (Fin 0) || er_ltb x (Fin 0) then Fin 0 else exceedence g im x in
    er_mul (get_mean_X (cost_edp N g edp)) (er_abs (slope D lambda edp)).

(** [E_cost_IM_calc] (comp_group.cpp 282-324). *)
Definition e_cost_im (N : normal) (D : derivs) (s : settings ER) (g : group) (im : er) : Maq.outcome er :=
  if (0 <? count g)%Z then
    obind (integrate s (cost_integrand N D g im)) (fun r => Done (integral_or (Fin 0) r))
  else Done (Fin 0).

(** The integrand of [SD_ln_cost_IM_calc] (comp_group.cpp 334-366). *)
Definition cost_sq_integrand (N : normal) (D : derivs) (g : group) (im edp : er) : er :=
  if er_eqb edp (Fin 0) then Fin 0
  else
    let d := slope D (exceedence g im) edp in
    let e := get_mean_X (cost_edp N g edp) in
    let sd := get_sigma_X (cost_edp N g edp) in
    er_mul (er_add (er_mul e e) (er_mul sd sd)) (er_abs d).

(** The spread from the integral of the square and the mean (comp_group.cpp
    368-377, 521-530). *)
Definition sd_ln_from (integral mean_x : er) : er :=
  let sigma_x := er_sqrt (er_sub integral (er_mul mean_x mean_x)) in
  let sigma_x := if er_isnan sigma_x then Fin 0 else sigma_x in
  if er_eqb mean_x (Fin 0) then Fin 0
  else er_sqrt (er_log (er_add (Fin 1) (er_div (er_mul sigma_x sigma_x) (er_mul mean_x mean_x)))).

(** [SD_ln_cost_IM_calc] (comp_group.cpp 326-384). *)
Definition sd_ln_cost_im (N : normal) (D : derivs) (s : settings ER) (g : group) (im : er) : Maq.outcome er :=
  if (0 <? count g)%Z then
    obind (integrate s (cost_sq_integrand N D g im)) (fun r =>
      if mr_successful r
      then obind (e_cost_im N D s g im) (fun mean_x => Done (sd_ln_from (mr_integral r) mean_x))
      else Done (Fin 0))
  else Done (Fin 0).

(** [CostDist_IM] (comp_group.cpp 264-280); its two sections write different
    variables, so their order does not matter. *)
Definition cost_dist_im (N : normal) (D : derivs) (s : settings ER) (g : group) (im : er) : Maq.outcome lnd :=
  obind (e_cost_im N D s g im) (fun e =>
  obind (sd_ln_cost_im N D s g im) (fun sd_ln => Done (from_mean_sdln e sd_ln))).

(** A nested integration as part of an integrand (comp_group.cpp 397, 421, 423,
    632); the last case does not arise (see [C18_terminates]). *)
Definition value_or_nan (o : Maq.outcome er) : er := match o with Done v => v | _ => NaN end.

(** [E_annual_cost_calc] (comp_group.cpp 386-408). *)
Definition e_annual_cost (N : normal) (D : derivs) (s : settings ER) (g : group) : Maq.outcome er :=
  if (0 <? count g)%Z then
    obind (integrate s (fun im => er_mul (value_or_nan (e_cost_im N D s g im)) (er_abs (hazard_slope g im))))
          (fun r => Done (integral_or (Fin 0) r))
  else Done (Fin 0).

(** [lambda_cost_calc] (comp_group.cpp 410-435). *)
Definition lambda_cost (N : normal) (D : derivs) (s : settings ER) (g : group) (cost : er) : Maq.outcome er :=
  if (0 <? count g)%Z then
    obind (integrate s (fun im =>
             let d := from_mean_sdln (value_or_nan (e_cost_im N D s g im)) (value_or_nan (sd_ln_cost_im N D s g im)) in
             er_mul (p_at_least N d cost) (er_abs (hazard_slope g im))))
          (fun r => Done (integral_or (Fin 0) r))
  else Done (Fin 0).

(** The integrand of [E_delay_IM_calc] (comp_group.cpp 446-468). *)
Definition delay_integrand (N : normal) (D : derivs) (g : group) (im edp : er) : er :=
  if er_eqb edp (Fin 0) then Fin 0
  else er_mul (get_mean_X (delay_edp N g edp)) (er_abs (slope D (exceedence g im) edp)).

(** [E_delay_IM_calc] (comp_group.cpp 437-477). *)
Definition e_delay_im (N : normal) (D : derivs) (s : settings ER) (g : group) (im : er) : Maq.outcome er :=
  if (0 <? count g)%Z then
    obind (integrate s (delay_integrand N D g im)) (fun r => Done (integral_or (Fin 0) r))
  else Done (Fin 0).

(** The integrand of [SD_ln_delay_IM_calc] (comp_group.cpp 487-519): the mean is
    divided by the count, the standard deviation is not. *)
Definition delay_sq_integrand (N : normal) (D : derivs) (g : group) (im edp : er) : er :=
  if er_eqb edp (Fin 0) then Fin 0
  else
    let d := slope D (exceedence g im) edp in
    let e := er_div (get_mean_X (delay_edp N g edp)) (Fin (IZR (count g))) in
    let sd := get_sigma_X (delay_edp N g edp) in
    er_mul (er_add (er_mul e e) (er_mul sd sd)) (er_abs d).

(** [SD_ln_delay_IM_calc] (comp_group.cpp 479-537). *)
Definition sd_ln_delay_im (N : normal) (D : derivs) (s : settings ER) (g : group) (im : er) : Maq.outcome er :=
  if (0 <? count g)%Z then
    obind (integrate s (delay_sq_integrand N D g im)) (fun r =>
      if mr_successful r
      then obind (e_delay_im N D s g im) (fun mean =>
             Done (sd_ln_from (mr_integral r) (er_div mean (Fin (IZR (count g))))))
      else Done (Fin 0))
  else Done (Fin 0).

(** The integrand of [pDS_IM_calc] (comp_group.cpp 577-598). *)
Definition state_integrand (N : normal) (D : derivs) (g : group) (dist : lnd) (im edp : er) : er :=
  if er_eqb edp (Fin 0) then Fin 0
  else er_mul (p_at_most N dist edp) (er_abs (slope D (exceedence g im) edp)).

(** [pDS_IM_calc] (comp_group.cpp 566-605) for one state. *)
Definition p_state_im (N : normal) (D : derivs) (s : settings ER) (g : group) (dist : lnd) (im : er) : Maq.outcome er :=
  obind (integrate s (state_integrand N D g dist im)) (fun r => Done (integral_or (Fin 0) r)).

(** The loop of [calc_Rate] (comp_group.cpp 622-642), one state. *)
Definition state_rate (N : normal) (D : derivs) (s : settings ER) (g : group) (dist : lnd) : Maq.outcome er :=
  obind (integrate s (fun im =>
           if er_eqb im (Fin 0) then Fin 0
           else er_mul (value_or_nan (p_state_im N D s g dist im)) (er_abs (hazard_slope g im))))
        (fun r => Done (integral_or NaN r)).

(** ** Structures *)

(** The costs of a structure at one intensity (structure.h 55-61): the cost
    distributions of its groups there, the curves of its intensity measure, which it
    has once a group has been added, and the two other costs. *)
Record site := Site {
  group_costs : list lnd;
  fate_curves : option curves;
  rebuild_cost : lnd;
  demolition_cost : lnd }.

(** [CostNC] (structure.cpp 83-92); the iterations of the parallel loop write
    different elements. *)
Definition cost_nc (st : site) : lnd := add_dists (group_costs st).

(** [Cost] (structure.cpp 94-112); the two lists have the same length, so
    [AddWeightedDistributions] does not throw. *)
Definition structure_cost (N : normal) (st : site) (im : er) (consider_collapse : bool) : Damage.outcome lnd :=
  if consider_collapse then
    match fate_curves st with
    | Some c =>
        let p := p_collapse N c im in
        match add_weighted [cost_nc st; rebuild_cost st] [er_sub (Fin 1) p; p] with
        | Some d => Returns d
        | None => Throws
        end
    | None => Returns (from_mean_sdln NaN NaN)
    end
  else Returns (cost_nc st).

(** A mean or second moment accumulated over the three fates (structure.cpp
    120-128, 137-143), for any arithmetic. *)
Definition over_fates (A : Num) (v_repair v_demolition v_collapse p_rep p_dem p_col : A) : A :=
  let e := nmul A v_repair p_rep in
  let e := if nltb A (nofZ A 0) p_dem then nadd A e (nmul A v_demolition p_dem) else e in
  if nltb A (nofZ A 0) p_col then nadd A e (nmul A v_collapse p_col) else e.

(** A second moment (structure.cpp 130-135). *)
Definition second_moment (A : Num) (mean sd : A) : A := nadd A (nmul A mean mean) (nmul A sd sd).

(** Mean and variance in [TotalCost] (structure.cpp 120-145) from the means and
    standard deviations of the three costs, for any arithmetic. *)
Definition total_mean_var (A : Num) (mr sr md sd mc sc p_rep p_dem p_col : A) : A * A :=
  let e := over_fates A mr md mc p_rep p_dem p_col in
  let e2 := over_fates A (second_moment A mr sr) (second_moment A md sd) (second_moment A mc sc) p_rep p_dem p_col in
  (e, nsub A e2 (nmul A e e)).

(** [TotalCost] (structure.cpp 114-148): without an intensity measure a null
    pointer is dereferenced. *)
Definition total_cost (N : normal) (st : site) (im : er) : Damage.outcome lnd :=
  match fate_curves st with
  | None => Undefined
  | Some c =>
      let r := cost_nc st in
      let d := demolition_cost st in
      let b := rebuild_cost st in
      let (e, var) := total_mean_var ER (get_mean_X r) (get_sigma_X r) (get_mean_X d) (get_sigma_X d)
                        (get_mean_X b) (get_sigma_X b) (p_repair N c im) (p_demolition N c im) (p_collapse N c im) in
      Returns (from_mean_sd e (er_sqrt var))
  end.

(** [CostsByFate] (structure.cpp 176-185): repair, demolition, collapse. *)
Definition costs_by_fate (N : normal) (st : site) (im : er) : lnd * lnd * lnd :=
  match fate_curves st with
  | None => (nodist, nodist, nodist)
  | Some c => (scale_prob (cost_nc st) (p_repair N c im),
               scale_prob (demolition_cost st) (p_demolition N c im),
               scale_prob (rebuild_cost st) (p_collapse N c im))
  end.

(** [DeaggregatedCost] (structure.cpp 165-174). *)
Definition deaggregated_cost (N : normal) (st : site) (im : er) : Damage.outcome (lnd * lnd) :=
  match fate_curves st with
  | None => Undefined
  | Some c => let p := p_collapse N c im in
              Returns (scale_prob (cost_nc st) (er_sub (Fin 1) p), scale_prob (rebuild_cost st) p)
  end.

(** [calc_AnnualCost] (structure.cpp 187-231) from the results of its two
    integrations; [None]: the structure has no groups. *)
Definition annual_cost (rs : option (maq_result ER * maq_result ER)) : lnd :=
  match rs with
  | None => from_mean_sd NaN NaN
  | Some (r1, r2) =>
      let mu := integral_or NaN r1 in
      let beta := integral_or NaN r2 in
      from_mean_sd mu (er_sqrt (er_abs (er_sub beta (er_mul mu mu))))
  end.

(** [E_cost] (structure.cpp 150-153); the year is an [int]. *)
Definition e_cost (annual : lnd) (year : Z) (discount_rate : er) : er :=
  er_mul (er_div (er_sub (Fin 1) (er_exp (er_mul (er_opp discount_rate) (Fin (IZR year))))) discount_rate)
         (get_mean_X annual).

(** [E_cost] for several years (structure.cpp 155-163): the iterations in the
    order [order]. *)
Fixpoint e_cost_loop (annual : lnd) (years : list Z) (discount_rate : er) (order : list nat) (result : list er) : list er :=
  match order with
  | [] => result
  | i :: r => e_cost_loop annual years discount_rate r
                (set_nth i (e_cost annual (nth i years 0%Z) discount_rate) result)
  end.
(** structure.cpp 155-163. *)
Definition e_cost_all (annual : lnd) (years : list Z) (discount_rate : er) (order : list nat) : list er :=
  e_cost_loop annual years discount_rate order (repeat (Fin 0) (length years)).

(** ** Grouping *)

(** The keys of a [std::map] or [std::set]: inserted in ascending order of the
    pointer, once (pyslatcore.cpp 821-827, 846-852). *)
Fixpoint insert_key (k : nat) (ks : list nat) : list nat :=
  match ks with
  | [] => [k]
  | j :: r => if Nat.ltb k j then k :: ks else if Nat.eqb k j then ks else j :: insert_key k r
  end.

(** [mapping[key].push_back(component)] (pyslatcore.cpp 825, 850); the map is kept
    as an association list in the order of its keys. *)
Fixpoint push_back {A : Type} (k : nat) (c : A) (m : list (nat * list A)) : list (nat * list A) :=
  match m with
  | [] => [(k, [c])]
  | (j, l) :: r => if Nat.ltb k j then (k, [c]) :: m
                   else if Nat.eqb k j then (j, l ++ [c]) :: r else (j, l) :: push_back k c r
  end.

(** [mapping[key]] (pyslatcore.cpp 834, 859). *)
Fixpoint look_up {A : Type} (k : nat) (m : list (nat * list A)) : list A :=
  match m with
  | [] => []
  | (j, l) :: r => if Nat.eqb k j then l else look_up k r
  end.

(** The loop over the components (pyslatcore.cpp 824-827, 849-852): the map and
    the set. *)
Fixpoint fill {A : Type} (key : A -> nat) (cs : list A) (m : list (nat * list A)) (ks : list nat) :
    list (nat * list A) * list nat :=
  match cs with
  | [] => (m, ks)
  | c :: r => fill key r (push_back (key c) c m) (insert_key (key c) ks)
  end.

(** [ComponentsByEDP], [ComponentsByFragility] (pyslatcore.cpp 817-840, 842-865),
    where [key] is the address of the demand parameter or fragility. *)
Definition components_by {A : Type} (key : A -> nat) (cs : list A) : list (list A) :=
  let (m, ks) := fill key cs [] [] in map (fun k => look_up k m) ks.
