(** * C97: what the library writes of its objects can be read *)
From Coq Require Import ZArith Bool Ascii String List Reals Floats.SpecFloat.
From Flocq Require Import Core BinarySingleNaN.
From Verif Require Import Num Damage Spread Double_spec Report_spec Shown Shown_spec Shown_proofs Shown_proofs2 Shown_proofs3.
Import ListNotations.
Local Open Scope list_scope.

(** The text of a curve names its kind and gives the parameters in order, to five digits, with
    signs, infinities, and what is not a number. *)
Theorem C97_curve :
  forall c : curve, curve_doubles c -> curve_read (curve_text c) c.
Proof. exact curve_shown. Qed.
Print Assumptions C97_curve.

Definition C97_law : curve := Hyperbolic (f64_ofZ 1221) (ndiv F64 (f64_ofZ (-298)) (f64_ofZ 10)) (f64_ofZ 1000000).

Example C97_curve_ok :
  curve_doubles C97_law /\ curve_text C97_law = txt "Hyperbolic(1221, -29.8, 1e+06)".
Proof. vm_compute. auto. Qed.

(** The text of a demand parameter gives the curve of its measure and those of its (first)
    response. *)
Theorem C97_demand :
  forall d : demand, demand_doubles d -> demand_read (demand_text d) d.
Proof. exact demand_shown. Qed.
Print Assumptions C97_demand.

Definition C97_edp : demand :=
  Demand (Measure C97_law None None)
         (Response (Power (ndiv F64 (f64_ofZ 1) (f64_ofZ 10)) (ndiv F64 (f64_ofZ 3) (f64_ofZ 2))) MEAN_X (Linear []) SIGMA_LN_X) None.

Example C97_demand_ok :
  demand_doubles C97_edp /\
  demand_text C97_edp = txt "EDP((IM(Hyperbolic(1221, -29.8, 1e+06)), LogNormal(Power(0.1, 1.5), LinearInterpolatedFn))".
Proof. vm_compute. repeat split. Qed.

(** Damage states and losses are listed in order, each with its mean and dispersion to five
    digits. *)
Theorem C97_states :
  forall exp : F64 -> F64, (forall x, double (exp x)) ->
  forall l : list (F64 * F64), Forall (fun d => double (snd d)) l ->
    (exists t, dists_read (mean_of exp) t l /\ fragility_text exp l = txt "FragilityFn: " ++ t ++ [ascii_of_nat 10]) /\
    loss_read (mean_of exp) (loss_text exp (Simple l)) (Simple l).
Proof. exact (fun e E l L => conj (fragility_shown e E l L) (loss_shown e E (Simple l) L)). Qed.
Print Assumptions C97_states.

Definition C97_exp (x : F64) : F64 := if nltb F64 x (f64_ofZ 1) then f64_ofZ 1 else f64_ofZ 2.
Definition C97_half : F64 := ndiv F64 (f64_ofZ 1) (f64_ofZ 2).
Definition C97_dists : list (F64 * F64) := [(f64_ofZ 0, C97_half); (f64_ofZ 1, f64_ofZ 2); (S754_infinity true, f64_ofZ 0)].

Example C97_states_ok :
  (forall x, double (C97_exp x)) /\ Forall (fun d => double (snd d)) C97_dists /\
  fragility_text C97_exp C97_dists =
    txt "FragilityFn: (lognormal mean=1, sd_ln=0.5); (lognormal mean=2, sd_ln=2); (lognormal mean=0, sd_ln=0); " ++ [ascii_of_nat 10].
Proof.
  split; [intros x; unfold C97_exp; destruct (nltb F64 x (f64_ofZ 1)); reflexivity |].
  split; [repeat (constructor; [reflexivity |]); constructor | vm_compute; reflexivity].
Qed.

(** The text of a group with loss functions for costs and delays gives its name, number of
    components and parts. *)
Theorem C97_group :
  forall exp : F64 -> F64, (forall x, double (exp x)) ->
  forall (g : group) (c d : loss),
    gr_cost g = Some c -> gr_delay g = Some d -> demand_doubles (gr_demand g) ->
    Forall (fun d => double (snd d)) (gr_states g) -> loss_doubles c -> loss_doubles d ->
    exists t, group_text exp g = Returns t /\ group_read (mean_of exp) t g c d.
Proof. exact group_shown. Qed.
Print Assumptions C97_group.

Definition C97_walls : group := Group "walls: 3, EDP((" (-12) C97_edp C97_dists (Some (Simple C97_dists)) (Some (BiLevel [])).

Example C97_group_ok :
  demand_doubles (gr_demand C97_walls) /\ Forall (fun d => double (snd d)) (gr_states C97_walls) /\
  loss_doubles (Simple C97_dists) /\
  match group_text C97_exp C97_walls with
  | Returns t => firstn 37 t = txt "CompGroup walls: 3, EDP((: -12, EDP((" /\ skipn (List.length t - 10) t = txt "LossFn: " ++ [ascii_of_nat 10; ascii_of_nat 10]
  | _ => False
  end.
Proof.
  split; [vm_compute; repeat split |]. split; [repeat (constructor; [reflexivity |]); constructor |].
  split; [repeat (constructor; [reflexivity |]); constructor | vm_compute; auto].
Qed.

(** Full statement: every group can be written. False: without a loss function for costs or
    for delays an empty pointer is followed. *)
Theorem C97_written_refuted :
  exists g : group, gr_cost g <> None /\ forall exp, group_text exp g = Undefined.
Proof. exact refute_written. Qed.
Print Assumptions C97_written_refuted.

(** It is written exactly if it has both. *)
Theorem C97_written_partial :
  forall (exp : F64 -> F64) (g : group),
    (exists t, group_text exp g = Returns t) <-> gr_cost g <> None /\ gr_delay g <> None.
Proof. exact group_written. Qed.
Print Assumptions C97_written_partial.

Example C97_written_ok : gr_cost C97_walls <> None /\ gr_delay C97_walls <> None.
Proof. split; discriminate. Qed.

(** Full statement: objects with the same text are alike. False of tables, of which the text
    says nothing; of what the curves of a response stand for; of the second response of a
    compound demand parameter; of collapse and demolition; and of losses with two levels. *)
Theorem C97_same_refuted :
  (exists p p' x y y', curve_text (Linear p) = curve_text (Linear p') /\ In (x, y) p /\ In (x, y') p' /\ ~ alike y y') /\
  (exists r r', response_text r = response_text r' /\ re_centre r <> re_centre r' /\ re_width r <> re_width r') /\
  (exists d d', demand_text d = demand_text d' /\ de_second d <> de_second d' /\
     me_collapse (de_measure d) <> me_collapse (de_measure d') /\ me_demolition (de_measure d) <> me_demolition (de_measure d')) /\
  (exists l l', (forall exp, loss_text exp (BiLevel l) = loss_text exp (BiLevel l')) /\ List.length l <> List.length l').
Proof. exact refute_same. Qed.
Print Assumptions C97_same_refuted.

(** But nothing else can be mistaken: curves with the same text are of one kind and agree in
    their parameters to five digits, *)
Theorem C97_same_curve_partial :
  forall c c' : curve, curve_doubles c -> curve_doubles c' -> curve_text c = curve_text c' -> like c c'.
Proof. exact curves_like. Qed.
Print Assumptions C97_same_curve_partial.

Example C97_same_curve_ok :
  let x := S754_finite false 9007199254740991 (-53) in
  let c := Power (f64_ofZ 1) C97_half in let c' := Power x C97_half in
  curve_doubles c /\ curve_doubles c' /\ c <> c' /\ curve_text c = curve_text c'.
Proof. vm_compute. repeat split; discriminate. Qed.

(** and groups with the same text agree in name and number of components, and have demand
    parameters, damage states, costs and delays alike, whatever the names. *)
Theorem C97_same_group_partial :
  forall exp : F64 -> F64, (forall x, double (exp x)) ->
  forall (g g' : group) (c d c' d' : loss) (t : list ascii),
    gr_cost g = Some c -> gr_delay g = Some d -> gr_cost g' = Some c' -> gr_delay g' = Some d' ->
    demand_doubles (gr_demand g) -> demand_doubles (gr_demand g') ->
    Forall (fun d => double (snd d)) (gr_states g) -> Forall (fun d => double (snd d)) (gr_states g') ->
    loss_doubles c -> loss_doubles d -> loss_doubles c' -> loss_doubles d' ->
    group_text exp g = Returns t -> group_text exp g' = Returns t ->
    gr_name g = gr_name g' /\ gr_count g = gr_count g' /\ demands_like (gr_demand g) (gr_demand g') /\
    dists_like (mean_of exp) (gr_states g) (gr_states g') /\
    losses_like (mean_of exp) c c' /\ losses_like (mean_of exp) d d'.
Proof. exact groups_one. Qed.
Print Assumptions C97_same_group_partial.

Example C97_same_group_ok :
  let g := C97_walls in
  let g' := Group (gr_name g) (gr_count g) (Demand (Measure C97_law (Some (f64_ofZ 0, f64_ofZ 1)) None) (de_first C97_edp) None)
                  (gr_states g) (gr_cost g) (Some (BiLevel [Two 1 2 C97_half C97_half C97_half])) in
  g <> g' /\ demand_doubles (gr_demand g') /\ exists t, group_text C97_exp g = Returns t /\ group_text C97_exp g' = Returns t.
Proof. split; [discriminate |]. split; [vm_compute; repeat split |]. eexists. split; reflexivity. Qed.

(** Full statement: brackets in texts match. False of every demand parameter: one is left open. *)
Theorem C97_brackets_fails :
  forall d : demand, demand_doubles d -> times "(" (demand_text d) = S (times ")" (demand_text d)).
Proof. exact demand_unbalanced. Qed.
Print Assumptions C97_brackets_fails.

(** True of curves, responses and distributions. *)
Theorem C97_brackets_partial :
  (forall c, curve_doubles c -> times "(" (curve_text c) = times ")" (curve_text c)) /\
  (forall r, response_doubles r -> times "(" (response_text r) = times ")" (response_text r)) /\
  (forall exp : F64 -> F64, (forall x, double (exp x)) ->
   forall d, double (snd d) -> times "(" (dist_text exp d) = times ")" (dist_text exp d)).
Proof. exact (conj curve_balanced (conj response_balanced dist_balanced)). Qed.
Print Assumptions C97_brackets_partial.

Example C97_brackets_ok :
  times "(" (demand_text C97_edp) = 6%nat /\ times ")" (demand_text C97_edp) = 5%nat /\
  times "(" (response_text (de_first C97_edp)) = 2%nat.
Proof. vm_compute. auto. Qed.
