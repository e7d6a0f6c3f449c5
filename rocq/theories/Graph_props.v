(** Properties C12-C16, C44, C45, C56-C58: the object graph.

    Throughout, [C] is whatever the calculations compute, [p] the integration
    settings at the start and [h] the calls made; [right_after C p h q] says
    that the answer to [q] after [h] is the figure recomputed from the objects as
    they are, [stale_after C p h q] that it is not although every call in [h] was
    in order. *)

Require Import List Arith.
From Verif Require Import Replaceable Graph Graph_spec Graph_proofs7 Graph_claims_proofs.
Import ListNotations.

(** ** C12: demand rates *)

(** Full statement: [right_after C p h (QLambda e x)] for every [h] and every
    demand parameter [e].  It is false: *)
Theorem C12_displaced_refuted : exists h e x, stale_after adding 0 h (QLambda e x).
Proof. exact refute_displaced. Qed.
Print Assumptions C12_displaced_refuted.

Theorem C12_second_refuted : exists h e x, stale_after adding 0 h (QLambda e x) /\
  node_of (gafter adding 0 h) e = Some NCompound.
Proof. exact refute_second. Qed.
Print Assumptions C12_second_refuted.

(** It holds after every careful history; missing: histories that register
    with an object that replaced another, replace by an object in use, replace a
    compound's second function, or change the settings after a query. *)
Theorem C12_partial : forall X V P (C : calcs X V P) p h e x,
  careful C p h -> settled h = true ->
  node_of (gafter C p h) e = Some NEdp \/ node_of (gafter C p h) e = Some NCompound ->
  right_after C p h (QLambda e x).
Proof. exact @lambda_right. Qed.
Print Assumptions C12_partial.

(** Everything under a compound demand parameter is replaced in turn, with
    queries in between. *)
Definition C12_history : list (@gop nat nat) :=
  [NewDet 1; NewIM 0; NewDet 2; NewDet 3; NewProb 0 2 3; NewProb 4 2 3; NewCompound 1 4 5;
   Query (QLambda 6 1); NewDet 8; Replace 0 7; Query (QLambda 6 1); NewDet 9; Replace 2 8;
   Query (QLambda 6 1); NewDet 7; NewIM 9; Replace 1 10; Query (QLambda 6 1); SetCollapse 10 (Some 5);
   NewDet 1; NewProb 6 11 3; Replace 4 12; Query (QLambda 6 1); Destroy 4].
Example C12_case :
  (careful adding 0 C12_history /\ settled C12_history = true /\
   node_of (gafter adding 0 C12_history) 6 = Some NCompound) /\
  snd (gstep adding (gafter adding 0 C12_history) (Query (QLambda 6 1))) = Value (Some 40) /\
  snd (gstep adding (gafter adding 0 (firstn 7 C12_history)) (Query (QLambda 6 1))) = Value (Some 16).
Proof. split; [split; [apply carefulb_ok; vm_compute; reflexivity|split; reflexivity]|split; vm_compute; reflexivity]. Qed.

(** ** C13: component groups *)

Theorem C13_refuted : exists h g q, stale_after adding 0 h (QGrp g q).
Proof. exact refute_group. Qed.
Print Assumptions C13_refuted.

(** Every cached figure of a group (mean and deviation of cost and delay,
    annual cost, cost rate, cost and delay distributions, damage state rates)
    after every careful history. *)
Theorem C13_partial : forall X V P (C : calcs X V P) p h g a q,
  careful C p h -> settled h = true -> node_of (gafter C p h) g = Some (NGrp a) ->
  right_after C p h (QGrp g q).
Proof. exact @group_right. Qed.
Print Assumptions C13_partial.

(** Each of the four inputs of a group is replaced after a query. *)
Definition C13_history : list (@gop nat nat) :=
  [NewDet 1; NewIM 0; NewDet 2; NewDet 3; NewProb 0 2 3; NewEdp 1 4; NewFrag 1; NewLoss 1; NewLoss 2;
   NewGrp 1 5 6 (Some 7) (Some 8); Query (QGrp 9 (GSDCost 1)); Query (QGrp 9 (GSDDelay 1));
   NewFrag 5; Replace 6 10; Query (QGrp 9 (GSDCost 1)); NewLoss 6; Replace 7 11; Query (QGrp 9 (GSDCost 1));
   NewLoss 7; Replace 8 12; NewEdp 1 4; Replace 5 13; SetDemolition 1 (Some 4)].
Example C13_case :
  (careful adding 0 C13_history /\ settled C13_history = true /\
   node_of (gafter adding 0 C13_history) 9 = Some (NGrp 1)) /\
  snd (gstep adding (gafter adding 0 C13_history) (Query (QGrp 9 (GSDCost 1)))) = Value (Some 52) /\
  snd (gstep adding (gafter adding 0 C13_history) (Query (QGrp 9 (GSDDelay 1)))) = Value (Some 54) /\
  snd (gstep adding (gafter adding 0 (firstn 10 C13_history)) (Query (QGrp 9 (GSDCost 1)))) = Value (Some 24).
Proof.
  split; [split; [apply carefulb_ok; vm_compute; reflexivity|split; reflexivity]|].
  repeat split; vm_compute; reflexivity.
Qed.

(** ** C14: structures *)

(** The annual cost does not follow the inputs of the groups, removals, or the
    rebuild and demolition costs, even in careful histories. *)
Theorem C14_input_refuted : exists h f f' t, stale_after adding 0 (h ++ [Replace f f']) (QAnnual t) /\
  careful adding 0 (h ++ [Replace f f']).
Proof. exact refute_input. Qed.
Print Assumptions C14_input_refuted.

Theorem C14_removal_refuted : exists h t g, stale_after adding 0 (h ++ [RemoveGrp t g]) (QAnnual t) /\
  careful adding 0 (h ++ [RemoveGrp t g]).
Proof. exact refute_removal. Qed.
Print Assumptions C14_removal_refuted.

Theorem C14_rebuild_refuted : exists h t c, stale_after adding 0 (h ++ [SetRebuild t c]) (QAnnual t) /\
  careful adding 0 (h ++ [SetRebuild t c]).
Proof. exact refute_rebuild. Qed.
Print Assumptions C14_rebuild_refuted.

Theorem C14_demolition_refuted : exists h t c, stale_after adding 0 (h ++ [SetDemolitionCost t c]) (QAnnual t) /\
  careful adding 0 (h ++ [SetDemolitionCost t c]).
Proof. exact refute_demolition_cost. Qed.
Print Assumptions C14_demolition_refuted.

(** It does follow additions, replacement of whole groups, of the measure and
    of the measure's hazard function, and changes of the measure; what is missing
    is what [quiet_annual] excludes, since the last addition or clearing. *)
Theorem C14_partial : forall X V P (C : calcs X V P) p h t r d,
  careful C p h -> settled h = true ->
  quiet_since C (clears_annual C t) (quiet_annual t) p h ->
  node_of (gafter C p h) t = Some (NStr r d) -> right_after C p h (QAnnual t).
Proof. exact @annual_right. Qed.
Print Assumptions C14_partial.

Definition C14_before : list (@gop nat nat) := base ++ [Query (QAnnual 9); SetRebuild 9 3; AddGrp 9 8].
Definition C14_since : list (@gop nat nat) :=
  [Query (QAnnual 9); SetDemolition 1 (Some 2); Query (QAnnual 9); NewDet 5; Replace 0 11;
   Query (QAnnual 9); NewDet 4; NewIM 12; Replace 1 13; SetCollapse 13 (Some 6); Query (QAnnual 9);
   NewGrp 7 5 6 None None; Replace 8 14].
Example C14_case :
  let h := C14_before ++ C14_since in
  (careful adding 0 h /\ settled h = true /\
   quiet_since adding (clears_annual adding 9) (quiet_annual 9) 0 h /\
   node_of (gafter adding 0 h) 9 = Some (NStr (Some 3) None)) /\
  snd (gstep adding (gafter adding 0 h) (Query (QAnnual 9))) = Value (Some 112) /\
  snd (gstep adding (gafter adding 0 C14_before) (Query (QAnnual 9))) = Value (Some 42).
Proof.
  cbv zeta. split; [split; [apply carefulb_ok; vm_compute; reflexivity|split; [reflexivity|split; [|reflexivity]]]|].
  - exists C14_before, C14_since. split; auto. split.
    + right. exists (base ++ [Query (QAnnual 9); SetRebuild 9 3]), (AddGrp 9 8). split; [reflexivity|].
      right. exists 8. split; auto.
    + cbn [quiet C14_since quiet_annual]. repeat split; auto.
      * right. right. exists 1. split; [reflexivity|]. right. reflexivity.
      * right. right. exists 1. split; [reflexivity|]. left. reflexivity.
      * right. left. exists 10. reflexivity.
  - split; vm_compute; reflexivity.
Qed.

(** The total cost given an intensity is not remembered and follows
    everything, after careful histories. *)
Theorem C14_total_partial : forall X V P (C : calcs X V P) p h t r d x,
  careful C p h -> settled h = true -> node_of (gafter C p h) t = Some (NStr r d) ->
  right_after C p h (QTotal t x).
Proof. exact @total_right. Qed.
Print Assumptions C14_total_partial.

Example C14_total_case :
  let h := annual_asked ++ [Query (QTotal 9 1); SetRebuild 9 5; NewFrag 4; Replace 6 11] in
  (careful adding 0 h /\ settled h = true /\ node_of (gafter adding 0 h) 9 = Some (NStr (Some 5) None)) /\
  snd (gstep adding (gafter adding 0 h) (Query (QTotal 9 1))) = Value (Some 52).
Proof.
  cbv zeta. split; [split; [apply carefulb_ok; vm_compute; reflexivity|split; reflexivity]|vm_compute; reflexivity].
Qed.

(** ** C15: collapse and demolition rates *)

Theorem C15_collapse_refuted : exists h f f' i, stale_after adding 0 (h ++ [Replace f f']) (QCollapse i) /\
  ptr (gafter adding 0 h) (SF i) = Some f /\ careful adding 0 (h ++ [Replace f f']).
Proof. exact refute_collapse. Qed.
Print Assumptions C15_collapse_refuted.

Theorem C15_demolition_refuted : (exists h f f' i, stale_after adding 0 (h ++ [Replace f f']) (QDemolition i)) /\
  (exists h c i, stale_after adding 0 (h ++ [SetCollapse i c]) (QDemolition i)).
Proof. exact refute_demolition. Qed.
Print Assumptions C15_demolition_refuted.

(** Missing: a replacement of the hazard function since the rate was last
    cleared (and, for the demolition rate, a change of the collapse
    distribution). *)
Theorem C15_collapse_partial : forall X V P (C : calcs X V P) p h i c d,
  careful C p h -> quiet_since C (clears_collapse C i) (quiet_collapse i) p h ->
  node_of (gafter C p h) i = Some (NIM c d) -> right_after C p h (QCollapse i).
Proof. exact @collapse_right. Qed.
Print Assumptions C15_collapse_partial.

Theorem C15_demolition_partial : forall X V P (C : calcs X V P) p h i c d,
  careful C p h -> quiet_since C (clears_demolition C i) (quiet_demolition i) p h ->
  node_of (gafter C p h) i = Some (NIM c d) -> right_after C p h (QDemolition i).
Proof. exact @demolition_right. Qed.
Print Assumptions C15_demolition_partial.

Definition C15_before : list (@gop nat nat) :=
  collapse_asked ++ [NewDet 5; Replace 0 2; SetCollapse 1 (Some 7); SetDemolition 1 (Some 2)].
Definition C15_since : list (@gop nat nat) :=
  [Query (QCollapse 1); Query (QDemolition 1); SetDemolition 1 (Some 9); Query (QDemolition 1)].
Example C15_case :
  let h := C15_before ++ C15_since in
  (careful adding 0 h /\
   quiet_since adding (clears_collapse adding 1) (quiet_collapse 1) 0 h /\
   quiet_since adding (clears_demolition adding 1) (quiet_demolition 1) 0 h /\
   node_of (gafter adding 0 h) 1 = Some (NIM (Some 7) (Some 9))) /\
  snd (gstep adding (gafter adding 0 h) (Query (QCollapse 1))) = Value (Some 13) /\
  snd (gstep adding (gafter adding 0 h) (Query (QDemolition 1))) = Value (Some 23).
Proof.
  cbv zeta. split; [split; [apply carefulb_ok; vm_compute; reflexivity|split; [|split; [|reflexivity]]]|].
  - exists (collapse_asked ++ [NewDet 5; Replace 0 2; SetCollapse 1 (Some 7)]), (SetDemolition 1 (Some 2) :: C15_since).
    split; auto. split; [|cbn; auto 10].
    right. exists (collapse_asked ++ [NewDet 5; Replace 0 2]), (SetCollapse 1 (Some 7)). split; auto.
    right. exists (Some 7). split; auto.
  - exists C15_before, C15_since. split; auto. split; [|cbn; auto 10].
    right. exists (collapse_asked ++ [NewDet 5; Replace 0 2; SetCollapse 1 (Some 7)]), (SetDemolition 1 (Some 2)).
    split; auto. right. exists (Some 2). split; auto.
  - split; vm_compute; reflexivity.
Qed.

(** ** C16: compound demand parameters *)

(** Replacing the second response function changes the first instead. *)
Theorem C16_second_refuted : exists h e o1 o2 o2',
  legal adding 0 (h ++ [Replace o2 o2']) /\ careful adding 0 h /\ o1 <> o2' /\ o2 <> o2' /\
  let s := gafter adding 0 h in let s' := gafter adding 0 (h ++ [Replace o2 o2']) in
  node_of s e = Some NCompound /\ ptr s (SDep e) = Some o1 /\ ptr s (SSecond e) = Some o2 /\
  ptr s' (SDep e) = Some o2' /\ ptr s' (SSecond e) = Some o2.
Proof. exact refute_compound. Qed.
Print Assumptions C16_second_refuted.

(** Replacing the first works in careful histories (any number of times, since
    a careful history may go on). *)
Theorem C16_first_partial : forall X V P (C : calcs X V P) p h e o o' o2,
  careful C p (h ++ [Replace o o']) ->
  let s := gafter C p h in let s' := gafter C p (h ++ [Replace o o']) in
  ptr s (SDep e) = Some o -> ptr s (SSecond e) = Some o2 -> is_prob s o' = true ->
  snd (gstep C s (Replace o o')) = Done /\
  ptr s' (SDep e) = Some o' /\ ptr s' (SSecond e) = Some o2.
Proof. exact @first_replaced. Qed.
Print Assumptions C16_first_partial.

Example C16_case :
  let h := firstn 9 lambda_second ++ [Replace 4 7; NewProb 5 2 3] in
  careful adding 0 (h ++ [Replace 7 9]) /\
  ptr (gafter adding 0 h) (SDep 8) = Some 7 /\ ptr (gafter adding 0 h) (SSecond 8) = Some 6 /\
  is_prob (gafter adding 0 h) 9 = true.
Proof. cbv zeta. split; [apply carefulb_ok; vm_compute; reflexivity|repeat split]. Qed.

(** ** C44: one measure *)

(** After any history without replacements, the groups of a structure share
    one measure. *)
Theorem C44_one_measure : forall X V P (C : calcs X V P) p h t,
  Forall plain_op h ->
  let s := gafter C p h in
  exists i, forall o, In o (groups s t) -> exists g, o = Some g /\ measure_of s g i.
Proof. exact @one_measure_always. Qed.
Print Assumptions C44_one_measure.

(** A group is accepted if and only if it has the measure of the groups there;
    if not, the call throws and nothing at all has changed. *)
Theorem C44_addition : forall X V P (C : calcs X V P) p h t g r d a,
  Forall plain_op h ->
  let s := gafter C p h in
  node_of s t = Some (NStr r d) -> node_of s g = Some (NGrp a) ->
  let (s', res) := gstep C s (AddGrp t g) in
  exists i, measure_of s g i /\
    ((forall g', In (Some g') (groups s t) -> measure_of s g' i) ->
       res = Done /\ groups s' t = groups s t ++ [Some g]) /\
    (~ (forall g', In (Some g') (groups s t) -> measure_of s g' i) -> res = Thrown /\ s' = s).
Proof. exact @add_decides. Qed.
Print Assumptions C44_addition.

(** A second group (11) on the same measure is accepted, a third (14) on
    another is not, unless the structure has been emptied. *)
Definition C44_history : list (@gop nat nat) :=
  base ++ [NewEdp 1 4; NewGrp 2 10 6 None None; NewIM 0; NewEdp 12 4; NewGrp 3 13 6 None None; AddGrp 9 8].
Example C44_case :
  Forall plain_op C44_history /\
  node_of (gafter adding 0 C44_history) 9 = Some (NStr None None) /\
  snd (gstep adding (gafter adding 0 C44_history) (AddGrp 9 11)) = Done /\
  snd (gstep adding (gafter adding 0 C44_history) (AddGrp 9 14)) = Thrown /\
  snd (gstep adding (gafter adding 0 (C44_history ++ [RemoveGrp 9 8])) (AddGrp 9 14)) = Done.
Proof. split; [repeat constructor|]. repeat split; vm_compute; reflexivity. Qed.

(** ** C45: contents *)

(** After any history without replacements, the groups of a structure are the
    list that the history spells out (successful additions at the end, removals
    of the first occurrence), and that list is unique. *)
Theorem C45_contents : forall X V P (C : calcs X V P) p h t r d,
  Forall plain_op h -> node_of (gafter C p h) t = Some (NStr r d) ->
  exists l, listed C p t h l /\ (forall l', listed C p t h l' -> l' = l) /\
            groups (gafter C p h) t = map Some l.
Proof. exact @contents_listed. Qed.
Print Assumptions C45_contents.

Example C45_case :
  let h := C44_history ++ [AddGrp 9 11; AddGrp 9 8; AddGrp 9 14; RemoveGrp 9 8; RemoveGrp 9 14; AddGrp 9 11] in
  Forall plain_op h /\ node_of (gafter adding 0 h) 9 = Some (NStr None None) /\
  groups (gafter adding 0 h) 9 = [Some 11; Some 8; Some 11].
Proof. cbv zeta. split; [repeat constructor|]. repeat split; vm_compute; reflexivity. Qed.

(** ** C56: integration settings *)

(** Figures remembered under the old settings are still reported. *)
Theorem C56_refuted : exists h p' e x, careful adding 0 (h ++ [SetSettings p']) /\
  stale_after adding 0 (h ++ [SetSettings p']) (QLambda e x).
Proof. exact refute_settings. Qed.
Print Assumptions C56_refuted.

(** Clearing all caches after a change of the settings (and no further
    change) is enough for demand rates and group figures. *)
Theorem C56_partial : forall X V P (C : calcs X V P) p h1 p' h2,
  careful C p (h1 ++ SetSettings p' :: ClearAll :: h2) ->
  (forall op, In op h2 -> forall q, op <> SetSettings q) ->
  let h := h1 ++ SetSettings p' :: ClearAll :: h2 in
  settings (gafter C p h) = p' /\
  (forall e x, node_of (gafter C p h) e = Some NEdp \/ node_of (gafter C p h) e = Some NCompound ->
     right_after C p h (QLambda e x)) /\
  (forall g a q, node_of (gafter C p h) g = Some (NGrp a) -> right_after C p h (QGrp g q)).
Proof. exact @settings_cleared. Qed.
Print Assumptions C56_partial.

Example C56_case :
  let h1 := base ++ [Query (QLambda 5 1); Query (QGrp 8 (GECost 1))] in
  let h2 := [Query (QGrp 8 (GECost 1)); NewFrag 4; Replace 6 10] in
  careful adding 0 (h1 ++ SetSettings 2 :: ClearAll :: h2) /\
  (forall op, In op h2 -> forall q, op <> SetSettings q) /\
  snd (gstep adding (gafter adding 0 (h1 ++ SetSettings 2 :: ClearAll :: h2)) (Query (QLambda 5 1))) = Value (Some 9) /\
  snd (gstep adding (gafter adding 0 h1) (Query (QLambda 5 1))) = Value (Some 7).
Proof.
  cbv zeta. split; [apply carefulb_ok; vm_compute; reflexivity|]. split; [|split; vm_compute; reflexivity].
  intros op H q. repeat (destruct H as [<-|H]; [discriminate|]). destruct H.
Qed.

(** ** C57: callbacks of destroyed objects *)

(** Destroying a structure leaves its callbacks in place, so a later change of
    its measure runs a callback on freed memory. *)
Theorem C57_refuted : exists h, legal adding 0 h /\ bad (gafter adding 0 h) = true.
Proof. exact refute_dangling. Qed.
Print Assumptions C57_refuted.

(** As long as structures are kept (and the history is careful) no callback of
    a destroyed object runs. *)
Theorem C57_partial : forall X V P (C : calcs X V P) p h,
  careful C p h -> bad (gafter C p h) = false.
Proof. exact @careful_safe. Qed.
Print Assumptions C57_partial.

Example C57_case :
  let h := C13_history ++ [Destroy 5; Destroy 9; Destroy 10; SetCollapse 1 (Some 1)] in
  careful adding 0 h /\ node_of (gafter adding 0 h) 9 = None /\ node_of (gafter adding 0 h) 10 = None.
Proof. cbv zeta. split; [apply carefulb_ok; vm_compute; reflexivity|split; vm_compute; reflexivity]. Qed.

(** ** C58: one measure, with replacement *)

(** Replacing the demand parameter of a group can bring in a second measure. *)
Theorem C58_refuted : exists h t g g' i i', careful adding 0 h /\ legal adding 0 h /\ i <> i' /\
  let s := gafter adding 0 h in
  groups s t = [Some g; Some g'] /\ measure_of s g i /\ measure_of s g' i'.
Proof. exact refute_measures. Qed.
Print Assumptions C58_refuted.

(** If replacements leave demand parameters and groups on their measure, there
    is only one in each structure, also when the measure itself is replaced. *)
Theorem C58_partial : forall X V P (C : calcs X V P) p h t,
  careful C p h ->
  (forall h1 op h2, h = h1 ++ op :: h2 -> keeps_measures (gafter C p h1) op) ->
  let s := gafter C p h in
  exists i, forall o, In o (groups s t) -> exists g, o = Some g /\ measure_of s g i.
Proof. exact @one_measure_careful. Qed.
Print Assumptions C58_partial.
