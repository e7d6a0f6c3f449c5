(** * C93: the report on integrations can be read *)
From Coq Require Import ZArith Bool Ascii String List Reals Floats.SpecFloat Lia.
From Flocq Require Import Core BinarySingleNaN.
From Verif Require Import Num Maq Report Double_spec Report_spec Report_proofs Report_proofs2 Report_proofs3.
Import ListNotations.
Local Open Scope list_scope.
Local Open Scope Z_scope.

(** Whatever a program does, a report asked for gives every counter and limit, exactly and
    in decimal, and the method, each on its own line under its own label; and the tolerance
    to six digits. *)
Theorem C93_report :
  forall (l : list event) (se : session F64) (c : controls) (out : list (list ascii)),
    Forall proper l -> event_run event_start (l ++ [Asked]) = Done (se, c, out) ->
    exists before t, out = before ++ [t] /\ reported t (se_settings se) (se_stats se).
Proof. exact last_report. Qed.
Print Assumptions C93_report.

Definition C93_program : list event :=
  [Happens (SSetting F64 (OpSetEvalLimit F64 20)); Happens (SIntegrate F64 (fun x => x)); Asked;
   Happens (SSetting F64 (OpSetTolerance F64 (f64_ofZ 2)))].

Example C93_report_ok :
  Forall proper C93_program /\
  match event_run event_start (C93_program ++ [Asked]) with
  | Done (se, _, out) =>
      set_eval_limit (se_settings se) = 20 /\ st_calls (se_stats se) = 1 /\ List.length out = 2%nat /\
      firstn 12 (skipn 51 (nth 1 out [])) = list_ascii_of_string "Tolerance: 2"
  | _ => False
  end.
Proof. split; [repeat (apply Forall_cons; [vm_compute; reflexivity || exact I |]); constructor | vm_compute; auto]. Qed.

(** Asking for reports changes nothing that integrations or later reports depend on, and
    gives one report for each request. *)
Theorem C93_harmless :
  forall (l : list event),
    (forall se c out, event_run event_start l = Done (se, c, out) ->
       session_run F64 (session_start F64) (other l) = Done se /\ List.length out = asked l) /\
    (forall se, session_run F64 (session_start F64) (other l) = Done se ->
       exists c out, event_run event_start l = Done (se, c, out)).
Proof. exact reports_harmless. Qed.
Print Assumptions C93_harmless.

Example C93_harmless_ok :
  asked C93_program = 1%nat /\ List.length (other C93_program) = 3%nat /\
  exists se, session_run F64 (session_start F64) (other C93_program) = Done se.
Proof.
  split; [reflexivity | split; [reflexivity |]].
  assert (E : match session_run F64 (session_start F64) (other C93_program) with Done _ => true | _ => false end = true)
    by (vm_compute; reflexivity).
  destruct (session_run F64 (session_start F64) (other C93_program)) as [se | |]; [eauto | discriminate ..].
Qed.

(** Full statement: two programs with the same report have the same settings and counters.
    False: tolerances that differ in the seventh digit only look the same. *)
Theorem C93_same_refuted :
  exists x y se se' c c' out, double x /\ double y /\
    event_run event_start [Happens (SSetting F64 (OpSetTolerance F64 x)); Asked] = Done (se, c, out) /\
    event_run event_start [Happens (SSetting F64 (OpSetTolerance F64 y)); Asked] = Done (se', c', out) /\
    se_settings se <> se_settings se'.
Proof. exact refute_tolerance. Qed.
Print Assumptions C93_same_refuted.

(** But nothing else can be mistaken, and tolerances agree to five digits. *)
Theorem C93_same_partial :
  forall (l l' : list event) (se se' : session F64) (c c' : controls) (b b' : list (list ascii)) (t : list ascii),
    Forall proper l -> Forall proper l' ->
    event_run event_start (l ++ [Asked]) = Done (se, c, b ++ [t]) ->
    event_run event_start (l' ++ [Asked]) = Done (se', c', b' ++ [t]) ->
    let s := se_settings se in let s' := se_settings se' in
    se_stats se = se_stats se' /\ set_method s = set_method s' /\ set_eval_limit s = set_eval_limit s' /\
    set_search_limit s = set_search_limit s' /\
    (set_tolerance s = set_tolerance s' \/
     (Rabs (SF2R radix2 (set_tolerance s) - SF2R radix2 (set_tolerance s')) <=
      (SF2R radix2 (set_tolerance s) + SF2R radix2 (set_tolerance s')) * (5 / 1000000))%R).
Proof. exact programs_one. Qed.
Print Assumptions C93_same_partial.

Example C93_same_ok :
  let s := default_settings F64 in
  event_run event_start [Asked; Happens (SResetStats F64); Asked] =
  Done (mkSession F64 s stats_zero, get_statistics s controls_start,
        [report_text (get_statistics s controls_start) stats_zero] ++ [report_text (get_statistics s controls_start) stats_zero]).
Proof. reflexivity. Qed.
