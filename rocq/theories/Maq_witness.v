(** * Witnesses against statements that do not hold, in IEEE binary64 *)
From Coq Require Import ZArith List Bool Lia Reals Lra.
From Coq Require Import Floats.SpecFloat.
From Verif Require Import Num Maq Maq_spec Maq_proofs Stats_conc Stats_conc_proofs.
Import ListNotations.
Local Open Scope Z_scope.

Definition q64 (a b : Z) : F64 := ndiv F64 (nofZ F64 a) (nofZ F64 b).

(** [v] for lo <= x <= hi, otherwise 0. *)
Definition box (lo hi v : F64) (x : F64) : F64 :=
  if nleb F64 lo x && nleb F64 x hi then v else nofZ F64 0.

(** 1/(1+x)^2: after the substitution x = 1/t - 1 it is the constant 1, except at t = 0. *)
Definition flat (x : F64) : F64 :=
  let y := nadd F64 (nofZ F64 1) x in ndiv F64 (nofZ F64 1) (nmul F64 y y).

Definition zero (x : F64) : F64 := nofZ F64 0.
Definition one (x : F64) : F64 := nofZ F64 1.
Definition tiny (x : F64) : F64 := S754_finite false 4503599627370496 (-200).

(** Two opposite infinities which the integrator meets in two different regions. *)
Definition opposite (x : F64) : F64 :=
  if nltb F64 x (q64 1 10) then nofZ F64 1
  else if nltb F64 x (q64 1 2) then nofZ F64 5
  else if nltb F64 x (q64 7 10) then S754_infinity false
  else if nltb F64 x (nofZ F64 6) then nofZ F64 0
  else if nltb F64 x (nofZ F64 8) then S754_infinity true
  else nofZ F64 0.

Definition with_method (m : method) (search_limit : Z) : settings F64 :=
  mkSettings F64 2048 search_limit (tolerance_default F64) m.

Definition outcome_evals (o : outcome (maq_result F64)) : option (bool * Z * Z) :=
  match o with
  | Done r => Some (mr_successful r, mr_evaluations r, Z.of_nat (length (mr_trace r)))
  | _ => None
  end.

Lemma reported_differs :
  exists r, MAQ F64 flat 3000 (default_settings F64) = Done r /\ mr_successful r = true /\
            mr_evaluations r = 20 /\ Z.of_nat (length (mr_trace r)) = 35.
Proof.
  assert (H : outcome_evals (MAQ F64 flat 3000 (default_settings F64)) = Some (true, 20, 35))
    by (vm_compute; reflexivity).
  destruct (MAQ F64 flat 3000 (default_settings F64)) as [r| |]; try discriminate.
  exists r. cbn in H. injection H as H1 H2 H3. repeat split; assumption.
Qed.

Definition one_eval : settings F64 := mkSettings F64 1 1 (tolerance_default F64) DIRECTED.

Lemma limit_exceeded :
  exists r, MAQ F64 flat 3000 one_eval = Done r /\ mr_successful r = false /\
            mr_evaluations r = 6 /\ Z.of_nat (length (mr_trace r)) = 5.
Proof.
  assert (H : outcome_evals (MAQ F64 flat 3000 one_eval) = Some (false, 6, 5))
    by (vm_compute; reflexivity).
  destruct (MAQ F64 flat 3000 one_eval) as [r| |]; try discriminate.
  exists r. cbn in H. injection H as H1 H2 H3. repeat split; assumption.
Qed.

Definition search_summary (o : outcome (search_result F64)) : option (bool * Z) :=
  match o with
  | Done r => Some (match sr_range r with Some _ => true | None => false end, sr_evals r)
  | _ => None
  end.

Lemma binary_over_limit :
  exists r, binary_subdivision F64 zero 100 3 = Done r /\ sr_evals r = 4.
Proof.
  assert (H : search_summary (binary_subdivision F64 zero 100 3) = Some (false, 4))
    by (vm_compute; reflexivity).
  destruct (binary_subdivision F64 zero 100 3) as [r| |]; try discriminate.
  exists r. cbn in H. injection H as H1 H2. split; [reflexivity|exact H2].
Qed.

Definition f64_eqb (x y : spec_float) : bool := SFeqb x y.

(** The directed search may return a proper sub-interval with nothing above the
    threshold anywhere. *)
Lemma directed_below :
  exists r a b, directed_search F64 tiny 3000 2048 = Done r /\ sr_range r = Some (a, b) /\
    neqb F64 a (nofZ F64 0) = false /\
    forall x, gt_eps F64 (tiny x) = false.
Proof.
  assert (H : match directed_search F64 tiny 3000 2048 with
              | Done r => match sr_range r with
                          | Some (a, b) => neqb F64 a (nofZ F64 0)
                          | None => true
                          end
              | _ => true
              end = false) by (vm_compute; reflexivity).
  destruct (directed_search F64 tiny 3000 2048) as [r| |]; try discriminate.
  destruct (sr_range r) as [[a b]|] eqn:E; try discriminate.
  exists r, a, b. repeat split; try assumption.
Qed.

Definition nothing (o : outcome (maq_result F64)) : bool :=
  match o with
  | Done r => mr_successful r && neqb F64 (mr_integral r) (nofZ F64 0)
              && match mr_range r with None => true | _ => false end
  | _ => false
  end.

(** A feature for 31 <= x <= 62, i.e. 1/63 <= t <= 1/32, is wider than 31/2048. *)
Definition far_box : F64 -> F64 := box (nofZ F64 31) (nofZ F64 62) (nofZ F64 1).
Lemma directed_misses : nothing (MAQ F64 far_box 4200 (default_settings F64)) = true.
Proof. vm_compute. reflexivity. Qed.
Lemma scattered_misses : nothing (MAQ F64 far_box 4200 (with_method SCATTERED 2048)) = true.
Proof. vm_compute. reflexivity. Qed.

(** 3.5 <= x <= 6, i.e. 1/7 <= t <= 1/4.5, is wider than 160/2052. *)
Definition near_box : F64 -> F64 := box (q64 7 2) (nofZ F64 6) (nofZ F64 1).
Lemma low_first_misses :
  nothing (MAQ F64 near_box 4200 (with_method LOW_FIRST_REVERSE_BINARY_SUBDIVISION 2052)) = true.
Proof. vm_compute. reflexivity. Qed.

Lemma nothing_inv : forall o, nothing o = true ->
  exists r, o = Done r /\ mr_successful r = true /\ neqb F64 (mr_integral r) (nofZ F64 0) = true
            /\ mr_range r = None.
Proof.
  intros [r| |] H; try discriminate. exists r. cbn [nothing] in H.
  apply andb_prop in H. destruct H as [H H3]. apply andb_prop in H. destruct H as [H1 H2].
  repeat split; try assumption. destruct (mr_range r); [discriminate|reflexivity].
Qed.

Lemma success_nan :
  exists r, MAQ F64 opposite 3000 (default_settings F64) = Done r /\
            mr_successful r = true /\ nisnan F64 (mr_integral r) = true.
Proof.
  assert (H : match MAQ F64 opposite 3000 (default_settings F64) with
              | Done r => mr_successful r && nisnan F64 (mr_integral r)
              | _ => false
              end = true) by (vm_compute; reflexivity).
  destruct (MAQ F64 opposite 3000 (default_settings F64)) as [r| |]; try discriminate.
  exists r. apply andb_prop in H. destruct H. auto.
Qed.

(** Maxima recorded although no integration succeeded. *)
Lemma maxima_without_success :
  exists st, session_run F64 (session_start F64) [SSetting F64 (OpSetEvalLimit F64 20); SIntegrate F64 one] = Done st /\
    st_successes (se_stats st) = 0 /\ 0 < st_max_integration (se_stats st) /\
    st_search_fails (se_stats st) = 0.
Proof.
  assert (H : match session_run F64 (session_start F64) [SSetting F64 (OpSetEvalLimit F64 20); SIntegrate F64 one] with
              | Done st => (st_successes (se_stats st) =? 0) && (0 <? st_max_integration (se_stats st))
                           && (st_search_fails (se_stats st) =? 0)
              | _ => false
              end = true) by (vm_compute; reflexivity).
  destruct (session_run F64 (session_start F64) [SSetting F64 (OpSetEvalLimit F64 20); SIntegrate F64 one]) as [st| |]; try discriminate.
  exists st. apply andb_prop in H. destruct H as [H H3]. apply andb_prop in H. destruct H as [H1 H2].
  repeat split; lia.
Qed.

Lemma max_search_without_finding :
  exists st, session_run F64 (session_start F64) [SIntegrate F64 zero] = Done st /\
    st_search_fails (se_stats st) = st_calls (se_stats st) /\ 0 < st_max_search (se_stats st).
Proof.
  assert (H : match session_run F64 (session_start F64) [SIntegrate F64 zero] with
              | Done st => (st_search_fails (se_stats st) =? st_calls (se_stats st))
                           && (0 <? st_max_search (se_stats st))
              | _ => false
              end = true) by (vm_compute; reflexivity).
  destruct (session_run F64 (session_start F64) [SIntegrate F64 zero]) as [st| |]; try discriminate.
  exists st. apply andb_prop in H. destruct H as [H1 H2]. repeat split; lia.
Qed.

(** Two threads, the larger maximum written first and then overwritten. *)
Definition small_result : maq_result F64 :=
  mkMR F64 (nofZ F64 0) true 2 ExSearchFail 2 [] [] None.
Definition large_result : maq_result F64 :=
  mkMR F64 (nofZ F64 0) true 2048 ExSearchFail 2048 [] [] None.

Fixpoint schedule (l : list nat) (s : stats * list (list action)) : stats * list (list action) :=
  match l with
  | [] => s
  | i :: rest =>
      match nth_error (snd s) i with
      | Some (a :: p) =>
          let '(st', more) := exec a (fst s) in
          schedule rest (st', firstn i (snd s) ++ (more ++ p) :: skipn (S i) (snd s))
      | _ => s
      end
  end.

Lemma schedule_csteps : forall l s, csteps s (schedule l s).
Proof.
  induction l as [|i l IH]; intros [st ps]; cbn [schedule fst snd]; [constructor|].
  destruct (nth_error ps i) as [[|a p]|] eqn:E; try constructor.
  destruct (exec a st) as [st' more] eqn:Ee.
  eapply csteps_step; [|apply IH].
  assert (Hps : ps = firstn i ps ++ (a :: p) :: skipn (S i) ps).
  { clear - E. revert i E. induction ps as [|x ps IHp]; intros [|i] E; cbn in *; try discriminate.
    - injection E as ->. reflexivity.
    - f_equal. apply IHp. exact E. }
  rewrite Hps at 1. constructor. exact Ee.
Qed.

Lemma max_lost :
  exists st' ps, csteps (stats_zero, map actions [small_result; large_result]) (st', ps) /\
    finished (st', ps) /\ st_max_search st' = 2 /\
    st_max_search (fold_left stats_step [small_result; large_result] stats_zero) = 2048.
Proof.
  set (s := schedule [0; 0; 0; 1; 1; 1; 1; 1; 0; 0]%nat
                     (stats_zero, map actions [small_result; large_result])).
  exists (fst s), (snd s). repeat split.
  - rewrite <- surjective_pairing. apply schedule_csteps.
  - vm_compute. repeat constructor.
Qed.
