(** * Integration statistics under concurrency (maq.cpp:26, 558-612, 747-760)

    Every update of the statistics in [MAQ] is a single statement under
    [#pragma omp critical] (unnamed, hence one lock for the whole program), so each update
    is one atomic action.  The two maxima are first compared outside the critical section
    and then written inside it (maq.cpp:604-607 and 747-750): two separate actions.
    Strictly, the unsynchronised read racing with a write is undefined behaviour in C++;
    the model gives it the benign reading (an atomic load). *)
From Coq Require Import ZArith List Bool.
From Verif Require Import Num Maq.
Import ListNotations.
Local Open Scope Z_scope.

(** The counters that are added to. maq.h 92-107. *)
Inductive counter_field : Type :=
| CCalls | CSearchEvals | CSearchFails | CNans | CIntEvals | CSuccesses | CIntFails.

(** The recorded maxima. maq.h 92-107. *)
Inductive max_field : Type := MSearch | MIntegration.

(** The value of a counter (maq.h 92-107). *)
Definition get_counter (c : counter_field) (st : stats) : Z :=
  match c with
  | CCalls => st_calls st
  | CSearchEvals => st_search_evals st
  | CSearchFails => st_search_fails st
  | CNans => st_nans st
  | CIntEvals => st_integration_evals st
  | CSuccesses => st_successes st
  | CIntFails => st_integration_fails st
  end.

(** maq.h:96-107: [unsigned int] counters, [unsigned long] totals. *)
Definition wrap_counter (c : counter_field) (z : Z) : Z :=
  match c with CSearchEvals | CIntEvals => u64 z | _ => u32 z end.

(** Assignment to a counter (maq.cpp 559-760). *)
Definition put_counter (c : counter_field) (v : Z) (st : stats) : stats :=
  let '(mkStats mi fi ei ms fs es ca su na) := st in
  match c with
  | CCalls => mkStats mi fi ei ms fs es v su na
  | CSearchEvals => mkStats mi fi ei ms fs v ca su na
  | CSearchFails => mkStats mi fi ei ms v es ca su na
  | CNans => mkStats mi fi ei ms fs es ca su v
  | CIntEvals => mkStats mi fi v ms fs es ca su na
  | CSuccesses => mkStats mi fi ei ms fs es ca v na
  | CIntFails => mkStats mi v ei ms fs es ca su na
  end.

(** The value of a maximum (maq.cpp 604, 747). *)
Definition get_max (m : max_field) (st : stats) : Z :=
  match m with MSearch => st_max_search st | MIntegration => st_max_integration st end.

(** Assignment to a maximum (maq.cpp 606, 749). *)
Definition put_max (m : max_field) (v : Z) (st : stats) : stats :=
  let '(mkStats mi fi ei ms fs es ca su na) := st in
  match m with
  | MSearch => mkStats mi fi ei v fs es ca su na
  | MIntegration => mkStats v fi ei ms fs es ca su na
  end.

(** One atomic action of a thread. maq.cpp 558-760. *)
Inductive action : Type :=
| AAdd (c : counter_field) (n : Z)    (* critical: counter += n *)
| ATest (m : max_field) (v : Z)       (* if (max < v), outside the critical section *)
| AWrite (m : max_field) (v : Z).     (* critical: max = v *)

(** The actions of one call of [MAQ], in program order, given how it ended:
    maq.cpp:559, 603, 604-607, 610; 627-629 and the other NaN exits; 747-750, 753, 756,
    760. *)
Definition actions {N : Num} (r : maq_result N) : list action :=
  [AAdd CCalls 1; AAdd CSearchEvals (mr_search_evals r); ATest MSearch (mr_search_evals r)] ++
  match mr_exit r with
  | ExSearchFail => [AAdd CSearchFails 1]
  | ExNan => [AAdd CNans 1; AAdd CIntEvals (mr_evaluations r)]
  | ExLimit => [ATest MIntegration (mr_evaluations r); AAdd CIntFails 1;
                AAdd CIntEvals (mr_evaluations r)]
  | ExOk => [ATest MIntegration (mr_evaluations r); AAdd CSuccesses 1;
             AAdd CIntEvals (mr_evaluations r)]
  end.

(** One action: a successful test makes the thread write the maximum next.
    maq.cpp 558-760. *)
Definition exec (a : action) (st : stats) : stats * list action :=
  match a with
  | AAdd c n => (put_counter c (wrap_counter c (get_counter c st + n)) st, [])
  | ATest m v => (st, if get_max m st <? v then [AWrite m v] else [])
  | AWrite m v => (put_max m v st, [])
  end.

(** A thread running alone. maq.cpp 558-760. *)
Fixpoint run_alone (fuel : nat) (p : list action) (st : stats) : option stats :=
  match p with
  | [] => Some st
  | a :: rest =>
      match fuel with
      | O => None
      | S k => let '(st', more) := exec a st in run_alone k (more ++ rest) st'
      end
  end.

(** Any number of threads, each with the actions it still has to do; one step lets any
    one of them do one action.
    Integrations run in parallel regions (comp_group.cpp 267, structure.cpp 87). *)
Inductive cstep : stats * list (list action) -> stats * list (list action) -> Prop :=
| cstep_intro : forall st a rest before after st' more,
    exec a st = (st', more) ->
    cstep (st, before ++ (a :: rest) :: after) (st', before ++ (more ++ rest) :: after).

(** Several such steps (maq.cpp 558-760). *)
Inductive csteps : stats * list (list action) -> stats * list (list action) -> Prop :=
| csteps_refl : forall s, csteps s s
| csteps_step : forall s1 s2 s3, cstep s1 s2 -> csteps s2 s3 -> csteps s1 s3.

(** All threads have finished. No counterpart in /repo. *)
Definition finished (s : stats * list (list action)) : Prop := Forall (fun p => p = []) (snd s).
