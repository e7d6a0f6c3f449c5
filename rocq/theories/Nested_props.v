(** * C82, C83, C84 (first half): calculations that use other caches, in parallel
    Property theorems only; model in [Nested.v], specification in [Nested_spec.v]. *)
From Coq Require Import List Bool Arith Lia.
From Verif Require Import Cache CVal Nested Nested_spec Nested_proofs6.
Import ListNotations.

(** ** C82 *)

(** However threads interleave, however iterations are shared out and whoever asks first:
    every program that finishes has the result it has without caches and without threads,
    and every answer that any cache ever gave is the result of its calculation. *)
Theorem C82_answers : forall {O V K T} odec (kdec : forall x y : K, {x = y} + {x <> y}) (key : V -> K) isnan
    (dflt : T) active is_value ctor (body : O -> V -> @prog O V T) (uses : O -> O -> Prop),
  follows body uses -> layered uses -> same_entry body key is_value ->
  forall ps s, nexec odec kdec key isnan dflt active body (ninit dflt is_value ctor ps) s ->
  (forall i p r, nth_error ps i = Some p -> finished s i r -> means body p r) /\
  (forall o, answers_right body o (n_objs s o)).
Proof. exact @top_answers. Qed.
Print Assumptions C82_answers.

(** That result exists and is unique. *)
Theorem C82_meaning : forall {O V T} (dflt : T) (body : O -> V -> @prog O V T) (uses : O -> O -> Prop),
  follows body uses -> layered uses ->
  forall p, exists r, means body p r /\ forall r', means body p r' -> r' = r.
Proof. exact @top_meaning. Qed.
Print Assumptions C82_meaning.

(** No calculation is ever started twice and no lock misused, in any cache. *)
Theorem C82_once : forall {O V K T} odec (kdec : forall x y : K, {x = y} + {x <> y}) (key : V -> K) isnan
    (dflt : T) active is_value ctor (body : O -> V -> @prog O V T) (uses : O -> O -> Prop),
  follows body uses -> layered uses -> same_entry body key is_value ->
  forall ps s, nexec odec kdec key isnan dflt active body (ninit dflt is_value ctor ps) s ->
  forall o, sound kdec (n_objs s o).
Proof. exact @top_sound. Qed.
Print Assumptions C82_once.

(** Calculations shaped like SLAT's: distributions by demand ask loss functions, expected
    costs ask them in a loop, standard deviations ask both, a building asks its groups in
    parallel sections.  Three threads ask, two of them for the same. *)
Example C82_case : follows toy_body slat_uses /\ same_entry toy_body (fun v => v) slat_value /\
  match nrun slat_dec Nat.eq_dec (fun v => v) (fun _ => false) 0 (fun _ => true) toy_body toy_sched toy_init with
  | Some s => map (n_tasks s) [0; 1; 2]
  | None => []
  end = [Some (Fin 500); Some (Fin (500 + 45)); Some (Fin (400 + 1480 + 400))].
Proof. split; [exact toy_follows|]. split; [exact toy_same|]. vm_compute. reflexivity. Qed.

(** ** C83 *)

(** As long as something has not finished, some task can take a step (whichever way
    iterations are shared out). *)
Theorem C83_deadlock : forall {O V K T} odec (kdec : forall x y : K, {x = y} + {x <> y}) (key : V -> K) isnan
    (dflt : T) active is_value ctor (body : O -> V -> @prog O V T) (uses : O -> O -> Prop),
  follows body uses -> layered uses -> same_entry body key is_value ->
  forall ps s, nexec odec kdec key isnan dflt active body (ninit dflt is_value ctor ps) s ->
  (forall i a, n_tasks s i = Some a -> exists r, finished s i r) \/
  exists i, forall af, nstep odec kdec key isnan dflt active body i af s <> None.
Proof. exact @top_deadlock. Qed.
Print Assumptions C83_deadlock.

(** All executions are shorter than some bound. *)
Theorem C83_bounded : forall {O V K T} odec (kdec : forall x y : K, {x = y} + {x <> y}) (key : V -> K) isnan
    (dflt : T) active is_value ctor (body : O -> V -> @prog O V T) (uses : O -> O -> Prop),
  follows body uses -> layered uses -> same_entry body key is_value ->
  forall ps, exists B, forall sched s,
    nrun odec kdec key isnan dflt active body sched (ninit dflt is_value ctor ps) = Some s -> length sched <= B.
Proof. exact @top_bounded. Qed.
Print Assumptions C83_bounded.

(** So every execution ends, and then everybody has the right result. *)
Theorem C83_ends : forall {O V K T} odec (kdec : forall x y : K, {x = y} + {x <> y}) (key : V -> K) isnan
    (dflt : T) active is_value ctor (body : O -> V -> @prog O V T) (uses : O -> O -> Prop),
  follows body uses -> layered uses -> same_entry body key is_value ->
  forall ps s, nexec odec kdec key isnan dflt active body (ninit dflt is_value ctor ps) s ->
  (forall i af, nstep odec kdec key isnan dflt active body i af s = None) ->
  forall i p, nth_error ps i = Some p -> exists r, finished s i r /\ means body p r.
Proof. exact @top_ends. Qed.
Print Assumptions C83_ends.

(** The caches of SLAT do not ask each other in circles. *)
Theorem C83_slat : layered slat_uses.
Proof. exact slat_layered. Qed.
Print Assumptions C83_slat.

(** Full statement: threads get their answers whatever calculations ask.
    False: two caches that ask each other for the same argument wait for ever. *)
Theorem C83_circles_refuted : exists (body : bool -> nat -> @prog bool nat nat) ps s,
  nexec bool_dec Nat.eq_dec (fun v => v) (fun _ => false) 0 (fun _ => true) body
    (ninit (K:=nat) 0 (fun _ => false) (fun _ => 0) ps) s /\
  (exists i p, nth_error ps i = Some p /\ forall r, ~ finished s i r) /\
  forall i af, nstep bool_dec Nat.eq_dec (fun v => v) (fun _ => false) 0 (fun _ => true) body i af s = None.
Proof. exact refute_circles. Qed.
Print Assumptions C83_circles_refuted.

(** An execution of 596 steps by 76 tasks. *)
Example C83_case :
  match nrun slat_dec Nat.eq_dec (fun v => v) (fun _ => false) 0 (fun _ => true) toy_body toy_sched toy_init with
  | Some s => (length toy_sched, n_next s)
  | None => (0, 0)
  end = (596, 76).
Proof. vm_compute. reflexivity. Qed.

(** ** C84 *)

(** A parallel loop over a list of arguments gets, in order, the answers to the single
    arguments. *)
Theorem C84_loop : forall {O V K T} odec (kdec : forall x y : K, {x = y} + {x <> y}) (key : V -> K) isnan
    (dflt : T) active is_value ctor (body : O -> V -> @prog O V T) (uses : O -> O -> Prop),
  follows body uses -> layered uses -> same_entry body key is_value ->
  forall ps s i o vs k r, nexec odec kdec key isnan dflt active body (ninit dflt is_value ctor ps) s ->
  nth_error ps i = Some (Par (map (fun v => Ask o v Ret) vs) k) -> finished s i r ->
  exists rs, Forall2 (fun v a => means body (body o v) a) vs rs /\ means body (k rs) r.
Proof. exact @top_list. Qed.
Print Assumptions C84_loop.

(** The third thread of [C82_case] asks for a list with a repetition. *)
Example C84_loop_case : nth_error toy_ps 2 =
  Some (Par (map (fun x => Ask (SDLnCostIM 1) x Ret) [2; 3; 2]) (fun rs => Ret (list_sum rs))) /\
  means toy_body (toy_body (SDLnCostIM 1) 2) 400 /\ means toy_body (toy_body (SDLnCostIM 1) 3) 1480.
Proof.
  split; [reflexivity|]. split; apply toy_means; vm_compute; reflexivity.
Qed.
