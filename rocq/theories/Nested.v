(** * Calculations that use other caches, and parallel regions
    (/repo/src/caching.h:96-490; structure.cpp:84-92, 155-164; comp_group.cpp:265-280;
    relationships.cpp:66-104, 306-392; pyslatcore.cpp:393-490)

    [Cache.v] and [CVal.v] follow one cache whose calculation is a single instant.  In SLAT
    a calculation asks other caches for values, and starts parallel loops and sections whose
    parts do the same.  Here any number of caches of both kinds live together; a calculation
    is a program of questions and parallel regions; each call in progress and each part of a
    region is a task, and every step of [Cache.v] and [CVal.v] stays one step.
    Simplifications:
    - arguments, keys and values of all caches share one type each; nothing is cleared and
      nothing throws (C05, C06 and C08 tell what happens then);
    - lock owners are tasks; a task is executed by one thread from its beginning to its end;
    - the other locks and critical sections (context.cpp, maq.cpp, replaceable.h) hold no
      calculation inside and are left out;
    - threads are limited in number by [After]: which iterations of a loop share a thread is
      chosen afresh, arbitrarily, whenever a region starts. *)
From Coq Require Import List Bool Arith.
From Verif Require Import Cache CVal.
Import ListNotations.

Section Nested.
  Context {O V K T : Type}.
  (** Which caches there are: objects [O] (compared by address). *)
  Variable odec : forall x y : O, {x = y} + {x <> y}.
  Variable kdec : forall x y : K, {x = y} + {x <> y}.
  Variable key : V -> K.
  Variable isnan : V -> bool.
  Variable dflt : T.
  Variable active : O -> bool.
  (** [CachedValue] (caching.h:346) or [CachedFunction] (96). *)
  Variable is_value : O -> bool.
  (** The thread that constructed a [CachedValue] (caching.h:388). *)
  Variable ctor : O -> nat.

  (** What a calculation does, apart from arithmetic: end with a result; call [operator()]
      of a cache and go on with the answer (e.g. comp_group.cpp:371); run a parallel region
      and go on with the results of its parts, in order (e.g. structure.cpp:87-90,
      comp_group.cpp:267-277). *)
  Inductive prog : Type :=
  | Ret (r : T)
  | Ask (o : O) (v : V) (k : T -> prog)
  | Par (ps : list prog) (k : list T -> prog).

  (** The calculation of each cache (caching.h:106, 374), for each argument. *)
  Variable body : O -> V -> prog.

  (** A cache of either kind. caching.h 96, 346. *)
  Inductive ostate : Type :=
  | OFun (s : @Cache.state V K T unit)
  | OVal (s : @CVal.vstate T unit).

  (** What a task is doing; no counterpart in /repo. *)
  Inductive act : Type :=
  | Run (p : prog)                              (* executing *)
  | After (q : nat) (p : prog)                  (* an iteration behind another one *)
  | WaitOne (j : nat) (k : T -> prog)           (* inside a call, which is task j *)
  | WaitAll (js : list nat) (k : list T -> prog) (* at the end of a parallel region *)
  | Inside (o : O) (v : V)                        (* inside operator() *)
  | Calc (o : O) (v : V) (j : nat)              (* there, in the calculation, task j *)
  | Fin (r : T).                                (* finished *)

  (** All caches and tasks. No counterpart in /repo. *)
  Record nstate : Type := mkN {
    n_objs : O -> ostate;
    n_tasks : nat -> option act;
    n_next : nat
  }.

  (** Fresh caches (caching.h:106-129, 374-401), and the programs of the first threads. *)
  Definition ninit (ps : list prog) : nstate :=
    mkN (fun o => if is_value o then OVal (vinit dflt (ctor o) tt (fun _ => []))
                  else OFun (init tt (fun _ => [])))
        (fun i => option_map Run (nth_error ps i)) (length ps).

  (** Where a task is with respect to a cache: outside (with the answer of its call),
      inside, or at the calculation (caching.h:228, 278, 451). *)
  Inductive place : Type := Outside (a : option T) | Busy | AtCalc.

  (** As above. caching.h 150-280, 415-482. *)
  Definition where_ (i : nat) (s : ostate) : place :=
    match s with
    | OFun s =>
        match th_at (s_ths s i) with
        | None => Outside (match th_log (s_ths s i) with e :: _ => en_answer e | [] => None end)
        | Some (_, C4b) | Some (_, Q1) => AtCalc
        | Some _ => Busy
        end
    | OVal s =>
        match vt_at (c_ths s i) with
        | None => Outside (match vt_log (c_ths s i) with e :: _ => ve_answer e | [] => None end)
        | Some LC2b => AtCalc
        | Some _ => Busy
        end
    end.

  (** The call begins. caching.h 144, 415. *)
  Definition enter (i : nat) (v : V) (s : ostate) : ostate :=
    match s with
    | OFun s => OFun (goto i v P0 s)
    | OVal s => OVal (vgoto i L0 s)
    end.

  (** One step inside [operator()]; [r] is the result of the calculation, should the step be
      its end. caching.h 144-282, 415-482. *)
  Definition move (i : nat) (o : O) (r : T) (s : ostate) : option ostate :=
    match s with
    | OFun s =>
        match th_at (s_ths s i) with
        | Some (v, l) => option_map OFun
            (call_step kdec key isnan (fun _ _ => Some r) dflt (active o) i s v l)
        | None => None
        end
    | OVal s =>
        match vt_at (c_ths s i) with
        | Some l => option_map OVal (vcall_step (fun _ => Some r) i s l)
        | None => None
        end
    end.

  (** Task [i] goes on with [a]; no counterpart in /repo. *)
  Definition put (i : nat) (a : act) (s : nstate) : nstate :=
    mkN (n_objs s) (upd Nat.eq_dec (n_tasks s) i (Some a)) (n_next s).
  (** New tasks; no counterpart in /repo. *)
  Definition new (l : list act) (s : nstate) : nstate :=
    mkN (n_objs s)
        (fun x => if x <? n_next s then n_tasks s x else nth_error l (x - n_next s))
        (n_next s + length l).
  (** A new state of a cache; no counterpart in /repo. *)
  Definition seto (o : O) (os : ostate) (s : nstate) : nstate :=
    mkN (upd odec (n_objs s) o os) (n_tasks s) (n_next s).

  (** After a step inside [operator()]: still inside, or returned (caching.h:270, 279, 480). *)
  Definition settle (i : nat) (o : O) (v : V) (os : ostate) (s : nstate) : nstate :=
    put i (match where_ i os with Outside (Some a) => Fin a | _ => Inside o v end) (seto o os s).

  (** The result of a task that has finished; no counterpart in /repo. *)
  Definition answer (s : nstate) (j : nat) : option T :=
    match n_tasks s j with Some (Fin r) => Some r | _ => None end.
  (** The results of all of them; no counterpart in /repo. *)
  Fixpoint collect (s : nstate) (js : list nat) : option (list T) :=
    match js with
    | [] => Some []
    | j :: rest => match answer s j, collect s rest with
                   | Some r, Some rs => Some (r :: rs)
                   | _, _ => None
                   end
    end.

  (** The parts of a parallel region, tasks [b], [b+1], ...; part [m] is executed by the
      thread of the earlier part [af m], after it, or else by a thread of its own.
      relationships.cpp 69-72, structure.cpp 87-90. *)
  Fixpoint parts (b m : nat) (af : nat -> option nat) (ps : list prog) : list act :=
    match ps with
    | [] => []
    | p :: rest =>
        (match af m with
         | Some q => if q <? m then After (b + q) p else Run p
         | None => Run p
         end) :: parts b (S m) af rest
    end.

  (** The next step of task [i]; [None]: it waits, or has finished. [af]: how the iterations
      are shared out, should a parallel region start. caching.h 144-482. *)
  Definition nstep (i : nat) (af : nat -> option nat) (s : nstate) : option nstate :=
    let j := n_next s in
    match n_tasks s i with
    | None | Some (Fin _) => None
    | Some (Run (Ret r)) => Some (put i (Fin r) s)
    | Some (Run (Ask o v k)) =>
        Some (put i (WaitOne j k) (new [Inside o v] (seto o (enter j v (n_objs s o)) s)))
    | Some (Run (Par ps k)) =>
        Some (put i (WaitAll (seq j (length ps)) k) (new (parts j 0 af ps) s))
    | Some (After q p) =>
        match answer s q with Some _ => Some (put i (Run p) s) | None => None end
    | Some (WaitOne q k) =>
        match answer s q with Some r => Some (put i (Run (k r)) s) | None => None end
    | Some (WaitAll js k) =>
        match collect s js with Some rs => Some (put i (Run (k rs)) s) | None => None end
    | Some (Inside o v) =>
        match where_ i (n_objs s o) with
        | Busy => match move i o dflt (n_objs s o) with
                  | Some os => Some (settle i o v os s)
                  | None => None
                  end
        | AtCalc => Some (put i (Calc o v j) (new [Run (body o v)] s))
        | Outside _ => None
        end
    | Some (Calc o v q) =>
        match answer s q with
        | Some r => match move i o r (n_objs s o) with
                    | Some os => Some (settle i o v os s)
                    | None => None
                    end
        | None => None
        end
    end.

  (** Executions: any interleaving, any sharing out of iterations.
      No counterpart in /repo. *)
  Inductive nexec : nstate -> nstate -> Prop :=
  | nexec_refl : forall s, nexec s s
  | nexec_step : forall s1 s2 s3 i af, nexec s1 s2 -> nstep i af s2 = Some s3 -> nexec s1 s3.

  (** A given schedule; no counterpart in /repo. *)
  Fixpoint nrun (sched : list (nat * (nat -> option nat))) (s : nstate) : option nstate :=
    match sched with
    | [] => Some s
    | (i, af) :: rest => match nstep i af s with Some s' => nrun rest s' | None => None end
    end.
End Nested.

Arguments Ret {O V T}.
Arguments Ask {O V T}.
Arguments Par {O V T}.
Arguments OFun {V K T}.
Arguments OVal {V K T}.
Arguments Run {O V T}.
Arguments After {O V T}.
Arguments WaitOne {O V T}.
Arguments WaitAll {O V T}.
Arguments Inside {O V T}.
Arguments Calc {O V T}.
Arguments Fin {O V T}.

(** ** The caches of SLAT, each with the number of the object it belongs to:
    relationships.h:104, 128, 152; loss_functions.h:77; comp_group.h:111-157;
    structure.h:40. *)
Inductive slat_cache : Type :=
| CollapseRate (im : nat) | DemolitionRate (im : nat) | EDPLambda (edp : nat)
| LossForCount (loss : nat)
| CostEDPDist (g : nat) | DelayEDPDist (g : nat)
| ECostIM (g : nat) | SDLnCostIM (g : nat) | EDelayIM (g : nat) | SDLnDelayIM (g : nat)
| EAnnualCost (g : nat) | LambdaCost (g : nat) | GroupRate (g : nat)
| AnnualCost (s : nat).

(** Those of them that are [CachedValue]s: relationships.h:104, 128; comp_group.h:132, 157;
    structure.h:40. *)
Definition slat_value (o : slat_cache) : bool :=
  match o with
  | CollapseRate _ | DemolitionRate _ | EAnnualCost _ | GroupRate _ | AnnualCost _ => true
  | _ => false
  end.

(** Which caches a calculation may ask: comp_group.cpp:53-71 with loss_functions.cpp:131 (the
    loss functions of a group), 300 and 217, 350-355 and 366, 397, 420-422, 455 and 237,
    507-515; structure.cpp:89 with comp_group.cpp:271-275 (the groups of a structure).  The
    others (relationships.cpp:157-206, 259-285, loss_functions.cpp:103-113,
    comp_group.cpp:566-645) ask none. *)
Inductive slat_uses : slat_cache -> slat_cache -> Prop :=
| U_cost_loss : forall g b, slat_uses (CostEDPDist g) (LossForCount b)
| U_delay_loss : forall g b, slat_uses (DelayEDPDist g) (LossForCount b)
| U_ecost : forall g, slat_uses (ECostIM g) (CostEDPDist g)
| U_sdcost_edp : forall g, slat_uses (SDLnCostIM g) (CostEDPDist g)
| U_sdcost : forall g, slat_uses (SDLnCostIM g) (ECostIM g)
| U_annual : forall g, slat_uses (EAnnualCost g) (ECostIM g)
| U_lambda_e : forall g, slat_uses (LambdaCost g) (ECostIM g)
| U_lambda_sd : forall g, slat_uses (LambdaCost g) (SDLnCostIM g)
| U_edelay : forall g, slat_uses (EDelayIM g) (DelayEDPDist g)
| U_sddelay_edp : forall g, slat_uses (SDLnDelayIM g) (DelayEDPDist g)
| U_sddelay : forall g, slat_uses (SDLnDelayIM g) (EDelayIM g)
| U_total_e : forall s g, slat_uses (AnnualCost s) (ECostIM g)
| U_total_sd : forall s g, slat_uses (AnnualCost s) (SDLnCostIM g).
