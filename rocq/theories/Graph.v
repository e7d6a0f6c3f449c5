(** The graph of shared objects: hazard and response functions, intensity
    measures, demand parameters, fragilities, loss functions, component groups
    and structures; how they notify and replace one another; and what each of
    them caches.

    Sources: /repo/src/replaceable.h, functions.cpp 281-310, relationships.h,
    relationships.cpp, comp_group.h, comp_group.cpp, structure.h,
    structure.cpp.

    Simplifications:
    - one thread;
    - all objects live in one address space and addresses are never reused;
    - the immutable data of an object (the parameters of a curve, the states of
      a fragility function, the name, count and factors of a group, a lognormal
      distribution, the integration settings) is a value of an opaque type [P];
    - what a calculation computes is not fixed here: it is an arbitrary
      function of exactly the data the C++ function reads, which may in
      addition ask for the cached figures the C++ function asks for ([comp]).
      Nothing else is assumed about it, so the theorems hold for the formulas in
      the source;
    - cached functions and values follow the sequential behaviour proved of
      them in [Cache_props] (calculated once, then remembered until cleared);
      NaN arguments, which are not remembered, are left out. *)

Require Import List Arith Bool.
From Verif Require Import Replaceable.
Import ListNotations.

(** ** Calculations *)

(** A calculation that may ask questions of type [Q] answered in [A] before
    it returns.  An integration (/repo/src/maq.cpp) that evaluates an integrand
    using cached figures is one. *)
Inductive comp (V Q A : Type) :=
| Ret (v : V)
| Ask (q : Q) (k : A -> comp V Q A).
Arguments Ret {V Q A}. Arguments Ask {V Q A}.

(** What a response function is: its kind and its two functions
    (/repo/src/functions.cpp 281-310). *)
Definition prob_den (P : Type) : Type := P * P * P.

(** What an intensity measure is: its hazard function, collapse and demolition
    distributions (/repo/src/relationships.h 33-38). *)
Definition im_den (P : Type) : Type := P * option P * option P.

(** What a demand parameter is: its intensity measure, response function, and
    second response function if it is compound
    (/repo/src/relationships.h 160-300). *)
Definition edp_den (P : Type) : Type := im_den P * prob_den P * option (prob_den P).

(** The calculations, each with what it reads. *)
Record calcs (X V P : Type) := Calcs {
  x_eq : forall a b : X, {a = b} + {a <> b};
  (* relationships.cpp 153-177: hazard, collapse *)
  c_collapse : P -> P -> option P -> V;
  (* relationships.cpp 179-202: hazard, collapse, demolition *)
  c_demolition : P -> P -> option P -> option P -> V;
  (* relationships.cpp 269-294 *)
  c_lambda : P -> edp_den P -> X -> V;
  (* comp_group.cpp 53-61: fragility, cost function, group data *)
  c_costdist : P -> option P -> P -> X -> V;
  (* comp_group.cpp 62-70: fragility, delay function, group data *)
  c_delaydist : P -> option P -> P -> X -> V;
  (* comp_group.cpp 282-324: asks for cost distributions *)
  c_ecost : P -> edp_den P -> P -> X -> comp V X V;
  (* comp_group.cpp 326-384: asks for cost distributions (inl) and mean costs (inr) *)
  c_sdcost : P -> edp_den P -> P -> X -> comp V (X + X) V;
  (* comp_group.cpp 437-477: asks for delay distributions *)
  c_edelay : P -> edp_den P -> P -> X -> comp V X V;
  (* comp_group.cpp 479-537: asks for delay distributions (inl) and mean delays (inr) *)
  c_sddelay : P -> edp_den P -> P -> X -> comp V (X + X) V;
  (* comp_group.cpp 386-408: asks for mean costs *)
  c_annual : P -> im_den P -> P -> comp V X V;
  (* comp_group.cpp 410-435: asks for mean costs (inl) and standard deviations (inr) *)
  c_lambdacost : P -> im_den P -> P -> X -> comp V (X + X) V;
  (* comp_group.cpp 566-644: demand parameter, fragility *)
  c_rate : P -> edp_den P -> P -> V;
  (* structure.cpp 187-231: number of groups, measure, rebuild and demolition
     costs; asks for the mean and deviation of cost of every group *)
  c_structure : P -> nat -> option (im_den P) -> option P -> option P ->
                comp V X (list (V * V));
  (* structure.cpp 114-148: the total cost given an intensity, not cached *)
  c_total : option (im_den P) -> option P -> option P -> X ->
            comp V X (list (V * V))
}.
Arguments x_eq {X V P}. Arguments c_collapse {X V P}. Arguments c_demolition {X V P}.
Arguments c_lambda {X V P}. Arguments c_costdist {X V P}. Arguments c_delaydist {X V P}.
Arguments c_ecost {X V P}. Arguments c_sdcost {X V P}. Arguments c_edelay {X V P}.
Arguments c_sddelay {X V P}. Arguments c_annual {X V P}. Arguments c_lambdacost {X V P}.
Arguments c_rate {X V P}. Arguments c_structure {X V P}. Arguments c_total {X V P}.

(** ** Objects and pointers *)

(** The pointers through which objects use one another; each comes with a
    pair of callbacks registered with the object pointed to, so the same names
    serve for clients. *)
Inductive slot :=
| SF (i : nat)        (* IM::f,                  relationships.cpp 48-57 *)
| SMu (p : nat)       (* mu_function,            functions.cpp 287-294 *)
| SSigma (p : nat)    (* sigma_function,         functions.cpp 296-303 *)
| SBase (e : nat)     (* EDP::base_rate,         relationships.cpp 246-255 *)
| SDep (e : nat)      (* EDP::dependent_rate,    relationships.cpp 257-266 *)
| SSecond (e : nat)   (* second_dependent_rate,  relationships.cpp 399-408 *)
| SEdp (g : nat)      (* CompGroup::edp,         comp_group.cpp 86-109 *)
| SFrag (g : nat)     (* CompGroup::frag_fn,     comp_group.cpp 113-136 *)
| SCost (g : nat)     (* CompGroup::cost_fn,     comp_group.cpp 140-160 *)
| SDelay (g : nat)    (* CompGroup::delay_fn,    comp_group.cpp 165-178 *)
| SIm (t : nat)       (* Structure::im,          structure.cpp 45-53 *)
| SEntry (t k : nat). (* an entry of Structure::components, structure.cpp 58-67 *)

(** The object a pointer belongs to ([this] in the callbacks listed at
    [slot]). *)
Definition owner (sl : slot) : nat :=
  match sl with
  | SF a | SMu a | SSigma a | SBase a | SDep a | SSecond a
  | SEdp a | SFrag a | SCost a | SDelay a | SIm a | SEntry a _ => a
  end.

(** Equality of the names of pointers; no counterpart in /repo. *)
Definition slot_eqb (a b : slot) : bool :=
  match a, b with
  | SF x, SF y | SMu x, SMu y | SSigma x, SSigma y | SBase x, SBase y
  | SDep x, SDep y | SSecond x, SSecond y | SEdp x, SEdp y | SFrag x, SFrag y
  | SCost x, SCost y | SDelay x, SDelay y | SIm x, SIm y => x =? y
  | SEntry x k, SEntry y l => (x =? y) && (k =? l)
  | _, _ => false
  end.

(** ** Caches *)

(** The nine caches of a component group (/repo/src/comp_group.h 90-150) and
    the argument asked for. *)
Inductive gquery (X : Type) :=
| GECost (x : X) | GSDCost (x : X) | GEDelay (x : X) | GSDDelay (x : X)
| GAnnual | GLambdaCost (x : X) | GCostDist (x : X) | GDelayDist (x : X) | GRate.
Arguments GECost {X}. Arguments GSDCost {X}. Arguments GEDelay {X}. Arguments GSDDelay {X}.
Arguments GAnnual {X}. Arguments GLambdaCost {X}. Arguments GCostDist {X}.
Arguments GDelayDist {X}. Arguments GRate {X}.

(** Every cached figure in the system (/repo/src/relationships.h 40-60,
    160-240, comp_group.h 90-150, structure.h 40-70). *)
Inductive ckey (X : Type) :=
| KCollapse (i : nat)        (* IM::CollapseRate *)
| KDemolition (i : nat)      (* IM::DemolitionRate *)
| KLambda (e : nat) (x : X)  (* EDP::lambda *)
| KGrp (g : nat) (q : gquery X)
| KStr (t : nat).            (* Structure::AnnualCost *)
Arguments KCollapse {X}. Arguments KDemolition {X}. Arguments KLambda {X}.
Arguments KGrp {X}. Arguments KStr {X}.

(** The object a cached figure belongs to (a member of it, files as above). *)
Definition kowner {X} (k : ckey X) : nat :=
  match k with
  | KCollapse a | KDemolition a | KLambda a _ | KGrp a _ | KStr a => a
  end.

(** What the callbacks of a pointer clear (the change and the replace callback
    clear the same). *)
Definition clears {X} (sl : slot) (k : ckey X) : bool :=
  match sl, k with
  (* relationships.cpp 48-57, functions.cpp 287-303: nothing *)
  | SF _, _ | SMu _, _ | SSigma _, _ => false
  (* relationships.cpp 246-266, 399-408: lambda *)
  | SBase e, KLambda e' _ | SDep e, KLambda e' _ | SSecond e, KLambda e' _ => e' =? e
  (* comp_group.cpp 86-136: all nine *)
  | SEdp g, KGrp g' _ | SFrag g, KGrp g' _ => g' =? g
  (* comp_group.cpp 140-160: not the mean and deviation of delay *)
  | SCost g, KGrp g' (GEDelay _) | SCost g, KGrp g' (GSDDelay _) => false
  | SCost g, KGrp g' _ => g' =? g
  (* comp_group.cpp 165-178: the delay figures *)
  | SDelay g, KGrp g' (GEDelay _) | SDelay g, KGrp g' (GSDDelay _)
  | SDelay g, KGrp g' (GDelayDist _) => g' =? g
  (* structure.cpp 47-52, 60-66, 233-236 *)
  | SIm t, KStr t' | SEntry t _, KStr t' => t' =? t
  | _, _ => false
  end.

(** Whether the callbacks of a pointer go on to notify the owner's own
    clients: yes for measures, response functions and demand parameters
    (relationships.cpp 50, 54, 249, 254, 260, 265, 402, 407; functions.cpp 289,
    293, 298, 302), no for groups and structures. *)
Definition notifies (sl : slot) : bool :=
  match sl with
  | SF _ | SMu _ | SSigma _ | SBase _ | SDep _ | SSecond _ => true
  | _ => false
  end.

(** The pointer the replace callback assigns: its own, except that the one
    registered with the second response function of a compound demand parameter
    assigns the first (relationships.cpp 406). *)
Definition assigns (sl : slot) : slot :=
  match sl with
  | SSecond e => SDep e
  | _ => sl
  end.

Section Graph.

Context {X V P : Type}.
Variable C : calcs X V P.

(** Equality of cache keys ([std::map] lookup in /repo/src/caching.h
    104-180). *)
Definition gquery_eq (a b : gquery X) : {a = b} + {a <> b}.
Proof. pose (x_eq C). decide equality. Defined.
(** Equality of cache keys, [std::map] lookup in /repo/src/caching.h 104-180. *)
Definition ckey_eq (a b : ckey X) : {a = b} + {a <> b}.
Proof. pose (x_eq C). pose gquery_eq. decide equality; apply Nat.eq_dec. Defined.

(** An object: its kind and its own data. *)
Inductive node :=
| NDet (a : P)                         (* functions.h 20-60 *)
| NProb (a : P)                        (* functions.h: LogNormalFn and its kinds *)
| NIM (collapse demolition : option P) (* relationships.h 37-38 *)
| NEdp                                 (* relationships.h 160 *)
| NCompound                            (* relationships.h 255 *)
| NFrag (a : P)                        (* fragility.h *)
| NLoss (a : P)                        (* loss_functions.h *)
| NGrp (a : P)                         (* comp_group.h *)
| NStr (rebuild demolition : option P). (* structure.h 60-61 *)

(** The whole state.  [ptr] and [cid] are each pointer's target and the id of
    its callbacks; [entries] are the entries of each structure's list, in
    order; [bad] records that the program has run a callback of a destroyed
    object (or that the model ran out of depth, which the theorems exclude). *)
Record st := St {
  fresh : nat;
  node_of : nat -> option node;
  rep : nat -> robj slot;
  ptr : slot -> option nat;
  cid : slot -> nat;
  entries : nat -> list nat;
  cache : ckey X -> option V;
  settings : P;
  bad : bool
}.

(** The empty state, with some integration settings; the start of a program,
    before any object of /repo/src exists. *)
Definition st0 (p : P) : st :=
  St 0 (fun _ => None) (fun _ => new_robj) (fun _ => None) (fun _ => 0)
     (fun _ => []) (fun _ => None) p false.

(** Field updates; no counterpart in /repo. *)
Definition set_fresh v s := St v (node_of s) (rep s) (ptr s) (cid s) (entries s) (cache s) (settings s) (bad s).
(** Field update; no counterpart in /repo. *)
Definition set_node_of v s := St (fresh s) v (rep s) (ptr s) (cid s) (entries s) (cache s) (settings s) (bad s).
(** Field update; no counterpart in /repo. *)
Definition set_rep v s := St (fresh s) (node_of s) v (ptr s) (cid s) (entries s) (cache s) (settings s) (bad s).
(** Field update; no counterpart in /repo. *)
Definition set_ptr v s := St (fresh s) (node_of s) (rep s) v (cid s) (entries s) (cache s) (settings s) (bad s).
(** Field update; no counterpart in /repo. *)
Definition set_cid v s := St (fresh s) (node_of s) (rep s) (ptr s) v (entries s) (cache s) (settings s) (bad s).
(** Field update; no counterpart in /repo. *)
Definition set_entries v s := St (fresh s) (node_of s) (rep s) (ptr s) (cid s) v (cache s) (settings s) (bad s).
(** Field update; no counterpart in /repo. *)
Definition set_cache v s := St (fresh s) (node_of s) (rep s) (ptr s) (cid s) (entries s) v (settings s) (bad s).
(** Field update; no counterpart in /repo. *)
Definition set_settings v s := St (fresh s) (node_of s) (rep s) (ptr s) (cid s) (entries s) (cache s) v (bad s).
(** Field update; no counterpart in /repo. *)
Definition set_bad v s := St (fresh s) (node_of s) (rep s) (ptr s) (cid s) (entries s) (cache s) (settings s) v.

(** Assignment of one pointer; no counterpart in /repo. *)
Definition upd_slot {B} (f : slot -> B) (k : slot) (v : B) : slot -> B :=
  fun x => if slot_eqb x k then v else f x.
(** Assignment of one pointer, as in relationships.cpp 53 and the other replace
    callbacks. *)
Definition point (sl : slot) (o : nat) (s : st) : st :=
  set_ptr (upd_slot (ptr s) sl (Some o)) s.

(** [ClearCache] on a set of caches (/repo/src/caching.h 182-194, 299-305). *)
Definition wipe (w : ckey X -> bool) (s : st) : st :=
  set_cache (fun k => if w k then None else cache s k) s.

(** Remember a calculated figure (/repo/src/caching.h 150-165, 280-292). *)
Definition cput (k : ckey X) (v : V) (s : st) : st :=
  set_cache (fun k' => if ckey_eq k' k then Some v else cache s k') s.

(** Running a callback of an object that has been destroyed is undefined
    behaviour. *)
Definition check_alive (a : nat) (s : st) : st :=
  match node_of s a with Some _ => s | None => set_bad true s end.

(** ** Notification and replacement *)

(** The change callback of a pointer (the tables [clears] and [notifies] give
    the source lines).  [n] bounds the depth, which the types bound in C++:
    function, measure or response function, demand parameter, group,
    structure. *)
Fixpoint touch (n : nat) (sl : slot) (s : st) : st :=
  let s := wipe (clears sl) (check_alive (owner sl) s) in
  if notifies sl then
    match n with
    | 0 => set_bad true s
    | S n => fold_left (fun s sl' => touch n sl' s) (clients (rep s (owner sl))) s
    end
  else s.

(** The depth allowed; more than the five levels of objects.  No counterpart
    in /repo. *)
Definition depth : nat := 5.

(** [notify_change] (/repo/src/replaceable.h 98-104). *)
Definition notify (o : nat) (s : st) : st :=
  fold_left (fun s sl => touch depth sl s) (clients (rep s o)) s.

(** The replace callback of a pointer: clear, assign, notify
    (the tables give the source lines). *)
Definition replaced (o' : nat) (s : st) (sl : slot) : st :=
  let s := wipe (clears sl) (check_alive (owner sl) s) in
  let s := point (assigns sl) o' s in
  if notifies sl then notify (owner sl) s else s.

(** [o->replace(o')] (/repo/src/replaceable.h 106-114). *)
Definition do_replace (o o' : nat) (s : st) : st :=
  let cs := clients (rep s o) in
  let s := set_rep (upd (rep s) o' (take_over (rep s o) (rep s o'))) s in
  let s := fold_left (replaced o') cs s in
  set_rep (upd (rep s) o (dismiss (rep s o))) s.

(** A constructor makes a pointer and registers its callbacks
    (/repo/src/replaceable.h 82-90). *)
Definition register (sl : slot) (o : nat) (s : st) : st :=
  let (r, id) := add_callbacks sl (rep s o) in
  set_cid (upd_slot (cid s) sl id) (point sl o (set_rep (upd (rep s) o r) s)).

(** A destructor unregisters a pointer's callbacks
    (/repo/src/replaceable.h 92-96); the id is the one the pointer was given,
    the object the one it points to now. *)
Definition unregister (s : st) (sl : slot) : st :=
  match ptr s sl with
  | Some o => set_rep (upd (rep s) o (remove_callbacks (cid s sl) (rep s o))) s
  | None => s
  end.

(** ** Reading *)

(** [DeterministicFn] (/repo/src/functions.h 20-60): immutable data. *)
Definition det_of (s : st) (d : option nat) : option P :=
  match d with
  | Some d => match node_of s d with Some (NDet a) => Some a | _ => None end
  | None => None
  end.

(** [ProbabilisticFn] (/repo/src/functions.cpp 281-403). *)
Definition prob_of (s : st) (p : option nat) : option (prob_den P) :=
  match p with
  | Some p =>
      match node_of s p, det_of s (ptr s (SMu p)), det_of s (ptr s (SSigma p)) with
      | Some (NProb a), Some m, Some g => Some (a, m, g)
      | _, _, _ => None
      end
  | None => None
  end.

(** [IM] (/repo/src/relationships.h 32-137). *)
Definition im_of (s : st) (i : option nat) : option (im_den P) :=
  match i with
  | Some i =>
      match node_of s i, det_of s (ptr s (SF i)) with
      | Some (NIM c d), Some f => Some (f, c, d)
      | _, _ => None
      end
  | None => None
  end.

(** [EDP] and [CompoundEDP] (/repo/src/relationships.h 139-300). *)
Definition edp_of (s : st) (e : option nat) : option (edp_den P) :=
  match e with
  | Some e =>
      match node_of s e, im_of s (ptr s (SBase e)), prob_of s (ptr s (SDep e)) with
      | Some NEdp, Some i, Some p => Some (i, p, None)
      | Some NCompound, Some i, Some p =>
          match prob_of s (ptr s (SSecond e)) with
          | Some p2 => Some (i, p, Some p2)
          | None => None
          end
      | _, _, _ => None
      end
  | None => None
  end.

(** Fragility functions (/repo/src/fragility.h): immutable data. *)
Definition frag_of (s : st) (f : option nat) : option P :=
  match f with
  | Some f => match node_of s f with Some (NFrag a) => Some a | _ => None end
  | None => None
  end.
(** A loss function, possibly none (/repo/src/comp_group.cpp 53-70). *)
Definition loss_of (s : st) (l : option nat) : option (option P) :=
  match l with
  | Some l => match node_of s l with Some (NLoss a) => Some (Some a) | _ => None end
  | None => Some None   (* a null pointer: comp_group.cpp 54, 63 *)
  end.

(** [CompGroup] (/repo/src/comp_group.h 220-270): demand parameter, fragility,
    cost and delay functions, own data. *)
Record grp_den := GDen {
  gd_edp : edp_den P; gd_frag : P; gd_cost : option P; gd_delay : option P; gd_data : P
}.
(** The contents of a [CompGroup] (/repo/src/comp_group.h 220-270). *)
Definition grp_of (s : st) (g : nat) : option grp_den :=
  match node_of s g, edp_of s (ptr s (SEdp g)), frag_of s (ptr s (SFrag g)),
        loss_of s (ptr s (SCost g)), loss_of s (ptr s (SDelay g)) with
  | Some (NGrp a), Some e, Some f, Some c, Some d => Some (GDen e f c d a)
  | _, _, _, _, _ => None
  end.

(** The groups of a structure, in order (/repo/src/structure.cpp 28-35). *)
Definition groups (s : st) (t : nat) : list (option nat) :=
  map (fun k => ptr s (SEntry t k)) (entries s t).

(** All present or nothing; no counterpart in /repo (the C++ pointers in
    structure.cpp 28-35 are never null). *)
Fixpoint sequence {A} (l : list (option A)) : option (list A) :=
  match l with
  | [] => Some []
  | Some a :: r => match sequence r with Some r => Some (a :: r) | None => None end
  | None :: _ => None
  end.

(** A group with its contents (/repo/src/structure.cpp 28-35). *)
Definition grp_entry (s : st) (g : option nat) : option (nat * grp_den) :=
  match g with
  | Some g => match grp_of s g with Some d => Some (g, d) | None => None end
  | None => None
  end.

(** The measure of a structure, if it has one (/repo/src/structure.cpp
    45-53). *)
Definition str_im (s : st) (t : nat) : option (option (im_den P)) :=
  match ptr s (SIm t) with
  | None => Some None
  | Some i => match im_of s (Some i) with Some d => Some (Some d) | None => None end
  end.

(** ** Cached evaluation *)

(** A cached figure: remembered, or calculated and then remembered
    (/repo/src/caching.h 104-180, 238-297). *)
Definition cached (k : ckey X) (f : st -> st * V) (s : st) : st * V :=
  match cache s k with
  | Some v => (s, v)
  | None => let (s', v) := f s in (cput k v s', v)
  end.

(** Running a calculation, answering its questions; stands for calls of cached
    functions in the course of the calculations listed at [calcs]. *)
Fixpoint run {Q A} (ask : Q -> st -> st * A) (c : comp V Q A) (s : st) : st * V :=
  match c with
  | Ret v => (s, v)
  | Ask q k => let (s', a) := ask q s in run ask (k a) s'
  end.

(** [edp->IM_rate...] (/repo/src/comp_group.cpp 386-435): the measure of a
    group's demand parameter. *)
Definition im_part (d : grp_den) : im_den P := fst (fst (gd_edp d)).

(** comp_group.cpp 53-61. *)
Definition q_costdist g d x := cached (KGrp g (GCostDist x))
  (fun s => (s, c_costdist C (gd_frag d) (gd_cost d) (gd_data d) x)).
(** comp_group.cpp 62-70. *)
Definition q_delaydist g d x := cached (KGrp g (GDelayDist x))
  (fun s => (s, c_delaydist C (gd_frag d) (gd_delay d) (gd_data d) x)).
(** comp_group.cpp 282-324. *)
Definition q_ecost g d x := cached (KGrp g (GECost x))
  (fun s => run (q_costdist g d) (c_ecost C (settings s) (gd_edp d) (gd_data d) x) s).
(** comp_group.cpp 326-384. *)
Definition q_sdcost g d x := cached (KGrp g (GSDCost x))
  (fun s => run (fun q => match q with inl x => q_costdist g d x | inr x => q_ecost g d x end)
                (c_sdcost C (settings s) (gd_edp d) (gd_data d) x) s).
(** comp_group.cpp 437-477. *)
Definition q_edelay g d x := cached (KGrp g (GEDelay x))
  (fun s => run (q_delaydist g d) (c_edelay C (settings s) (gd_edp d) (gd_data d) x) s).
(** comp_group.cpp 479-537. *)
Definition q_sddelay g d x := cached (KGrp g (GSDDelay x))
  (fun s => run (fun q => match q with inl x => q_delaydist g d x | inr x => q_edelay g d x end)
                (c_sddelay C (settings s) (gd_edp d) (gd_data d) x) s).
(** comp_group.cpp 386-408. *)
Definition q_annual g d := cached (KGrp g GAnnual)
  (fun s => run (q_ecost g d) (c_annual C (settings s) (im_part d) (gd_data d)) s).
(** comp_group.cpp 410-435. *)
Definition q_lambdacost g d x := cached (KGrp g (GLambdaCost x))
  (fun s => run (fun q => match q with inl x => q_ecost g d x | inr x => q_sdcost g d x end)
                (c_lambdacost C (settings s) (im_part d) (gd_data d) x) s).
(** comp_group.cpp 566-644. *)
Definition q_rate g d := cached (KGrp g GRate)
  (fun s => (s, c_rate C (settings s) (gd_edp d) (gd_frag d))).

(** Any figure of a group (/repo/src/comp_group.h 90-215). *)
Definition q_grp g d (q : gquery X) : st -> st * V :=
  match q with
  | GECost x => q_ecost g d x | GSDCost x => q_sdcost g d x
  | GEDelay x => q_edelay g d x | GSDDelay x => q_sddelay g d x
  | GAnnual => q_annual g d | GLambdaCost x => q_lambdacost g d x
  | GCostDist x => q_costdist g d x | GDelayDist x => q_delaydist g d x
  | GRate => q_rate g d
  end.

(** The mean and deviation of cost of each group
    (/repo/src/structure.cpp 83-92, comp_group.cpp 265-280). *)
Fixpoint q_all (gs : list (nat * grp_den)) (x : X) (s : st) : st * list (V * V) :=
  match gs with
  | [] => (s, [])
  | (g, d) :: r =>
      let (s1, e) := q_ecost g d x s in
      let (s2, sd) := q_sdcost g d x s1 in
      let (s3, l) := q_all r x s2 in
      (s3, (e, sd) :: l)
  end.

(** What can be asked of the objects (lines at [do_query]). *)
Inductive query :=
| QCollapse (i : nat) | QDemolition (i : nat) | QLambda (e : nat) (x : X)
| QGrp (g : nat) (q : gquery X) | QAnnual (t : nat) | QTotal (t : nat) (x : X).

(** Asking: the answer is [None] if there is no such object. *)
Definition do_query (q : query) (s : st) : st * option V :=
  let some (r : st * V) := let (s', v) := r in (s', Some v) in
  match q with
  | QCollapse i =>
      (* relationships.cpp 40-42, 153-177 *)
      match im_of s (Some i) with
      | Some (f, c, d) => some (cached (KCollapse i) (fun s => (s, c_collapse C (settings s) f c)) s)
      | None => (s, None)
      end
  | QDemolition i =>
      (* relationships.cpp 43-45, 179-202 *)
      match im_of s (Some i) with
      | Some (f, c, d) => some (cached (KDemolition i) (fun s => (s, c_demolition C (settings s) f c d)) s)
      | None => (s, None)
      end
  | QLambda e x =>
      (* relationships.cpp 240, 269-294 *)
      match edp_of s (Some e) with
      | Some d => some (cached (KLambda e x) (fun s => (s, c_lambda C (settings s) d x)) s)
      | None => (s, None)
      end
  | QGrp g q =>
      match grp_of s g with
      | Some d => some (q_grp g d q s)
      | None => (s, None)
      end
  | QAnnual t =>
      (* structure.cpp 24, 187-231 *)
      match node_of s t, str_im s t, sequence (map (grp_entry s) (groups s t)) with
      | Some (NStr r d), Some i, Some gs =>
          some (cached (KStr t)
            (fun s => run (q_all gs) (c_structure C (settings s) (length gs) i r d) s) s)
      | _, _, _ => (s, None)
      end
  | QTotal t x =>
      (* structure.cpp 114-148 *)
      match node_of s t, str_im s t, sequence (map (grp_entry s) (groups s t)) with
      | Some (NStr r d), Some i, Some gs => some (run (q_all gs) (c_total C i r d x) s)
      | _, _, _ => (s, None)
      end
  end.

(** ** Operations *)

(** The calls of the API.  Constructors: functions.cpp 281-362,
    relationships.cpp 39-58, 236-267, 391-409, fragility.cpp 19-40,
    loss_functions.cpp 23-50, 96-102, comp_group.cpp 25-179, structure.cpp 22-26;
    setters: relationships.h 74-118, structure.h 42-47; replaceable.h 106-114;
    destructors; structure.cpp 43-81; Integration::Set* in maq.cpp; Clear_Caches
    in caching.cpp. *)
Inductive gop :=
| NewDet (a : P)
| NewProb (a : P) (mu sigma : nat)
| NewIM (f : nat)
| NewEdp (base dep : nat)
| NewCompound (base dep second : nat)
| NewFrag (a : P)
| NewLoss (a : P)
| NewGrp (a : P) (e f : nat) (cost delay : option nat)
| NewStr
| SetCollapse (i : nat) (c : option P)
| SetDemolition (i : nat) (d : option P)
| Replace (o o' : nat)
| Destroy (o : nat)
| AddGrp (t g : nat)
| RemoveGrp (t g : nat)
| SetRebuild (t : nat) (c : P)
| SetDemolitionCost (t : nat) (c : P)
| SetSettings (p : P)
| ClearAll
| Query (q : query).

(** Which C++ class an object has (the static types in /repo/src/functions.h,
    relationships.h, fragility.h, loss_functions.h, comp_group.h, structure.h). *)
Definition is_det s o := match node_of s o with Some (NDet _) => true | _ => false end.
(** As above (functions.h, relationships.h, fragility.h, loss_functions.h,
    comp_group.h, structure.h). *)
Definition is_prob s o := match node_of s o with Some (NProb _) => true | _ => false end.
(** As above (functions.h, relationships.h, fragility.h, loss_functions.h,
    comp_group.h, structure.h). *)
Definition is_im s o := match node_of s o with Some (NIM _ _) => true | _ => false end.
(** As above (functions.h, relationships.h, fragility.h, loss_functions.h,
    comp_group.h, structure.h). *)
Definition is_edp s o := match node_of s o with Some NEdp => true | Some NCompound => true | _ => false end.
(** As above (functions.h, relationships.h, fragility.h, loss_functions.h,
    comp_group.h, structure.h). *)
Definition is_frag s o := match node_of s o with Some (NFrag _) => true | _ => false end.
(** As above (functions.h, relationships.h, fragility.h, loss_functions.h,
    comp_group.h, structure.h). *)
Definition is_loss s o := match node_of s o with Some (NLoss _) => true | _ => false end.
(** As above (functions.h, relationships.h, fragility.h, loss_functions.h,
    comp_group.h, structure.h). *)
Definition is_grp s o := match node_of s o with Some (NGrp _) => true | _ => false end.
(** As above (functions.h, relationships.h, fragility.h, loss_functions.h,
    comp_group.h, structure.h). *)
Definition is_str s o := match node_of s o with Some (NStr _ _) => true | _ => false end.

(** Cost and delay functions may be null (/repo/src/comp_group.cpp 138, 163). *)
Definition opt_loss s (l : option nat) :=
  match l with Some l => is_loss s l | None => true end.

(** [replace] takes an object of the same C++ type
    (/repo/src/replaceable.h 106). *)
Definition same_type s o o' : bool :=
  (is_det s o && is_det s o') || (is_prob s o && is_prob s o') || (is_im s o && is_im s o')
  || (is_edp s o && is_edp s o') || (is_frag s o && is_frag s o')
  || (is_loss s o && is_loss s o') || (is_grp s o && is_grp s o').

(** Every pointer an object can own (those of [slot]). *)
Definition own_slots (ents : list nat) (a : nat) : list slot :=
  [SF a; SMu a; SSigma a; SBase a; SDep a; SSecond a; SEdp a; SFrag a; SCost a; SDelay a; SIm a]
  ++ map (SEntry a) ents.

(** Whether a shared pointer to an object remains.  Entries of a structure
    stay alive in the callbacks that captured them (structure.cpp 63), even
    when the entry has been removed or the structure destroyed. *)
Definition referenced (s : st) (o : nat) : bool :=
  existsb (fun a => existsb (fun sl => match ptr s sl with Some x => x =? o | None => false end)
                            (own_slots (seq 0 (fresh s)) a)) (seq 0 (fresh s)).

(** A new object at the next address ([make_shared]); addresses in /repo are
    the allocator's. *)
Definition alloc (n : node) (s : st) : st :=
  set_node_of (upd (node_of s) (fresh s) (Some n)) (set_fresh (S (fresh s)) s).

(** The pointers each destructor unregisters, in order:
    relationships.h 42-44, 184-187, 269-273 (followed by the base class's),
    functions.cpp 306-310, comp_group.cpp 202-215; a structure's does nothing
    (structure.h 23). *)
Definition dtor_slots (s : st) (o : nat) : list slot :=
  match node_of s o with
  | Some (NProb _) => [SMu o; SSigma o]
  | Some (NIM _ _) => [SF o]
  | Some NEdp => [SBase o; SDep o]
  | Some NCompound => [SBase o; SDep o; SSecond o; SBase o; SDep o]
  | Some (NGrp _) => [SEdp o; SFrag o; SCost o; SDelay o]
  | _ => []
  end.

(** Memory is released: the object, its pointers (not the entries, see
    [referenced]) and its caches are gone. *)
Definition release (o : nat) (s : st) : st :=
  let s := set_node_of (upd (node_of s) o None) s in
  let s := set_ptr (fun sl =>
    match sl with
    | SEntry _ _ => ptr s sl
    | _ => if owner sl =? o then None else ptr s sl
    end) s in
  let s := set_entries (upd (entries s) o []) s in
  wipe (fun k => kowner k =? o) s.

(** The measure a group belongs to (comp_group.h 197, [getIM]). *)
Definition im_of_grp (s : st) (g : nat) : option nat :=
  match ptr s (SEdp g) with
  | Some e => ptr s (SBase e)
  | None => None
  end.

(** [RemoveCompGroup] (structure.cpp 72-81): drop the first entry that holds
    the group; its callbacks stay. *)
Fixpoint drop_first (p : nat -> option nat) (g : nat) (l : list nat) : list nat :=
  match l with
  | [] => []
  | k :: r =>
      match p k with
      | Some g' => if g' =? g then r else k :: drop_first p g r
      | None => k :: drop_first p g r
      end
  end.

(** Comparison of pointers (/repo/src/structure.cpp 55). *)
Definition opt_eqb (a b : option nat) : bool :=
  match a, b with
  | Some x, Some y => x =? y
  | None, None => true
  | _, _ => false
  end.

(** [AddCompGroup] (structure.cpp 43-70); the result says whether it threw. *)
Definition do_add (t g : nat) (s : st) : st * bool :=
  let s := match entries s t, im_of_grp s g with
           | [], Some i => register (SIm t) i s
           | _, _ => s
           end in
  if opt_eqb (im_of_grp s g) (ptr s (SIm t)) then
    let k := fresh s in
    let s := register (SEntry t k) g (set_fresh (S k) s) in
    let s := set_entries (upd (entries s) t (entries s t ++ [k])) s in
    (wipe (clears (SIm t)) s, true)
  else (s, false).

(** What an operation reports; [Thrown] is the exception of structure.cpp 57. *)
Inductive result := Done | Value (v : option V) | Thrown | Illegal.

(** One operation.  [Illegal]: an argument is not an object of the right type,
    which C++ types and live handles exclude. *)
Definition gstep (s : st) (op : gop) : st * result :=
  match op with
  | NewDet a => (alloc (NDet a) s, Done)
  | NewFrag a => (alloc (NFrag a) s, Done)
  | NewLoss a => (alloc (NLoss a) s, Done)
  | NewStr => (alloc (NStr None None) s, Done)
  | NewProb a m g =>
      (* functions.cpp 281-304 *)
      if is_det s m && is_det s g then
        let o := fresh s in
        (register (SSigma o) g (register (SMu o) m (alloc (NProb a) s)), Done)
      else (s, Illegal)
  | NewIM f =>
      (* relationships.cpp 39-58 *)
      if is_det s f then
        let o := fresh s in (register (SF o) f (alloc (NIM None None) s), Done)
      else (s, Illegal)
  | NewEdp b d =>
      (* relationships.cpp 236-267 *)
      if is_im s b && is_prob s d then
        let o := fresh s in (register (SDep o) d (register (SBase o) b (alloc NEdp s)), Done)
      else (s, Illegal)
  | NewCompound b d d2 =>
      (* relationships.cpp 391-409 *)
      if is_im s b && is_prob s d && is_prob s d2 then
        let o := fresh s in
        (register (SSecond o) d2 (register (SDep o) d (register (SBase o) b (alloc NCompound s))), Done)
      else (s, Illegal)
  | NewGrp a e f c d =>
      (* comp_group.cpp 25-179 *)
      if is_edp s e && is_frag s f && opt_loss s c && opt_loss s d then
        let o := fresh s in
        let s := register (SFrag o) f (register (SEdp o) e (alloc (NGrp a) s)) in
        let s := match c with Some c => register (SCost o) c s | None => s end in
        let s := match d with Some d => register (SDelay o) d s | None => s end in
        (s, Done)
      else (s, Illegal)
  | SetCollapse i c =>
      (* relationships.h 74-86 *)
      match node_of s i with
      | Some (NIM _ d) =>
          let s := wipe (fun k => match k with KCollapse j => j =? i | _ => false end) s in
          (notify i (set_node_of (upd (node_of s) i (Some (NIM c d))) s), Done)
      | _ => (s, Illegal)
      end
  | SetDemolition i d =>
      (* relationships.h 106-118 *)
      match node_of s i with
      | Some (NIM c _) =>
          let s := wipe (fun k => match k with KDemolition j => j =? i | _ => false end) s in
          (notify i (set_node_of (upd (node_of s) i (Some (NIM c d))) s), Done)
      | _ => (s, Illegal)
      end
  | Replace o o' =>
      if same_type s o o' then (do_replace o o' s, Done) else (s, Illegal)
  | Destroy o =>
      match node_of s o with
      | Some _ =>
          if referenced s o then (s, Done)
          else (release o (fold_left unregister (dtor_slots s o) s), Done)
      | None => (s, Illegal)
      end
  | AddGrp t g =>
      if is_str s t && is_grp s g then
        let (s', ok) := do_add t g s in (s', if ok then Done else Thrown)
      else (s, Illegal)
  | RemoveGrp t g =>
      if is_str s t && is_grp s g then
        (set_entries (upd (entries s) t (drop_first (fun k => ptr s (SEntry t k)) g (entries s t))) s, Done)
      else (s, Illegal)
  | SetRebuild t c =>
      (* structure.h 42 *)
      match node_of s t with
      | Some (NStr _ d) => (set_node_of (upd (node_of s) t (Some (NStr (Some c) d))) s, Done)
      | _ => (s, Illegal)
      end
  | SetDemolitionCost t c =>
      (* structure.h 45 *)
      match node_of s t with
      | Some (NStr r _) => (set_node_of (upd (node_of s) t (Some (NStr r (Some c)))) s, Done)
      | _ => (s, Illegal)
      end
  | SetSettings p => (set_settings p s, Done)   (* maq.cpp: the settings object *)
  | ClearAll => (wipe (fun _ => true) s, Done)  (* caching.cpp: Clear_Caches *)
  | Query q => let (s', v) := do_query q s in (s', Value v)
  end.

(** A history from the empty state. *)
Definition gafter (p : P) (h : list gop) : st :=
  fold_left (fun s op => fst (gstep s op)) h (st0 p).

End Graph.
