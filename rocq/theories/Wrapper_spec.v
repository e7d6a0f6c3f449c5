(** What Python objects should say of each other: what the library uses
    (/repo/slat-lang.org 323-374, 552-905; pyslat.py 1285-1293). *)

Require Import List Arith Bool.
From Verif Require Import Replaceable Graph Script Script_spec Target_spec Wrapper.
Import ListNotations.

Section Spec.

Context {X V P : Type}.
Variable C : calcs X V P.

(** The wrapper of [o], with the attributes [w], says that what the library keeps
    in the pointer [sl] of [o], an object of sort [k], is [v].  (The two demand
    parameters a compound one was made from are not among its inputs: it uses
    their functions.) *)
Inductive says (o : nat) : wrapper -> slot -> sort -> nat -> Prop :=
| says_mu : forall m g, says o (WProb m g) (SMu o) TDet m
| says_sigma : forall m g, says o (WProb m g) (SSigma o) TDet g
| says_f : forall f, says o (WIm f) (SF o) TDet f
| says_base : forall i f f2, says o (WEdp i f f2) (SBase o) TIm i
| says_dep : forall i f, says o (WEdp i f None) (SDep o) TProb f
| says_edp : forall e f c d, says o (WGrp e f c d) (SEdp o) TEdp e
| says_frag : forall e f c d, says o (WGrp e f c d) (SFrag o) TFrag f
| says_cost : forall e f c d, says o (WGrp e f c d) (SCost o) TLoss c
| says_delay : forall e f c d, says o (WGrp e f c (Some d)) (SDelay o) TLoss d.

(** What an object is given when it is made, by the part it plays. *)
Inductive role := RMu | RSigma | RFunction | RMeasure | RResponse | RFirst | RSecond | RDemand | RFragility | RCost | RDelay.

(** What the names in a definition are given for (/repo/slat-lang.org 323-374,
    552-905). *)
Inductive gives : @cmd X P -> role -> sort -> nat -> Prop :=
| gives_mu : forall n a m g, gives (DefProb n a m g) RMu TDet m
| gives_sigma : forall n a m g, gives (DefProb n a m g) RSigma TDet g
| gives_function : forall n f, gives (DefIm n f) RFunction TDet f
| gives_measure : forall n i f, gives (DefEdp n i f) RMeasure TIm i
| gives_response : forall n i f, gives (DefEdp n i f) RResponse TProb f
| gives_measure2 : forall n i x y, gives (DefCompound n i x y) RMeasure TIm i
| gives_first : forall n i x y, gives (DefCompound n i x y) RFirst TEdp x
| gives_second : forall n i x y, gives (DefCompound n i x y) RSecond TEdp y
| gives_demand : forall n a e f c d, gives (DefGrp n a e f c d) RDemand TEdp e
| gives_fragility : forall n a e f c d, gives (DefGrp n a e f c d) RFragility TFrag f
| gives_cost : forall n a e f c d, gives (DefGrp n a e f (Some c) d) RCost TLoss c
| gives_delay : forall n a e f c d, gives (DefGrp n a e f c (Some d)) RDelay TLoss d.

(** What attributes show as having been given for each part. *)
Inductive shows : wrapper -> role -> nat -> Prop :=
| shows_mu : forall m g, shows (WProb m g) RMu m
| shows_sigma : forall m g, shows (WProb m g) RSigma g
| shows_function : forall f, shows (WIm f) RFunction f
| shows_measure : forall i f g, shows (WEdp i f g) RMeasure i
| shows_response : forall i f, shows (WEdp i f None) RResponse f
| shows_first : forall i x y, shows (WEdp i x (Some y)) RFirst x
| shows_second : forall i x y, shows (WEdp i x (Some y)) RSecond y
| shows_demand : forall e f c d, shows (WGrp e f c d) RDemand e
| shows_fragility : forall e f c d, shows (WGrp e f c d) RFragility f
| shows_cost : forall e f c d, shows (WGrp e f c d) RCost c
| shows_delay : forall e f c d, shows (WGrp e f c (Some d)) RDelay d.

(** The object [o] still exists. *)
Definition exists_in (s : @pst X V P) (o : nat) : Prop := node_of (graph (base s)) o <> None.

(** What the library uses is what the wrapper says. *)
Definition uses (s : @pst X V P) (sl : slot) (v : nat) : Prop := ptr (graph (base s)) sl = Some v.

(** The measure of a group: its demand parameter's, in the library. *)
Definition depends (s : @pst X V P) (g i : nat) : Prop :=
  exists e, uses s (SEdp g) e /\ uses s (SBase e) i.

(** What [n] stands for. *)
Definition means (s : @pst X V P) (k : sort) (n o : nat) : Prop := names (base s) k n = Some o.

(** The name of the measure a definition of a demand parameter refers to. *)
Definition measure_name (c : @cmd X P) : option (nat * nat) :=
  match c with
  | DefEdp n i _ | DefCompound n i _ _ => Some (n, i)
  | _ => None
  end.

(** Demand parameters are never defined again on another measure: of any two
    definitions of one, both refer to one measure by name. *)
Definition steady (l : list (@cmd X P)) : Prop :=
  forall c c' n i i', In c l -> In c' l -> measure_name c = Some (n, i) -> measure_name c' = Some (n, i') -> i = i'.

(** The same library objects, names and attributes; remembered figures may
    differ. *)
Definition unchanged (s s' : @pst X V P) : Prop :=
  same_objects (base s) (base s') /\ (forall o, wraps s' o = wraps s o) /\ (forall o, ids s' o = ids s o).

(** The group was added at the end of the structure, and nothing else changed
    there. *)
Definition added_to (s s' : @pst X V P) (t g i : nat) : Prop :=
  groups (graph (base s')) t = groups (graph (base s)) t ++ [Some g] /\ uses s' (SIm t) i /\
  (forall u, u <> t -> groups (graph (base s')) u = groups (graph (base s)) u) /\
  same_names (base s) (base s') /\ same_nodes (base s) (base s').

End Spec.
