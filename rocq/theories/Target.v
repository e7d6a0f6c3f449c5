(** Which object a recorder is about.

    Sources: /repo/src/SlatInterpreter.py 599-622 (the command looks its object up by
    name), /repo/src/pyslat.py 1437-1475 (the recorder keeps it), 1700-1950 (and asks
    it when it is run).

    Simplifications: those of Script.v; a recorder is reduced to one of the figures
    it shows; types of recorders that ask other objects (detfn, probfn, dsedp) are
    left out here. *)

Require Import List Arith Bool.
From Verif Require Import Replaceable Graph Script.
Import ListNotations.

Section Target.

Context {X V P : Type}.
Variable C : calcs X V P.

(** The figures recorders show (pyslat.py 1700-1950): of a measure, a demand
    parameter, a group, a structure. *)
Inductive figure :=
| RCollapse | RDemolition        (* pyslat.py, type collrate *)
| RLambda (x : X)                (* type edprate *)
| RGrp (q : gquery X)            (* types costim, delayim, costrate, dsrate *)
| RAnnual                        (* type structcost without at *)
| RTotal (x : X).                (* type totalcost *)

(** The dictionary the command looks in (SlatInterpreter.py 602-619). *)
Definition sort_of (f : figure) : sort :=
  match f with
  | RCollapse | RDemolition => TIm
  | RLambda _ => TEdp
  | RGrp _ => TGrp
  | RAnnual | RTotal _ => TStr
  end.

(** The question put to an object (pyslat.py 1700-1950). *)
Definition question (f : figure) (o : nat) : @query X :=
  match f with
  | RCollapse => QCollapse o
  | RDemolition => QDemolition o
  | RLambda x => QLambda o x
  | RGrp q => QGrp o q
  | RAnnual => QAnnual o
  | RTotal x => QTotal o x
  end.

(** The recorder made by the command, after some script, for the name [n]
    (SlatInterpreter.py 602-622; pyslat.py 1449): the object, if there is one. *)
Definition target (s : @sst X V P) (f : figure) (n : nat) : option nat := names s (sort_of f) n.

(** What it shows when it is run in state [s] (pyslat.py 1682-1694). *)
Definition shown (s : @sst X V P) (f : figure) (o : nat) : option V := snd (do_query C (question f o) (graph s)).

End Target.

Arguments figure : clear implicits.
