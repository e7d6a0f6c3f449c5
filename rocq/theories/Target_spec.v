(** Which object a recorder should be about: the one its name stands for when it is
    run (/repo/slat-lang.org 385-390, 870-905). *)

Require Import List Arith Bool.
From Verif Require Import Replaceable Graph Script Script_spec Target.
Import ListNotations.

Section Spec.

Context {X V P : Type}.
Variable C : calcs X V P.

(** The sort of object each figure is a figure of, and the figure of the object [o]
    in a graph (/repo/slat-lang.org 552-870). *)
Inductive meant (g : @Graph.st X V P) : figure X -> sort -> nat -> option V -> Prop :=
| m_collapse : forall o, meant g RCollapse TIm o (snd (do_query C (QCollapse o) g))
| m_demolition : forall o, meant g RDemolition TIm o (snd (do_query C (QDemolition o) g))
| m_lambda : forall x o, meant g (RLambda x) TEdp o (snd (do_query C (QLambda o x) g))
| m_group : forall q o, meant g (RGrp q) TGrp o (snd (do_query C (QGrp o q) g))
| m_annual : forall o, meant g RAnnual TStr o (snd (do_query C (QAnnual o) g))
| m_total : forall x o, meant g (RTotal x) TStr o (snd (do_query C (QTotal o x) g)).

(** A recorder made after the script [l] for the name [n], run after going on with
    [l'], shows the figure meant of the definition of [n] then in force. *)
Definition up_to_date (p : P) (l l' : list (@cmd X P)) (f : figure X) (n : nat) : Prop :=
  exists o k o', target (script C p l) f n = Some o /\ names (script C p (l ++ l')) k n = Some o' /\
    meant (graph (script C p (l ++ l'))) f k o' (shown C (script C p (l ++ l')) f o).

(** The sort of object a figure belongs to. *)
Definition figure_of (f : figure X) (k : sort) : Prop := forall g, exists o v, meant g f k o v.

(** Going on with [l'] after [l], the name [n] of sort [k] is given a new
    definition. *)
Definition redefined_in (p : P) (l l' : list (@cmd X P)) (k : sort) (n : nat) : Prop :=
  exists a c b, l' = a ++ c :: b /\ defines c = Some (k, n) /\
    call (names (script C p (l ++ a))) (graph (script C p (l ++ a))) c <> None.

End Spec.
