(** * Reading what the library writes of its objects (C97) *)
From Coq Require Import ZArith Bool Ascii String List Reals Floats.SpecFloat.
From Flocq Require Import Core BinarySingleNaN.
From Verif Require Import Num Double_spec Report_spec Shown.
Import ListNotations.

(** Two numbers that agree to five digits: equal, or finite, of one sign and close. *)
Definition alike (x y : F64) : Prop :=
  x = y \/
  exists s m e n f, x = S754_finite s m e /\ y = S754_finite s n f /\
    (Rabs (SF2R radix2 x - SF2R radix2 y) <= (Rabs (SF2R radix2 x) + Rabs (SF2R radix2 y)) * (5 / 1000000))%R.

(** Two curves of one kind with parameters alike. Tables are not compared. *)
Inductive like : curve -> curve -> Prop :=
| like_basic : like Basic Basic
| like_hyperbolic v i a v' i' a' : alike v v' -> alike i i' -> alike a a' -> like (Hyperbolic v i a) (Hyperbolic v' i' a')
| like_power a b a' b' : alike a a' -> alike b b' -> like (Power a b) (Power a' b')
| like_linear p p' : like (Linear p) (Linear p')
| like_loglog p p' : like (LogLog p) (LogLog p').

(** Parameters are doubles. *)
Definition curve_doubles (c : curve) : Prop :=
  match c with
  | Hyperbolic v i a => double v /\ double i /\ double a
  | Power a b => double a /\ double b
  | _ => True
  end.
Definition response_doubles (r : response) : Prop := curve_doubles (re_mu r) /\ curve_doubles (re_sigma r).
Definition demand_doubles (d : demand) : Prop :=
  curve_doubles (me_curve (de_measure d)) /\ response_doubles (de_first d).
Definition loss_doubles (l : loss) : Prop :=
  match l with Simple l => Forall (fun d => double (snd d)) l | BiLevel _ => True end.

(** Demand parameters with hazard curve and first response alike. *)
Definition demands_like (d d' : demand) : Prop :=
  like (me_curve (de_measure d)) (me_curve (de_measure d')) /\
  like (re_mu (de_first d)) (re_mu (de_first d')) /\ like (re_sigma (de_first d)) (re_sigma (de_first d')).

(** Distributions with means and dispersions alike; [mean] gives means. *)
Definition dists_like (mean : F64 * F64 -> F64) (l l' : list (F64 * F64)) : Prop :=
  Forall2 (fun d d' => alike (mean d) (mean d') /\ alike (snd d) (snd d')) l l'.

(** Loss functions of one kind, with distributions alike if simple. *)
Inductive losses_like (mean : F64 * F64 -> F64) : loss -> loss -> Prop :=
| both_simple l l' : dists_like mean l l' -> losses_like mean (Simple l) (Simple l')
| both_levels l l' : losses_like mean (BiLevel l) (BiLevel l').

(** How often a character occurs. *)
Definition times (c : ascii) (t : list ascii) : nat := count_occ ascii_dec t c.

(** A number as it is read, to five digits: with its sign, infinite, or none. *)
Definition signed (s : bool) (t : list ascii) : list ascii := if s then "-"%char :: t else t.
Inductive number_read : list ascii -> F64 -> Prop :=
| read_nought s : number_read (signed s ["0"%char]) (S754_zero s)
| read_infinite s : number_read (signed s ["i"; "n"; "f"]%char) (S754_infinity s)
| read_none : number_read ["n"; "a"; "n"]%char S754_nan
| read_finite s t v m e :
    decimal t v -> (Rabs (v - SF2R radix2 (S754_finite false m e)) <= SF2R radix2 (S754_finite false m e) * (5 / 1000000))%R ->
    number_read (signed s t) (S754_finite s m e).

(** ** What stands where *)

Notation txt := list_ascii_of_string.
Local Open Scope list_scope.

(** The name of a kind of curve, and its parameters in the order in which they are defined. *)
Inductive curve_read : list ascii -> curve -> Prop :=
| curve_basic : curve_read (txt "Deterministic Function") Basic
| curve_hyperbolic s v t i u a : number_read s v -> number_read t i -> number_read u a ->
    curve_read (txt "Hyperbolic(" ++ s ++ txt ", " ++ t ++ txt ", " ++ u ++ txt ")") (Hyperbolic v i a)
| curve_power s a t b : number_read s a -> number_read t b ->
    curve_read (txt "Power(" ++ s ++ txt ", " ++ t ++ txt ")") (Power a b)
| curve_linear p : curve_read (txt "LinearInterpolatedFn") (Linear p)
| curve_loglog p : curve_read (txt "LogLogInterpolatedFn") (LogLog p).

(** The curve of the measure, and the two of the first response. *)
Definition demand_read (t : list ascii) (d : demand) : Prop :=
  exists a b c, curve_read a (me_curve (de_measure d)) /\ curve_read b (re_mu (de_first d)) /\ curve_read c (re_sigma (de_first d)) /\
    t = txt "EDP((IM(" ++ a ++ txt "), LogNormal(" ++ b ++ txt ", " ++ c ++ txt "))".

(** Distributions one after the other, each with mean and dispersion. *)
Inductive dists_read (mean : F64 * F64 -> F64) : list ascii -> list (F64 * F64) -> Prop :=
| dists_none : dists_read mean [] []
| dists_next s t r d l : number_read s (mean d) -> number_read t (snd d) -> dists_read mean r l ->
    dists_read mean (txt "(lognormal mean=" ++ s ++ txt ", sd_ln=" ++ t ++ txt "); " ++ r) (d :: l).

(** A loss function: its distributions, if simple. *)
Inductive loss_read (mean : F64 * F64 -> F64) : list ascii -> loss -> Prop :=
| loss_simple t l : dists_read mean t l -> loss_read mean (txt "SimpleLossFn: " ++ t ++ [ascii_of_nat 10]) (Simple l)
| loss_levels l : loss_read mean (txt "LossFn: " ++ [ascii_of_nat 10]) (BiLevel l).

(** A whole number with its sign. *)
Definition whole (t : list ascii) (n : Z) : Prop :=
  exists s, number s (Z.abs n) /\ t = signed (n <? 0)%Z s.

(** Name, number of components, demand parameter, damage states, costs and delays. *)
Definition group_read (mean : F64 * F64 -> F64) (t : list ascii) (g : group) (cost delay : loss) : Prop :=
  exists n e f c d, whole n (gr_count g) /\ demand_read e (gr_demand g) /\ dists_read mean f (gr_states g) /\
    loss_read mean c cost /\ loss_read mean d delay /\
    t = txt "CompGroup " ++ txt (gr_name g) ++ txt ": " ++ n ++ txt ", " ++ e ++
        txt ", FragilityFn: " ++ f ++ [ascii_of_nat 10] ++ txt ", " ++ c ++ txt ", " ++ d ++ [ascii_of_nat 10].
