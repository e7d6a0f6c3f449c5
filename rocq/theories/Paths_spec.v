(** Where a file of a given name should be. *)

Require Import Ascii String List Bool.
From Verif Require Import Paths.
Import ListNotations.

(** A name has an extension if it is some text with a character other than a dot,
    a dot, and further text without dots. *)
Definition has_extension (n : path) : Prop :=
  exists b e, n = b ++ dot :: e /\ ~ In dot e /\ exists c, In c b /\ c <> dot.

(** The file [n], without a directory, is in the directory [d]. *)
Definition inside (d n f : path) : Prop :=
  (exists d', d = d' ++ [slash] /\ f = d ++ n) \/
  ((forall d', d <> d' ++ [slash]) /\ f = d ++ slash :: n).

(** [f] is the file meant by [p], when the directory [d] has been set: in [d] if
    [p] names no directory; with ".csv" added to a name without extension. *)
Definition meant (d p f : path) : Prop :=
  exists f0,
    (In slash p -> f0 = p) /\ (~ In slash p -> inside d p f0) /\
    (forall h n, p = h ++ n -> ~ In slash n -> (h = [] \/ exists h', h = h' ++ [slash]) ->
       (has_extension n -> f = f0) /\ (~ has_extension n -> f = f0 ++ lit ".csv")).

(** The directory in use. *)
Definition in_use (set : option path) : path :=
  match set with Some d => match d with [] => lit "." | _ => d end | None => lit "." end.
