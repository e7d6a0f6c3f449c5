(** * The dictionaries of definitions (src/pyslat.py)

    Each class of definitions has a dictionary [defs] from the names given to the objects
    made.  An object wraps an object of the library ([_func], [_structure]), or nothing:
    fragility functions from a database and bare fragility and loss functions are
    placeholders with [_func = None].

    Simplifications:
    - names are numbers, no name is [None] (the interpreter gives strings);
    - recorders wrap no library object, but are given one here, which nothing uses;
    - making the library object is given by how it ends (see C39, C60, C71, C72 for when);
    - of the library, only which [replace] calls are made is kept, with their objects;
      what such a call does is the subject of Replaceable.v and Graph.v. *)
From Coq Require Import List Arith Bool.
Import ListNotations.

(** The classes with a dictionary (pyslat.py 350, 432, 559, 696, 848, 953, 1074, 1246,
    1412). *)
Inductive class := KDet | KProb | KIm | KEdp | KFrag | KLoss | KGrp | KStr | KRec.

(** Equality of classes, of which each has its own dictionary (pyslat.py 350, 432, 559). *)
Definition class_eqb (a b : class) : bool :=
  match a, b with
  | KDet, KDet | KProb, KProb | KIm, KIm | KEdp, KEdp | KFrag, KFrag | KLoss, KLoss | KGrp, KGrp
  | KStr, KStr | KRec, KRec => true
  | _, _ => false
  end.

(** Equality of names, as dictionaries compare their keys (pyslat.py 399, 404). *)
Definition key_eqb (a b : option nat) : bool :=
  match a, b with
  | Some m, Some n => m =? n
  | None, None => true
  | _, _ => false
  end.

(** A Python dictionary, which keeps the order of insertion: [d\[k\] = v] (pyslat.py 399). *)
Fixpoint put (d : list (option nat * nat)) (k : option nat) (v : nat) : list (option nat * nat) :=
  match d with
  | [] => [(k, v)]
  | (k', v') :: r => if key_eqb k' k then (k', v) :: r else (k', v') :: put r k v
  end.

(** [d.get(k)] (pyslat.py 404). *)
Fixpoint get (d : list (option nat * nat)) (k : option nat) : option nat :=
  match d with
  | [] => None
  | (k', v) :: r => if key_eqb k' k then Some v else get r k
  end.

(** The state: the dictionaries (pyslat.py 24-32), the library object each Python object
    wraps (393-396, 475, 586, 721-726, 862, 937, 976, 1023, 1050-1060, 1116, 1266), the numbers of the
    next Python object and the next library object, and the calls of [replace] so far. *)
Record state := St {
  defs : class -> list (option nat * nat);
  func : nat -> option nat;
  wrappers : nat;
  library : nat;
  handed : list (nat * nat)
}.

(** When pyslat is imported (pyslat.py 20-21, 350, 432, 559, 696, 848, 953, 1074, 1246,
    1412). *)
Definition initial : state := St (fun _ => []) (fun _ => None) 0 0 [].

(** How making the library object ends: it is made; Python raises; an exception the
    wrappers do not translate ends the process (pyslat.py 393-396, 475, 586, 721-726, 937,
    976, 1023, 1050-1060, 1116, 1266; see C71). *)
Inductive making := Makes | Refuses | Kills.

(** What is done: a definition of a class, with a name or [None] (pyslat.py 377, 469, 583,
    717, 931, 1013, 1046, 1107, 1264, 1437); a placeholder, a fragility function (861, 913)
    or a loss function (975); [ClearCaches] (23-32). *)
Inductive op :=
| New (c : class) (id : option nat) (m : making)
| Empty (frag : bool) (id : option nat)
| Clear.

(** How it ends: the call returns, raises, or the process ends (no counterpart; pyslatcore.i
    translates no exceptions). *)
Inductive answer := Fine | Raised | Ended.

(** Whether redefinition replaces the old object: pyslat.py 593, 732, 873, 987, 1127; not
    398-399, 479-480, 1268-1269, 1472-1473. *)
Definition replaces (c : class) : bool :=
  match c with KIm | KEdp | KFrag | KLoss | KGrp => true | _ => false end.

(** [defs\[id\] = self] (pyslat.py 399, 480, 594, 733, 874, 988, 1128, 1269, 1473). *)
Definition store (s : state) (c : class) (id : option nat) (w : nat) : state :=
  St (fun c' => if class_eqb c' c then put (defs s c) id w else defs s c') (func s) (wrappers s)
     (library s) (handed s).

(** The end of each constructor (pyslat.py 398-399, 479-480, 589-594, 728-733, 868-874,
    982-988, 1123-1128, 1268-1269, 1472-1473): the new object, number [wrappers s], which
    wraps [f], is put into the dictionary under its name; the old one of that name is
    replaced before.  [_func.replace] of a placeholder raises, as [None] has no attributes;
    given [None], it is called with a null pointer (pyslatcore.i 125, 134), which is
    followed (pyslatcore.cpp 588, 613).  Of the nameless only demand parameters get into
    the dictionary (733 is outside the test). *)
Definition register (s : state) (c : class) (id : option nat) (f : option nat) : answer * state :=
  let w := wrappers s in
  let made := St (defs s) (fun w' => if w' =? w then f else func s w') (S w)
                 (match f with Some _ => S (library s) | None => library s end) (handed s) in
  match id with
  | None => (Fine, match c with KEdp => store made c id w | _ => made end)
  | Some _ =>
      if replaces c then
        match get (defs s c) id with
        | None => (Fine, store made c id w)
        | Some old =>
            match func s old, f with
            | None, _ => (Raised, made)
            | Some _, None => (Ended, made)
            | Some o, Some n =>
                (Fine, store (St (defs made) (func made) (wrappers made) (library made) (handed made ++ [(o, n)])) c id w)
            end
        end
      else (Fine, store made c id w)
  end.

(** One call: a definition (pyslat.py 377-399, 469-480, 583-594, 717-733, 931-938,
    1013-1024, 1046-1062, 1107-1128, 1264-1269, 1437-1475), whose library object is made
    first; a placeholder (861-863, 913-915, 975-977); [ClearCaches] (23-32). *)
Definition step (s : state) (o : op) : answer * state :=
  match o with
  | New c id Makes => register s c id (Some (library s))
  | New c id Refuses => (Raised, s)
  | New c id Kills => (Ended, s)
  | Empty frag id => register s (if frag then KFrag else KLoss) id None
  | Clear => (Fine, St (fun _ => []) (func s) (wrappers s) (library s) (handed s))
  end.

(** A sequence of calls, up to the first that ends the process (a Python program catches
    what is raised): the answers and the state (a script, or a program using pyslat.py). *)
Fixpoint run (s : state) (l : list op) : list answer * state :=
  match l with
  | [] => ([], s)
  | o :: r =>
      match step s o with
      | (Ended, s') => ([Ended], s')
      | (a, s') => let (q, s'') := run s' r in (a :: q, s'')
      end
  end.

(** [lookup(id)] of a name, or of [None] (pyslat.py 404, 489, 610, 739, 881, 994, 1134,
    1274, 1481). *)
Definition lookup (s : state) (c : class) (id : option nat) : option nat := get (defs s c) id.

(** The answer of a search for a library object: returned, [None], an exception (pyslat.py
    743, 745). *)
Inductive found := Found (w : nat) | Nothing | Fails.

(** The loop over [defs.values()] with [AreSame] (pyslat.py 741-744, 883-886, 1136-1139;
    pyslatcore.cpp 493-496, 571-574, 713-716); [None] has no [AreSame]. *)
Fixpoint search (func : nat -> option nat) (d : list (option nat * nat)) (f : nat) : found :=
  match d with
  | [] => Nothing
  | (_, w) :: r =>
      match func w with
      | None => Fails
      | Some g => if g =? f then Found w else search func r f
      end
  end.

(** [lookup(f)] of a library object: for demand parameters, fragility functions and
    component groups (pyslat.py 737-745, 879-887, 1132-1140). *)
Definition lookup_object (s : state) (c : class) (f : nat) : found := search (func s) (defs s c) f.
