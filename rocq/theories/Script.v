(** Scripts: definitions by name over the object graph.

    Sources: /repo/src/pyslat.py, the classes detfn, probfn, im, edp, fragfn,
    lossfn, compgroup and structure, each with a dictionary [defs] from names to
    the latest definition.

    Simplifications:
    - names are numbers; every definition has a name (id = None, a definition
      outside the dictionaries, is left out);
    - a definition that refers to an unknown name changes nothing (the
      interpreter raises), except for the delay function of a group;
    - the Python wrapper objects are identified with the C++ objects they wrap;
    - Python frees an object at some time after it is out of the dictionaries:
      any time at all ([Collect]), but structures are never freed (see C57). *)

Require Import List Arith Bool.
From Verif Require Import Replaceable Graph Graph_spec.
Import ListNotations.

Section Script.

Context {X V P : Type}.
Variable C : calcs X V P.
Notation state := (@st X V P).

(** The dictionaries (pyslat.py 350, 432, 559, 696, 848, 953, 1074, 1246). *)
Inductive sort := TDet | TProb | TIm | TEdp | TFrag | TLoss | TGrp | TStr.

(** Equality of sorts; no counterpart in /repo. *)
Definition sort_eqb (a b : sort) : bool :=
  match a, b with
  | TDet, TDet | TProb, TProb | TIm, TIm | TEdp, TEdp | TFrag, TFrag | TLoss, TLoss
  | TGrp, TGrp | TStr, TStr => true
  | _, _ => false
  end.

(** [defs]: the latest definition of each name. *)
Definition dict := sort -> nat -> option nat.
(** [self.defs[id] = self] (pyslat.py 399, 480, 594, 733, 874, 988, 1128, 1269). *)
Definition define (d : dict) (k : sort) (n o : nat) : dict :=
  fun k' n' => if sort_eqb k' k && (n' =? n) then Some o else d k' n'.

(** What a script can do. *)
Inductive cmd :=
| DefDet (n : nat) (a : P)                               (* pyslat.py 377-399 *)
| DefProb (n : nat) (a : P) (mu sigma : nat)             (* pyslat.py 469-480 *)
| DefIm (n f : nat)                                      (* pyslat.py 583-594 *)
| DefEdp (n i f : nat)                                   (* pyslat.py 717-722, 729-733 *)
| DefCompound (n i x y : nat)                            (* pyslat.py 717-733, 187-191 *)
| DefFrag (n : nat) (a : P)                              (* pyslat.py 862-874 *)
| DefLoss (n : nat) (a : P)                              (* pyslat.py 976-988 *)
| DefGrp (n : nat) (a : P) (e f : nat) (c d : option nat) (* pyslat.py 1105-1128 *)
| DefStr (n : nat)                                       (* pyslat.py 1264-1269 *)
| AddTo (t g : nat)                                      (* pyslat.py 1298-1306 *)
| RemoveFrom (t g : nat)                                 (* pyslat.py 1311-1312 *)
| SetColl (i : nat) (c : option P)                       (* pyslat.py 651-653 *)
| SetDemo (i : nat) (c : option P)                       (* pyslat.py 672-674 *)
| Rebuild (t : nat) (c : P)                              (* pyslat.py 1317-1318 *)
| DemolitionCost (t : nat) (c : P)                       (* pyslat.py 1327-1328 *)
| Look (q : @query X)                                    (* recorders: any figure *)
| Collect (o : nat).                                     (* the garbage collector *)

(** The name a command defines. *)
Definition defines (c : cmd) : option (sort * nat) :=
  match c with
  | DefDet n _ => Some (TDet, n)
  | DefProb n _ _ _ => Some (TProb, n)
  | DefIm n _ => Some (TIm, n)
  | DefEdp n _ _ => Some (TEdp, n)
  | DefCompound n _ _ _ => Some (TEdp, n)
  | DefFrag n _ => Some (TFrag, n)
  | DefLoss n _ => Some (TLoss, n)
  | DefGrp n _ _ _ _ _ => Some (TGrp, n)
  | DefStr n => Some (TStr, n)
  | _ => None
  end.

(** Whether redefinition replaces the old object: yes at pyslat.py 593, 732,
    873, 987, 1127; not for functions (398-399, 479-480) and structures
    (1268-1269). *)
Definition replaces (k : sort) : bool :=
  match k with TIm | TEdp | TFrag | TLoss | TGrp => true | _ => false end.

(** A loss function of a group, e.g. [delay_id and pyslat.lossfn.lookup(delay_id)]
    (SlatInterpreter.py 363-364) with [delay and delay.function()] (pyslat.py
    1118-1119): an unknown name gives None, as no name does. *)
Definition maybe (d : dict) (k : sort) (n : option nat) : option nat :=
  match n with Some n => d k n | None => None end.

(** The library call a command makes (sources at [cmd]); [None] if a name is
    unknown.  A compound demand parameter is made from two others, whose
    functions at that time it takes (pyslatcore.cpp 519-528; pyslat.py 188 speaks
    of two probabilistic functions, but pyslatcore.i 116 takes no function there,
    so that such a call raises).  A group must have a cost function, as
    pyslatcore.i 175 takes no None there; without a delay function it gets a new
    one that nothing else refers to (pyslat.py 230-232), here: none. *)
Definition call (d : dict) (s : state) (c : cmd) : option (@gop X P) :=
  match c with
  | DefDet _ a => Some (NewDet a)
  | DefProb _ a m g =>
      match d TDet m, d TDet g with Some m, Some g => Some (NewProb a m g) | _, _ => None end
  | DefIm _ f => match d TDet f with Some f => Some (NewIM f) | None => None end
  | DefEdp _ i f => match d TIm i, d TProb f with Some i, Some f => Some (NewEdp i f) | _, _ => None end
  | DefCompound _ i x y =>
      match d TIm i, d TEdp x, d TEdp y with
      | Some i, Some x, Some y =>
          match ptr s (SDep x), ptr s (SDep y) with
          | Some f, Some f2 => Some (NewCompound i f f2)
          | _, _ => None
          end
      | _, _, _ => None
      end
  | DefFrag _ a => Some (NewFrag a)
  | DefLoss _ a => Some (NewLoss a)
  | DefGrp _ a e f c dl =>
      match d TEdp e, d TFrag f, maybe d TLoss c with
      | Some e, Some f, Some c => Some (NewGrp a e f (Some c) (maybe d TLoss dl))
      | _, _, _ => None
      end
  | DefStr _ => Some NewStr
  | AddTo t g => match d TStr t, d TGrp g with Some t, Some g => Some (AddGrp t g) | _, _ => None end
  | RemoveFrom t g => match d TStr t, d TGrp g with Some t, Some g => Some (RemoveGrp t g) | _, _ => None end
  | SetColl i c => match d TIm i with Some i => Some (SetCollapse i c) | None => None end
  | SetDemo i c => match d TIm i with Some i => Some (SetDemolition i c) | None => None end
  | Rebuild t c => match d TStr t with Some t => Some (SetRebuild t c) | None => None end
  | DemolitionCost t c => match d TStr t with Some t => Some (SetDemolitionCost t c) | None => None end
  | Look q => Some (Query q)
  | Collect o => Some (Destroy o)
  end.

(** All the library calls a command makes: a redefinition goes on to replace
    the old object by the one just made. *)
Definition calls (d : dict) (s : state) (c : cmd) : list (@gop X P) :=
  match call d s c with
  | None => []
  | Some op =>
      op :: match defines c with
            | Some (k, n) =>
                if replaces k then match d k n with Some o => [Replace o (fresh s)] | None => [] end
                else []
            | None => []
            end
  end.

(** The state of a script: the graph, the dictionaries, and (for the theorems)
    the calls so far. *)
Record sst := SS { graph : state; names : dict; trace : list (@gop X P) }.

(** One command: its library calls, and the new entry in the dictionary (sources
    at [cmd]). *)
Definition sstep (s : sst) (c : cmd) : sst :=
  let ops := calls (names s) (graph s) c in
  SS (fold_left (fun g op => fst (gstep C g op)) ops (graph s))
     (match call (names s) (graph s) c, defines c with
      | Some _, Some (k, n) => define (names s) k n (fresh (graph s))
      | _, _ => names s
      end)
     (trace s ++ ops).

(** A whole script, from empty dictionaries (SlatInterpreter.py walks the parse
    tree command by command). *)
Definition script (p : P) (l : list cmd) : sst :=
  fold_left sstep l (SS (st0 p) (fun _ _ => None) []).

End Script.
