(** The Python side of the objects: what the wrappers remember.

    Sources: /repo/src/pyslat.py.  Script.v identifies each Python object with the
    C++ object it wraps; here the attributes of the Python objects are kept apart
    from the pointers inside the library.  An attribute holds the Python object
    given when the owner was made; [_func.replace] (593, 732, 873, 987, 1127)
    changes only the pointers.

    Simplifications, besides those of Script.v:
    - a wrapper has the number of the C++ object it wraps ([_func], [_structure]),
      which it keeps for life;
    - a wrapper that an attribute of another refers to is not freed by Python, but
      the C++ object behind it may be freed here at any time once it is out of the
      dictionaries ([Collect]): the theorems about what is shown speak of the
      objects asked, not of whether they still exist;
    - attributes that refer to no other object ([_type], [_params], [_count],
      [_plot_max], [_collapse], ...) are left out. *)

Require Import List Arith Bool.
From Verif Require Import Replaceable Graph Script.
Import ListNotations.

Section Wrapper.

Context {X V P : Type}.
Variable C : calcs X V P.

(** The attributes that refer to other wrappers. *)
Inductive wrapper :=
| WDet                                                  (* pyslat.py 377-399 *)
| WProb (mu sigma : nat)                                (* pyslat.py 469-480: _mu_func[1], _sigma_func[1] *)
| WIm (detfn : nat)                                     (* pyslat.py 585 *)
| WEdp (im fn : nat) (fn2 : option nat)                 (* pyslat.py 719-724 *)
| WFrag                                                 (* pyslat.py 862-940 *)
| WLoss                                                 (* pyslat.py 976-1066 *)
| WGrp (edp frag cost : nat) (delay : option nat)       (* pyslat.py 1107-1113 *)
| WStr (im : option nat).                               (* pyslat.py 1267 *)

(** The attributes a definition gives to the object it makes: what the names
    stand for at the time (pyslat.py 470-471, 585, 719-724, 1107-1113, 1267; the
    names are looked up by SlatInterpreter.py 209, 215, 242, 362-365).
    A compound demand parameter remembers the two demand parameters it was made
    from. *)
Definition made (d : dict) (c : @cmd X P) : option wrapper :=
  match c with
  | DefDet _ _ => Some WDet
  | DefProb _ _ m g =>
      match d TDet m, d TDet g with Some m, Some g => Some (WProb m g) | _, _ => None end
  | DefIm _ f => match d TDet f with Some f => Some (WIm f) | None => None end
  | DefEdp _ i f =>
      match d TIm i, d TProb f with Some i, Some f => Some (WEdp i f None) | _, _ => None end
  | DefCompound _ i x y =>
      match d TIm i, d TEdp x, d TEdp y with
      | Some i, Some x, Some y => Some (WEdp i x (Some y))
      | _, _, _ => None
      end
  | DefFrag _ _ => Some WFrag
  | DefLoss _ _ => Some WLoss
  | DefGrp _ _ e f c dl =>
      match d TEdp e, d TFrag f, maybe d TLoss c with
      | Some e, Some f, Some c => Some (WGrp e f c (maybe d TLoss dl))
      | _, _, _ => None
      end
  | DefStr _ => Some (WStr None)
  | _ => None
  end.

(** A script and its Python objects: the attributes of each and its [_id]
    (structures have none: pyslat.py 1264-1269). *)
Record pst := PS {
  base : @sst X V P;
  wraps : nat -> option wrapper;
  ids : nat -> option nat
}.

(** [get_IM]: of a demand parameter (pyslat.py 761-762), a group (1142-1143), a
    structure (1282-1283). *)
Definition get_IM (w : nat -> option wrapper) (o : nat) : option nat :=
  match w o with
  | Some (WEdp i _ _) => Some i
  | Some (WGrp e _ _ _) => match w e with Some (WEdp i _ _) => Some i | _ => None end
  | Some (WStr i) => i
  | _ => None
  end.

(** [fragfn] of a group (pyslat.py 1145-1147). *)
Definition fragfn (w : nat -> option wrapper) (o : nat) : option nat :=
  match w o with Some (WGrp _ f _ _) => Some f | _ => None end.

(** The fragility function whose probabilities the recorder of damage states by
    demand shows for a group: [self._function.fragfn().pExceeded(x)] (pyslat.py
    1585), that is, the contents of the object behind [fragfn]. *)
Definition ds_shown (s : pst) (g : nat) : option P :=
  match fragfn (wraps s) g with
  | Some f => match node_of (graph (base s)) f with Some (NFrag a) => Some a | _ => None end
  | None => None
  end.

(** How an addition to a structure ends: the call returns, Python raises (the
    [ValueError], or rather the [TypeError] of putting its message together, at
    pyslat.py 1304-1306), or the exception of structure.cpp 57 ends the process
    (see C71). *)
Inductive answer := AOk | ARaise | AEnd.

(** [self._im == None] or [self._im == group.get_IM()] (pyslat.py 1300-1303); the
    classes have no [__eq__], so that objects are compared by identity. *)
Definition im_agrees (w : nat -> option wrapper) (t g : nat) : bool :=
  match w t with
  | Some (WStr (Some i)) => opt_eqb (Some i) (get_IM w g)
  | _ => true
  end.

(** [structure.AddCompGroup] (pyslat.py 1298-1306): the library first, then the
    comparison.  An unknown name gives None, without the methods called
    (SlatInterpreter.py 375-378). *)
Definition add_answer (s : pst) (t g : nat) : answer :=
  match names (base s) TStr t, names (base s) TGrp g with
  | Some ot, Some og =>
      match snd (gstep C (graph (base s)) (AddGrp ot og)) with
      | Done => if im_agrees (wraps s) ot og then AOk else ARaise
      | Thrown => AEnd
      | _ => ARaise
      end
  | _, _ => ARaise
  end.

(** One command: what it does to the library and the dictionaries (Script.v), and
    to the attributes: a definition gives those of the new object (sources at
    [made]), an addition that the library accepts sets the measure of a structure
    that has none (pyslat.py 1299-1301). *)
Definition pstep (s : pst) (c : @cmd X P) : pst :=
  let b := base s in
  let o := fresh (graph b) in
  PS (sstep C b c)
     (match call (names b) (graph b) c, c with
      | Some _, AddTo t g =>
          match names b TStr t, names b TGrp g with
          | Some ot, Some og =>
              match snd (gstep C (graph b) (AddGrp ot og)), wraps s ot with
              | Done, Some (WStr None) => upd (wraps s) ot (Some (WStr (get_IM (wraps s) og)))
              | _, _ => wraps s
              end
          | _, _ => wraps s
          end
      | Some _, _ =>
          match defines c with
          | Some _ => upd (wraps s) o (made (names b) c)
          | None => wraps s
          end
      | None, _ => wraps s
      end)
     (match call (names b) (graph b) c, defines c with
      | Some _, Some (TStr, n) => ids s
      | Some _, Some (k, n) => upd (ids s) o (Some n)
      | _, _ => ids s
      end).

(** A whole script (SlatInterpreter.py 80-400 walks the parse tree
    command by command; as [script] in Script.v). *)
Definition pscript (p : P) (l : list (@cmd X P)) : pst :=
  fold_left pstep l (PS (SS (st0 p) (fun _ _ => None) []) (fun _ => None) (fun _ => None)).

End Wrapper.
