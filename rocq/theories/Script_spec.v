(** What scripts should do, and which scripts are careful. *)

Require Import List Arith Bool.
From Verif Require Import Replaceable Graph Graph_spec Script.
Import ListNotations.

Section Spec.

Context {X V P : Type}.
Variable C : calcs X V P.

(** The objects that came about by redefinition so far. *)
Definition redefinitions (s : @sst X V P) : list nat :=
  flat_map (fun op => match op with Replace _ o => [o] | _ => [] end) (trace s).

(** A careful command refers to no redefined name in making a new object or
    adding a group, does not reuse an emptied structure for another measure (see
    [careful_op]); and objects are freed only once out of the dictionaries, and
    structures not at all. *)
Definition careful_cmd (s : @sst X V P) (c : @cmd X P) : Prop :=
  match call (names s) (graph s) c with
  | Some op => careful_op (graph s) (redefinitions s) op
  | None => True
  end /\
  match c with Collect o => forall k n, names s k n <> Some o | _ => True end.

Fixpoint careful_cmds (s : @sst X V P) (l : list cmd) : Prop :=
  match l with
  | [] => True
  | c :: r => careful_cmd s c /\ careful_cmds (sstep C s c) r
  end.

Definition careful_script (p : P) (l : list cmd) : Prop :=
  careful_cmds (SS (st0 p) (fun _ _ => None) []) l.

(** [c], run after the script [l], gives a new definition to [n], until then
    the object [o]. *)
Definition redefines (p : P) (l : list (@cmd X P)) (c : @cmd X P) (k : sort) (n o : nat) : Prop :=
  defines c = Some (k, n) /\ names (script C p l) k n = Some o /\
  call (names (script C p l)) (graph (script C p l)) c <> None.

(** Every pointer to the old definition leads to the new one afterwards. *)
Definition rewired (p : P) (l : list (@cmd X P)) (c : @cmd X P) (k : sort) (n o : nat) : Prop :=
  exists o', names (script C p (l ++ [c])) k n = Some o' /\ o' <> o /\
    forall sl, ptr (graph (script C p l)) sl = Some o ->
               ptr (graph (script C p (l ++ [c]))) sl = Some o'.

(** The compound demand parameter [m] uses the function of the parameter [x], as
    both are defined at the end of the script [l]. *)
Definition follows (p : P) (l : list (@cmd X P)) (m x : nat) : Prop :=
  exists om ox f, names (script C p l) TEdp m = Some om /\ names (script C p l) TEdp x = Some ox /\ 
    ptr (graph (script C p l)) (SDep om) = Some f /\ ptr (graph (script C p l)) (SDep ox) = Some f.

(** ** What each command does to the objects *)

(** Objects are freed only once out of the dictionaries; nothing else is asked of
    the script. *)
Definition tidy_cmd (s : @sst X V P) (c : @cmd X P) : Prop :=
  match c with Collect o => forall k n, names s k n <> Some o | _ => True end.

Fixpoint tidy_cmds (s : @sst X V P) (l : list cmd) : Prop :=
  match l with
  | [] => True
  | c :: r => tidy_cmd s c /\ tidy_cmds (sstep C s c) r
  end.

Definition tidy_script (p : P) (l : list cmd) : Prop :=
  tidy_cmds (SS (st0 p) (fun _ _ => None) []) l.

(** The names a command refers to. *)
Definition refers (c : @cmd X P) : list (sort * nat) :=
  let opt o := match o with Some n => [(TLoss, n)] | None => [] end in
  match c with
  | DefProb _ _ m g => [(TDet, m); (TDet, g)]
  | DefIm _ f => [(TDet, f)]
  | DefEdp _ i f => [(TIm, i); (TProb, f)]
  | DefCompound _ i x y => [(TIm, i); (TEdp, x); (TEdp, y)]
  | DefGrp _ _ e f c d => [(TEdp, e); (TFrag, f)] ++ opt c ++ opt d
  | AddTo t g | RemoveFrom t g => [(TStr, t); (TGrp, g)]
  | SetColl i _ | SetDemo i _ => [(TIm, i)]
  | Rebuild t _ | DemolitionCost t _ => [(TStr, t)]
  | _ => []
  end.

(** Between [s] and [s'] the name [n] was given a new object, of the contents
    [nd] and with the pointers [ps]; no other name and no other object changed,
    except that pointers to an old definition may lead to the new one. *)
Definition makes (s s' : @sst X V P) (k : sort) (n : nat) (nd : @node P)
  (ps : nat -> list (slot * option nat)) : Prop :=
  exists o,
    node_of (graph s) o = None /\ (forall k' n', names s k' n' <> Some o) /\
    (forall sl, ptr (graph s) sl <> Some o) /\
    names s' k n = Some o /\
    (forall k' n', (k', n') <> (k, n) -> names s' k' n' = names s k' n') /\
    node_of (graph s') o = Some nd /\
    (forall a, a <> o -> node_of (graph s') a = node_of (graph s) a) /\
    (forall sl v, In (sl, v) (ps o) -> ptr (graph s') sl = v) /\
    (forall sl, owner sl <> o -> ptr (graph s') sl = ptr (graph s) sl \/
       (ptr (graph s') sl = Some o /\ names s k n <> None)) /\
    entries (graph s') o = [] /\
    (forall t, entries (graph s') t = entries (graph s) t).

(** The same names for the same objects; remembered figures may differ. *)
Definition same_names (s s' : @sst X V P) : Prop := forall k n, names s' k n = names s k n.
Definition same_nodes (s s' : @sst X V P) : Prop := forall a, node_of (graph s') a = node_of (graph s) a.
Definition same_ptrs (s s' : @sst X V P) : Prop := forall sl, ptr (graph s') sl = ptr (graph s) sl.
Definition same_groups (s s' : @sst X V P) : Prop := forall t, groups (graph s') t = groups (graph s) t.
Definition same_objects (s s' : @sst X V P) : Prop :=
  same_names s s' /\ same_nodes s s' /\ same_ptrs s s' /\ same_groups s s'.

(** Only the contents of one object changed, from [nd] to [nd']. *)
Definition alters (s s' : @sst X V P) (o : nat) (nd nd' : @node P) : Prop :=
  same_names s s' /\ same_ptrs s s' /\ same_groups s s' /\
  node_of (graph s) o = Some nd /\ node_of (graph s') o = Some nd' /\
  (forall a, a <> o -> node_of (graph s') a = node_of (graph s) a).

(** The measure a group depends on. *)
Definition measured (s : @sst X V P) (g i : nat) : Prop :=
  exists e, ptr (graph s) (SEdp g) = Some e /\ ptr (graph s) (SBase e) = Some i.

(** [l'] is [l] without the first occurrence of [g], if any. *)
Inductive taken (g : nat) : list (option nat) -> list (option nat) -> Prop :=
| taken_none : taken g [] []
| taken_here : forall l, taken g (Some g :: l) l
| taken_later : forall x l l', x <> Some g -> taken g l l' -> taken g (x :: l) (x :: l').

(** A definition of a group that names a delay function which does not exist. *)
Definition delay_unknown (s : @sst X V P) (c : @cmd X P) : Prop :=
  exists n a e f x d, c = DefGrp n a e f x (Some d) /\ names s TLoss d = None.

Inductive does (s : @sst X V P) : @cmd X P -> @sst X V P -> Prop :=
| does_nothing : forall c s' k n, In (k, n) (refers c) -> names s k n = None -> same_objects s s' -> does s c s'
| does_refuse : forall n a e f d s', same_objects s s' -> does s (DefGrp n a e f None d) s'
| does_det : forall n a s', makes s s' TDet n (NDet a) (fun _ => []) -> does s (DefDet n a) s'
| does_prob : forall n a m g om og s', names s TDet m = Some om -> names s TDet g = Some og ->
    makes s s' TProb n (NProb a) (fun o => [(SMu o, Some om); (SSigma o, Some og)]) ->
    does s (DefProb n a m g) s'
| does_im : forall n f x s', names s TDet f = Some x ->
    makes s s' TIm n (NIM None None) (fun o => [(SF o, Some x)]) -> does s (DefIm n f) s'
| does_edp : forall n i f oi x s', names s TIm i = Some oi -> names s TProb f = Some x ->
    makes s s' TEdp n NEdp (fun o => [(SBase o, Some oi); (SDep o, Some x)]) -> does s (DefEdp n i f) s'
| does_compound : forall n i x y oi ox oy f1 f2 s',
    names s TIm i = Some oi -> names s TEdp x = Some ox -> names s TEdp y = Some oy ->
    ptr (graph s) (SDep ox) = Some f1 -> ptr (graph s) (SDep oy) = Some f2 ->
    makes s s' TEdp n NCompound (fun o => [(SBase o, Some oi); (SDep o, Some f1); (SSecond o, Some f2)]) ->
    does s (DefCompound n i x y) s'
| does_frag : forall n a s', makes s s' TFrag n (NFrag a) (fun _ => []) -> does s (DefFrag n a) s'
| does_loss : forall n a s', makes s s' TLoss n (NLoss a) (fun _ => []) -> does s (DefLoss n a) s'
| does_grp : forall n a e f c oe of oc s', names s TEdp e = Some oe -> names s TFrag f = Some of ->
    names s TLoss c = Some oc ->
    makes s s' TGrp n (NGrp a) (fun o => [(SEdp o, Some oe); (SFrag o, Some of); (SCost o, Some oc); (SDelay o, None)]) ->
    does s (DefGrp n a e f (Some c) None) s'
| does_grp2 : forall n a e f c d oe of oc od s', names s TEdp e = Some oe -> names s TFrag f = Some of ->
    names s TLoss c = Some oc -> names s TLoss d = Some od ->
    makes s s' TGrp n (NGrp a) (fun o => [(SEdp o, Some oe); (SFrag o, Some of); (SCost o, Some oc); (SDelay o, Some od)]) ->
    does s (DefGrp n a e f (Some c) (Some d)) s'
| does_str : forall n s', makes s s' TStr n (NStr None None) (fun o => [(SIm o, None)]) -> does s (DefStr n) s'
| does_add : forall t g ot og i s', names s TStr t = Some ot -> names s TGrp g = Some og -> measured s og i ->
    groups (graph s) ot = [] \/ ptr (graph s) (SIm ot) = Some i ->
    same_names s s' -> same_nodes s s' ->
    groups (graph s') ot = groups (graph s) ot ++ [Some og] -> ptr (graph s') (SIm ot) = Some i ->
    (forall u, u <> ot -> groups (graph s') u = groups (graph s) u) ->
    (forall sl, owner sl <> ot -> ptr (graph s') sl = ptr (graph s) sl) ->
    does s (AddTo t g) s'
| does_reject : forall t g ot og i s', names s TStr t = Some ot -> names s TGrp g = Some og -> measured s og i ->
    groups (graph s) ot <> [] -> ptr (graph s) (SIm ot) <> Some i -> same_objects s s' ->
    does s (AddTo t g) s'
| does_remove : forall t g ot og s', names s TStr t = Some ot -> names s TGrp g = Some og ->
    same_names s s' -> same_nodes s s' -> same_ptrs s s' ->
    taken og (groups (graph s) ot) (groups (graph s') ot) ->
    (forall u, u <> ot -> groups (graph s') u = groups (graph s) u) ->
    does s (RemoveFrom t g) s'
| does_coll : forall i x oi c d s', names s TIm i = Some oi ->
    alters s s' oi (NIM c d) (NIM x d) -> does s (SetColl i x) s'
| does_demo : forall i x oi c d s', names s TIm i = Some oi ->
    alters s s' oi (NIM c d) (NIM c x) -> does s (SetDemo i x) s'
| does_rebuild : forall t x ot r d s', names s TStr t = Some ot ->
    alters s s' ot (NStr r d) (NStr (Some x) d) -> does s (Rebuild t x) s'
| does_demolition : forall t x ot r d s', names s TStr t = Some ot ->
    alters s s' ot (NStr r d) (NStr r (Some x)) -> does s (DemolitionCost t x) s'
| does_look : forall q s', same_objects s s' -> does s (Look q) s'
| does_keep : forall o s', same_objects s s' -> does s (Collect o) s'
| does_free : forall o s', (forall sl, ptr (graph s) sl <> Some o) ->
    same_names s s' -> node_of (graph s') o = None ->
    (forall a, a <> o -> node_of (graph s') a = node_of (graph s) a) ->
    (forall sl, owner sl <> o -> ptr (graph s') sl = ptr (graph s) sl) ->
    (forall u, u <> o -> groups (graph s') u = groups (graph s) u) ->
    does s (Collect o) s'.

End Spec.
