(** What the figures of the object graph should be, read off the graph alone
    (no caches, no callbacks), and which histories are careful. *)

Require Import List Arith Bool.
From Verif Require Import Replaceable Graph.
Import ListNotations.

Section Spec.

Context {X V P : Type}.
Variable C : calcs X V P.

Notation state := (@st X V P).

(** ** Recomputation *)

(** A calculation whose questions are answered by plain functions. *)
Fixpoint pure {Q A} (ask : Q -> A) (c : comp V Q A) : V :=
  match c with
  | Ret v => v
  | Ask q k => pure ask (k (ask q))
  end.

(** The figures of a group, recomputed from what the group is made of. *)
Definition p_costdist (d : @grp_den P) x := c_costdist C (gd_frag d) (gd_cost d) (gd_data d) x.
Definition p_delaydist (d : @grp_den P) x := c_delaydist C (gd_frag d) (gd_delay d) (gd_data d) x.
Definition p_ecost p (d : @grp_den P) x :=
  pure (p_costdist d) (c_ecost C p (gd_edp d) (gd_data d) x).
Definition p_sdcost p (d : @grp_den P) x :=
  pure (fun q => match q with inl x => p_costdist d x | inr x => p_ecost p d x end)
       (c_sdcost C p (gd_edp d) (gd_data d) x).
Definition p_edelay p (d : @grp_den P) x :=
  pure (p_delaydist d) (c_edelay C p (gd_edp d) (gd_data d) x).
Definition p_sddelay p (d : @grp_den P) x :=
  pure (fun q => match q with inl x => p_delaydist d x | inr x => p_edelay p d x end)
       (c_sddelay C p (gd_edp d) (gd_data d) x).
Definition p_annual p (d : @grp_den P) :=
  pure (p_ecost p d) (c_annual C p (fst (fst (gd_edp d))) (gd_data d)).
Definition p_lambdacost p (d : @grp_den P) x :=
  pure (fun q => match q with inl x => p_ecost p d x | inr x => p_sdcost p d x end)
       (c_lambdacost C p (fst (fst (gd_edp d))) (gd_data d) x).
Definition p_rate p (d : @grp_den P) := c_rate C p (gd_edp d) (gd_frag d).

Definition p_grp p d (q : gquery X) : V :=
  match q with
  | GECost x => p_ecost p d x | GSDCost x => p_sdcost p d x
  | GEDelay x => p_edelay p d x | GSDDelay x => p_sddelay p d x
  | GAnnual => p_annual p d | GLambdaCost x => p_lambdacost p d x
  | GCostDist x => p_costdist d x | GDelayDist x => p_delaydist d x
  | GRate => p_rate p d
  end.

(** The mean and deviation of cost of every group. *)
Definition p_all p (gs : list (@grp_den P)) x : list (V * V) :=
  map (fun d => (p_ecost p d x, p_sdcost p d x)) gs.

(** ** What the objects are made of now *)

Definition det_is (s : state) (sl : slot) (a : P) : Prop :=
  exists d, ptr s sl = Some d /\ node_of s d = Some (NDet a).

Definition prob_is (s : state) (sl : slot) (d : prob_den P) : Prop :=
  exists p, ptr s sl = Some p /\ node_of s p = Some (NProb (fst (fst d))) /\
    det_is s (SMu p) (snd (fst d)) /\ det_is s (SSigma p) (snd d).

Definition im_is (s : state) (i : nat) (d : im_den P) : Prop :=
  node_of s i = Some (NIM (snd (fst d)) (snd d)) /\ det_is s (SF i) (fst (fst d)).

Definition edp_is (s : state) (e : nat) (d : edp_den P) : Prop :=
  (exists i, ptr s (SBase e) = Some i /\ im_is s i (fst (fst d))) /\
  prob_is s (SDep e) (snd (fst d)) /\
  match snd d with
  | None => node_of s e = Some NEdp
  | Some p2 => node_of s e = Some NCompound /\ prob_is s (SSecond e) p2
  end.

Definition loss_is (s : state) (sl : slot) (l : option P) : Prop :=
  match l with
  | None => ptr s sl = None
  | Some a => exists o, ptr s sl = Some o /\ node_of s o = Some (NLoss a)
  end.

Definition grp_is (s : state) (g : nat) (d : @grp_den P) : Prop :=
  node_of s g = Some (NGrp (gd_data d)) /\
  (exists e, ptr s (SEdp g) = Some e /\ edp_is s e (gd_edp d)) /\
  (exists f, ptr s (SFrag g) = Some f /\ node_of s f = Some (NFrag (gd_frag d))) /\
  loss_is s (SCost g) (gd_cost d) /\ loss_is s (SDelay g) (gd_delay d).

Definition str_im_is (s : state) (t : nat) (d : option (im_den P)) : Prop :=
  match d with
  | None => ptr s (SIm t) = None
  | Some d => exists i, ptr s (SIm t) = Some i /\ im_is s i d
  end.

(** The groups of a structure: one for each entry of its list, in order. *)
Definition grps_are (s : state) (t : nat) (gs : list (@grp_den P)) : Prop :=
  Forall2 (fun k d => exists g, ptr s (SEntry t k) = Some g /\ grp_is s g d) (entries s t) gs.

(** [current s q v]: [v] is the figure asked for by [q], recomputed from
    scratch from the objects as they are in state [s]. *)
Definition current (s : state) (q : @query X) (v : V) : Prop :=
  match q with
  | QCollapse i => exists d, im_is s i d /\
      v = c_collapse C (settings s) (fst (fst d)) (snd (fst d))
  | QDemolition i => exists d, im_is s i d /\
      v = c_demolition C (settings s) (fst (fst d)) (snd (fst d)) (snd d)
  | QLambda e x => exists d, edp_is s e d /\ v = c_lambda C (settings s) d x
  | QGrp g q => exists d, grp_is s g d /\ v = p_grp (settings s) d q
  | QAnnual t => exists r d i gs, node_of s t = Some (NStr r d) /\ str_im_is s t i /\
      grps_are s t gs /\
      v = pure (p_all (settings s) gs) (c_structure C (settings s) (length gs) i r d)
  | QTotal t x => exists r d i gs, node_of s t = Some (NStr r d) /\ str_im_is s t i /\
      grps_are s t gs /\
      v = pure (p_all (settings s) gs) (c_total C i r d x)
  end.

(** ** Careful histories

    [past] lists the objects that have replaced another one.  A careful program
    registers no new user with such an object, replaces by objects that nothing
    uses, does not replace the second response function of a compound demand
    parameter, does not reuse an emptied structure for another measure, and does
    not destroy structures. *)
Definition careful_op (s : state) (past : list nat) (op : @gop X P) : Prop :=
  match op with
  | NewProb _ m g => ~ In m past /\ ~ In g past
  | NewIM f => ~ In f past
  | NewEdp b d => ~ In b past /\ ~ In d past
  | NewCompound b d d2 => ~ In b past /\ ~ In d past /\ ~ In d2 past
  | NewGrp _ e f c d => ~ In e past /\ ~ In f past /\
      (forall l, c = Some l -> ~ In l past) /\ (forall l, d = Some l -> ~ In l past)
  | AddGrp t g => ~ In g past /\
      (entries s t = [] ->
       (ptr s (SIm t) = None \/ ptr s (SIm t) = im_of_grp s g) /\
       (forall i, im_of_grp s g = Some i -> ~ In i past))
  | Replace o o' => o <> o' /\ (forall sl, ptr s sl <> Some o') /\
      (forall e, ptr s (SSecond e) <> Some o)
  | Destroy o => is_str s o = false
  | _ => True
  end.

Definition past_after (past : list nat) (op : @gop X P) : list nat :=
  match op with Replace _ o' => o' :: past | _ => past end.

Fixpoint careful_from (s : state) (past : list nat) (h : list gop) : Prop :=
  match h with
  | [] => True
  | op :: r => careful_op s past op /\
               careful_from (fst (gstep C s op)) (past_after past op) r
  end.

Definition careful (p : P) (h : list gop) : Prop := careful_from (st0 p) [] h.

(** No change of the integration settings since the caches were last all
    cleared. *)
Definition settled_step (b : bool) (op : @gop X P) : bool :=
  match op with
  | SetSettings _ => false
  | ClearAll => true
  | _ => b
  end.
Definition settled (h : list gop) : bool := fold_left settled_step h true.

(** ** Quiet stretches

    [quiet ok s h]: every operation of [h], run from [s], is one [ok] allows.
    [quiet_since clr ok p h]: that holds of [h] from its start, or from
    immediately after some operation [clr] describes. *)
Fixpoint quiet (ok : state -> @gop X P -> Prop) (s : state) (h : list gop) : Prop :=
  match h with
  | [] => True
  | op :: r => ok s op /\ quiet ok (fst (gstep C s op)) r
  end.

Definition quiet_since (clr ok : state -> @gop X P -> Prop) (p : P) (h : list gop) : Prop :=
  exists h1 h2, h = h1 ++ h2 /\
    (h1 = [] \/ exists h0 op, h1 = h0 ++ [op] /\ clr (gafter C p h0) op) /\
    quiet ok (gafter C p h1) h2.

(** What calls for a new collapse or demolition rate, and the operations that
    do not leave an old one in place while changing what it depends on. *)
Definition clears_collapse (i : nat) (s : state) (op : @gop X P) : Prop :=
  op = ClearAll \/ exists c, op = SetCollapse i c /\ snd (gstep C s op) = Done.
Definition quiet_collapse (i : nat) (s : state) (op : @gop X P) : Prop :=
  match op with
  | Replace o _ => ptr s (SF i) <> Some o
  | SetSettings _ => False
  | _ => True
  end.
Definition clears_demolition (i : nat) (s : state) (op : @gop X P) : Prop :=
  op = ClearAll \/ exists d, op = SetDemolition i d /\ snd (gstep C s op) = Done.
Definition quiet_demolition (i : nat) (s : state) (op : @gop X P) : Prop :=
  match op with
  | Replace o _ => ptr s (SF i) <> Some o
  | SetCollapse j _ => j <> i
  | SetSettings _ => False
  | _ => True
  end.

(** [feeds s t o]: the structure [t] uses [o], directly or through others.
    Entries that have been removed do not count. *)
Definition live (s : state) (sl : slot) : Prop :=
  match sl with SEntry t k => In k (entries s t) | _ => True end.
Inductive feeds (s : state) (t : nat) : nat -> Prop :=
| feeds_here : forall sl o, owner sl = t -> live s sl -> ptr s sl = Some o -> feeds s t o
| feeds_next : forall a sl o, feeds s t a -> owner sl = a -> ptr s sl = Some o -> feeds s t o.

(** What a structure is told about: its groups, its measure, and its measure's
    hazard function. *)
Definition told (s : state) (t o : nat) : Prop :=
  (exists k, ptr s (SEntry t k) = Some o) \/
  (exists i, ptr s (SIm t) = Some i /\ (o = i \/ ptr s (SF i) = Some o)).

Definition clears_annual (t : nat) (s : state) (op : @gop X P) : Prop :=
  op = ClearAll \/ (exists g, op = AddGrp t g /\ snd (gstep C s op) = Done).
Definition quiet_annual (t : nat) (s : state) (op : @gop X P) : Prop :=
  match op with
  | Replace o _ => ~ feeds s t o \/ told s t o
  | SetCollapse i _ | SetDemolition i _ => ~ feeds s t i \/ ptr s (SIm t) = Some i
  | RemoveGrp t' _ | SetRebuild t' _ | SetDemolitionCost t' _ => t' <> t
  | SetSettings _ => False
  | _ => True
  end.

(** ** Contents of a structure *)

(** Taking the first occurrence out of a list. *)
Inductive taken {A} (g : A) : list A -> list A -> Prop :=
| taken_absent : forall l, ~ In g l -> taken g l l
| taken_first : forall l1 l2, ~ In g l1 -> taken g (l1 ++ g :: l2) (l1 ++ l2).

(** [listed h t l]: after the history [h], the groups added to [t] and not
    removed are [l], in order of addition. *)
Inductive listed (p : P) (t : nat) : list (@gop X P) -> list nat -> Prop :=
| listed_nil : listed p t [] []
| listed_add : forall h l g, listed p t h l ->
    snd (gstep C (gafter C p h) (AddGrp t g)) = Done -> listed p t (h ++ [AddGrp t g]) (l ++ [g])
| listed_rejected : forall h l g, listed p t h l ->
    snd (gstep C (gafter C p h) (AddGrp t g)) <> Done -> listed p t (h ++ [AddGrp t g]) l
| listed_remove : forall h l l' g, listed p t h l ->
    snd (gstep C (gafter C p h) (RemoveGrp t g)) = Done -> taken g l l' ->
    listed p t (h ++ [RemoveGrp t g]) l'
| listed_invalid : forall h l g, listed p t h l ->
    snd (gstep C (gafter C p h) (RemoveGrp t g)) <> Done -> listed p t (h ++ [RemoveGrp t g]) l
| listed_other : forall h l op, listed p t h l ->
    (forall g, op <> AddGrp t g /\ op <> RemoveGrp t g) -> listed p t (h ++ [op]) l.

(** Operations other than replacement. *)
Definition plain_op (op : @gop X P) : Prop :=
  match op with Replace _ _ => False | _ => True end.

(** [i] is the measure the group's demand parameter is based on. *)
Definition measure_of (s : state) (g i : nat) : Prop :=
  exists e, ptr s (SEdp g) = Some e /\ ptr s (SBase e) = Some i.

(** Replacements that do not move a demand parameter or a group from one
    measure to another. *)
Definition keeps_measures (s : state) (op : @gop X P) : Prop :=
  match op with
  | Replace o o' =>
      (forall i, ptr s (SBase o) = Some i -> ptr s (SBase o') = Some i) /\
      (forall i, measure_of s o i -> measure_of s o' i)
  | _ => True
  end.

(** ** What claims say *)

(** Every operation of the history has valid arguments and succeeds. *)
Fixpoint legal_from (s : state) (h : list (@gop X P)) : Prop :=
  match h with
  | [] => True
  | op :: r => snd (gstep C s op) <> Illegal /\ snd (gstep C s op) <> Thrown /\
               legal_from (fst (gstep C s op)) r
  end.
Definition legal (p : P) (h : list gop) : Prop := legal_from (st0 p) h.

(** Asked [q] after [h], the program answers with the figure recomputed from
    the objects as they are. *)
Definition right_after (p : P) (h : list gop) (q : @query X) : Prop :=
  exists v, snd (gstep C (gafter C p h) (Query q)) = Value (Some v) /\
            current (gafter C p h) q v.

(** Asked [q] after [h], all of whose calls are in order, the program answers
    with a figure that is not the one recomputed. *)
Definition stale_after (p : P) (h : list gop) (q : @query X) : Prop :=
  legal p h /\ bad (gafter C p h) = false /\
  exists v, snd (gstep C (gafter C p h) (Query q)) = Value (Some v) /\
            ~ current (gafter C p h) q v.

End Spec.

(** ** An instance, to exhibit cases: every figure adds up the numbers it
    depends on. *)
Definition on (o : option nat) : nat := match o with Some a => S a | None => 0 end.
Definition im_sum (d : im_den nat) : nat := fst (fst d) + on (snd (fst d)) + on (snd d).
Definition prob_sum (d : prob_den nat) : nat := fst (fst d) + snd (fst d) + snd d.
Definition edp_sum (d : edp_den nat) : nat :=
  im_sum (fst (fst d)) + prob_sum (snd (fst d)) +
  match snd d with Some p => prob_sum p | None => 0 end.
Definition oim_sum (d : option (im_den nat)) : nat := match d with Some d => im_sum d | None => 0 end.
Definition pair_sum (l : list (nat * nat)) : nat := fold_right (fun a n => fst a + snd a + n) 0 l.
Definition adding : calcs nat nat nat :=
  Calcs nat nat nat Nat.eq_dec
    (fun p f c => p + f + on c)
    (fun p f c d => p + f + on c + on d)
    (fun p e x => p + edp_sum e + x)
    (fun f c a x => f + on c + a + x)
    (fun f d a x => f + on d + a + x)
    (fun p e a x => Ask x (fun v => Ret (p + edp_sum e + a + v)))
    (fun p e a x => Ask (inl x) (fun v => Ask (inr x) (fun w => Ret (p + edp_sum e + a + v + w))))
    (fun p e a x => Ask x (fun v => Ret (p + edp_sum e + a + v)))
    (fun p e a x => Ask (inl x) (fun v => Ask (inr x) (fun w => Ret (p + edp_sum e + a + v + w))))
    (fun p i a => Ask 1 (fun v => Ask 2 (fun w => Ret (p + im_sum i + a + v + w))))
    (fun p i a x => Ask (inl x) (fun v => Ask (inr x) (fun w => Ret (p + im_sum i + a + v + w))))
    (fun p e f => p + edp_sum e + f)
    (fun p n i r d => Ask 1 (fun l => Ret (p + n + oim_sum i + on r + on d + pair_sum l)))
    (fun i r d x => Ask x (fun l => Ret (oim_sum i + on r + on d + pair_sum l))).
