(** * What calculations mean, without caches and without threads *)
From Coq Require Import List Arith.
From Verif Require Import Cache CVal Nested.
Import ListNotations.

Section Spec.
  Context {O V T : Type}.
  Variable body : O -> V -> @prog O V T.

  (** The result of a program in which every question is answered by doing the calculation
      on the spot, and the parts of a parallel region are done one after the other. *)
  Inductive means : @prog O V T -> T -> Prop :=
  | means_ret : forall r, means (Ret r) r
  | means_ask : forall o v k a r, means (body o v) a -> means (k a) r -> means (Ask o v k) r
  | means_par : forall ps k rs r, Forall2 means ps rs -> means (k rs) r -> means (Par ps k) r.

  (** Every question of a program, whatever answers it gets, is for a cache in [P]. *)
  Inductive asks_only (P : O -> Prop) : @prog O V T -> Prop :=
  | asks_ret : forall r, asks_only P (Ret r)
  | asks_ask : forall o v k, P o -> (forall a, asks_only P (k a)) -> asks_only P (Ask o v k)
  | asks_par : forall ps k, Forall (asks_only P) ps -> (forall rs, asks_only P (k rs)) ->
      asks_only P (Par ps k).

  (** Calculations only ask what the relation [uses] allows. *)
  Definition follows (uses : O -> O -> Prop) : Prop :=
    forall o v, asks_only (uses o) (body o v).

  (** The relation has a height. *)
  Definition layered (uses : O -> O -> Prop) : Prop :=
    exists h : O -> nat, forall o o', uses o o' -> h o' < h o.

  (** Calculations do not tell apart what the cache takes for the same: arguments with the
      same key, or any two arguments if the cache holds a single value. *)
  Definition same_entry {K} (key : V -> K) (is_value : O -> bool) : Prop :=
    forall o v v', is_value o = true \/ key v = key v' ->
      forall r, means (body o v) r -> means (body o v') r.
End Spec.

(** A task has finished, with a result. *)
Definition finished {O V K T} (s : @nstate O V K T) (i : nat) (r : T) : Prop :=
  n_tasks s i = Some (Fin r).

(** Nothing wrong was done with the locks, and no calculation was started twice. *)
Definition sound {V K T} (kdec : forall x y : K, {x = y} + {x <> y}) (os : @ostate V K T) : Prop :=
  match os with
  | OFun s => g_viol s = [] /\ forall k, count_occ kdec (g_starts s) k <= 1
  | OVal s => h_starts s <= 1 /\ ~ In VVDuplicate (h_viol s) /\ ~ In VVLock (h_viol s)
  end.

(** Every answer a cache has given is the result of the calculation for that argument. *)
Definition answers_right {O V K T} (body : O -> V -> @prog O V T) (o : O) (os : @ostate V K T) : Prop :=
  match os with
  | OFun s => forall i e, In e (th_log (s_ths s i)) ->
      exists r, en_answer e = Some r /\ means body (body o (en_arg e)) r
  | OVal s => forall i e v, In e (vt_log (c_ths s i)) ->
      exists r, ve_answer e = Some r /\ means body (body o v) r
  end.
