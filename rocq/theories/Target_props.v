(** Property C67: recorders and redefinition. *)

Require Import List Arith.
From Verif Require Import Replaceable Graph Graph_spec Script Script_spec Script_proofs Target Target_spec Target_proofs.
From Verif Require Import Graph_claims_proofs.
Import ListNotations.

(** Full statement: whenever it is run, a recorder shows the figures of the
    definition in force of the object it names.  False, even in careful scripts: *)
Theorem C67_recorder_refuted : exists (l l' : list (@cmd nat nat)) f n,
  careful_script adding 0 (l ++ l') /\ target (script adding 0 l) f n <> None /\ ~ up_to_date adding 0 l l' f n.
Proof. exact refute_target. Qed.
Print Assumptions C67_recorder_refuted.

(** It does so if the name is not defined again between the recorder's definition
    and its running. *)
Theorem C67_recorder_partial : forall X V P (C : calcs X V P) p l l' f k n o,
  careful_script C p (l ++ l') -> figure_of C f k -> target (script C p l) f n = Some o ->
  ~ redefined_in C p l l' k n -> up_to_date C p l l' f n.
Proof. exact @not_redefined. Qed.
Print Assumptions C67_recorder_partial.

(** The object it asks is the one in force exactly in this case. *)
Theorem C67_object : forall X V P (C : calcs X V P) p l l' f k n o,
  careful_script C p (l ++ l') -> figure_of C f k -> target (script C p l) f n = Some o ->
  (names (script C p (l ++ l')) k n = Some o <-> ~ redefined_in C p l l' k n).
Proof. exact @target_object. Qed.
Print Assumptions C67_object.

(** The measure below the parameter is redefined, the parameter not; the recorder
    follows. *)
Example C67_case :
  let l := before in let l' := [DefDet 2 7; DefIm 0 2] in
  careful_script adding 0 (l ++ l') /\ figure_of adding (RLambda 1) TEdp /\
  target (script adding 0 l) (RLambda 1) 0 = Some 4 /\
  ~ redefined_in adding 0 l l' TEdp 0 /\
  shown adding (script adding 0 l) (RLambda 1) 4 <> shown adding (script adding 0 (l ++ l')) (RLambda 1) 4.
Proof.
  refine (conj _ (conj _ (conj eq_refl (conj _ _)))).
  - apply scriptb_ok. vm_compute. reflexivity.
  - intros g. exists 0. eexists. constructor.
  - intros (a & c & b & E & H & _). destruct a as [|x [|y [|z a]]]; cbn in E; try discriminate.
    + injection E as <- _. discriminate.
    + injection E as _ <- _. discriminate.
  - vm_compute. discriminate.
Qed.
