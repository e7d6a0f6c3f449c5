(** C91: what a structure leads to is found by name. *)
Require Import List Arith.
From Verif Require Import Graph Graph_spec Script Script_spec Script_proofs Wrapper Wrapper_spec Wrapper_proofs Names_proofs2.
Import ListNotations.

(** Full statement: the groups of a structure, their demand parameters and the measures of
    these are current definitions of names.  False: a group of a structure is defined again,
    added to another structure, and defined a third time; the first structure keeps the
    second definition. *)
Theorem C91_structure_refuted : exists (l : list (@cmd nat nat)) a t j g,
  means (pscript adding 0 l) TStr a t /\ In j (entries (graph (base (pscript adding 0 l))) t) /\
  uses (pscript adding 0 l) (SEntry t j) g /\ forall n, ~ means (pscript adding 0 l) TGrp n g.
Proof. exact refute_structure_named. Qed.
Print Assumptions C91_structure_refuted.

(** It holds of careful scripts, which refer to nothing that has been defined twice; and
    the objects go by these names. *)
Theorem C91_structure_partial : forall X V P (C : calcs X V P) p l t j g, careful_script C p l ->
  let s := pscript C p l in
  uses s (SEntry t j) g ->
  exists n e m i a, means s TGrp n g /\ ids s g = Some n /\ uses s (SEdp g) e /\ means s TEdp m e /\ ids s e = Some m /\
    uses s (SBase e) i /\ means s TIm a i /\ ids s i = Some a.
Proof. exact @structure_named. Qed.
Print Assumptions C91_structure_partial.

(** A structure whose group and its demand parameter are defined again. *)
Example C91_structure_met :
  let l := start ++ [DefStr 0; AddTo 0 0; DefGrp 0 1 0 0 (Some 0) None; DefEdp 0 0 0] in
  careful_script adding 0 l /\ uses (pscript adding 0 l) (SEntry 9 10) 11 /\ uses (pscript adding 0 l) (SEdp 11) 12.
Proof. split; [apply scriptb_ok; vm_compute; reflexivity|]. split; vm_compute; reflexivity. Qed.
