(** * C92: every method of the Python classes gives the figure it names *)
From Coq Require Import List String ZArith Bool Lia.
From Verif Require Import Methods Methods_spec Methods_proofs.
Import ListNotations.
Local Open Scope string_scope.

(** Full statement: whatever arguments of the kinds documented a method is given, the
    library is asked for the figure documented, with these arguments in this order, and the
    answer has the form documented.  False: a probabilistic function gives no figure at
    all, as its class is not declared in the bindings. *)
Theorem C92_method_refuted :
  forall (T : Type) (of_int : Z -> T) (x : T),
    exists m ks f g vs cs,
      says m ks f g /\ Forall2 (fun kv c => fits of_int (fst kv) (snd kv) c) (combine ks vs) cs /\
      List.length vs = List.length ks /\ ask of_int m vs <> Says f cs g.
Proof. exact (fun T of_int x => refute_method of_int x). Qed.
Print Assumptions C92_method_refuted.

(** Everything else is as documented. *)
Theorem C92_method_partial :
  forall (T : Type) (of_int : Z -> T) (m : method) (ks : list kind) (f : string) (g : form) (vs : list (value T))
         (cs : list (cvalue T)),
    says m ks f g -> Forall2 (fun kv c => fits of_int (fst kv) (snd kv) c) (combine ks vs) cs ->
    List.length vs = List.length ks -> ~ exempt m vs -> ask of_int m vs = Says f cs g.
Proof. exact (fun T of_int => as_documented of_int). Qed.
Print Assumptions C92_method_partial.

Example C92_method_ok :
  ask (T := Z) (fun z => z) EdpX [VFloat 3%Z; VInt 4] = Says "EDP::X_at_exceedence" [CDouble 3%Z; CDouble 4%Z] PyNumber.
Proof.
  apply (C92_method_partial Z (fun z => z) EdpX [Number; Number]);
  [constructor | repeat constructor | reflexivity | unfold exempt, of_probfn].
  intuition (try discriminate).
Qed.

(** Whatever it is given, no method ever gives another figure than the one documented, nor
    for other arguments or in another order; the only answer in another form is that of
    [DeaggregatedCost]. *)
Theorem C92_no_other :
  forall (T : Type) (of_int : Z -> T) (m : method) (vs : list (value T)) (f : string) (cs : list (cvalue T)) (g : form),
    ask of_int m vs = Says f cs g ->
    Forall2 (same of_int) vs cs /\
    exists ks g', says m ks f g' /\ List.length vs = List.length ks /\ (g' = g \/ m = StrDeaggregated).
Proof. exact (fun T of_int => only_documented of_int). Qed.
Print Assumptions C92_no_other.

Example C92_no_other_ok :
  ask (T := Z) (fun z => z) StrCost [VInt 5; VBool true] = Says "Structure::Cost" [CDouble 5%Z; CBool true] PyLognormal.
Proof. reflexivity. Qed.

(** The documentation names one figure for each method. *)
Theorem C92_one_figure :
  forall (m : method) (ks ks' : list kind) (f f' : string) (g g' : form),
    says m ks f g -> says m ks' f' g' -> ks = ks' /\ f = f' /\ g = g'.
Proof. exact one_figure. Qed.
Print Assumptions C92_one_figure.

Example C92_one_figure_ok : says GrpDelayIm [Number] "CompGroup::E_delay_IM" PyNumber.
Proof. constructor. Qed.

(** Full statement: every method documented gives its figure for some arguments.  False of
    the class [probfn] and of the cost of a group over years: whatever numbers they are
    given, there is no such attribute. *)
Theorem C92_attribute_fails :
  forall (T : Type) (of_int : Z -> T) (m : method) (ks : list kind) (f : string) (g : form) (vs : list (value T)),
    of_probfn m \/ m = GrpCost -> says m ks f g -> List.length vs = List.length ks -> ask of_int m vs = NoAttribute.
Proof. exact (fun T of_int => no_figure of_int). Qed.
Print Assumptions C92_attribute_fails.

Example C92_attribute_ok : ask (T := Z) (fun z => z) GrpCost [VInt 50; VFloat 3%Z] = NoAttribute.
Proof. apply (C92_attribute_fails Z (fun z => z) GrpCost [Number; Number] "CompGroup::E_cost" PyNumber); [now right | constructor | reflexivity]. Qed.

(** Only these lack an attribute. *)
Theorem C92_attribute_partial :
  forall (T : Type) (of_int : Z -> T) (m : method) (vs : list (value T)),
    ask of_int m vs = NoAttribute -> of_probfn m \/ m = GrpCost.
Proof. exact (fun T of_int => lacking of_int). Qed.
Print Assumptions C92_attribute_partial.

Example C92_lacking_ok : ask (T := Z) (fun z => z) ProbSD [VInt 50] = NoAttribute.
Proof. reflexivity. Qed.

(** Full statement: the cost of a structure over years is given for any number of years.
    False of a number that is not an integer of Python's, though it be whole. *)
Theorem C92_years_refuted :
  forall (T : Type) (of_int : Z -> T),
    exists v c, fits of_int Number v c /\ forall l, ask of_int StrECost [v; l] = Refused.
Proof. exact (fun T of_int => refute_years of_int). Qed.
Print Assumptions C92_years_refuted.

(** It is given exactly for integers of 32 bits. *)
Theorem C92_years_partial :
  forall (T : Type) (of_int : Z -> T) (z : Z) (l : value T) (c : cvalue T),
    fits of_int Number l c ->
    ((- (2 ^ 31) <= z < 2 ^ 31)%Z -> ask of_int StrECost [VInt z; l] = Says "Structure::E_cost" [CInt z; c] PyNumber) /\
    (~ (- (2 ^ 31) <= z < 2 ^ 31)%Z -> ask of_int StrECost [VInt z; l] = Refused).
Proof. exact (fun T of_int => whole_years of_int). Qed.
Print Assumptions C92_years_partial.

Example C92_years_ok :
  ask (T := Z) (fun z => z) StrECost [VInt 50; VFloat 3%Z] = Says "Structure::E_cost" [CInt 50; CDouble 3%Z] PyNumber.
Proof. apply C92_years_partial; [constructor | lia]. Qed.

(** Full statement: a cost that a structure gave can be given to it.  False: it comes
    wrapped, and only what is inside is taken. *)
Theorem C92_returned_fails :
  forall (T : Type) (of_int : Z -> T) (m : method) (d : nat),
    m = StrSetRebuild \/ m = StrSetDemolition \/ m = ImSetCollapse \/ m = ImSetDemolition ->
    ask of_int m [VLognormal d] = Refused.
Proof. exact (fun T of_int => returned of_int). Qed.
Print Assumptions C92_returned_fails.

Example C92_returned_ok :
  exists cs, ask (T := Z) (fun z => z) StrGetRebuild [] = Says "Structure::getRebuildCost" cs PyLognormal.
Proof. eexists. reflexivity. Qed.

(** What they take is a distribution of the bindings, and nothing else; the documentation
    of the probabilities of collapse and demolition asks for a function, which is refused. *)
Theorem C92_setters_partial :
  forall (T : Type) (of_int : Z -> T) (m : method) (f : string) (v : value T),
    (m = StrSetRebuild /\ f = "Structure::setRebuildCost") \/ (m = StrSetDemolition /\ f = "Structure::setDemolitionCost") \/
    (m = ImSetCollapse /\ f = "IM::SetCollapse") \/ (m = ImSetDemolition /\ f = "IM::SetDemolition") ->
    (exists d, v = VDist d /\ ask of_int m [v] = Says f [CDist d] PyNone) \/
    ((forall d, v <> VDist d) /\ ask of_int m [v] = Refused).
Proof. exact (fun T of_int => setters of_int). Qed.
Print Assumptions C92_setters_partial.

Example C92_setters_ok : ask (T := Z) (fun z => z) ImSetCollapse [VDist 3] = Says "IM::SetCollapse" [CDist 3] PyNone.
Proof. reflexivity. Qed.

(** Full statement: deaggregated costs come as [lognormaldist].  False, for every number. *)
Theorem C92_deaggregated_fails :
  forall (T : Type) (of_int : Z -> T) (v : value T) (c : cvalue T),
    fits of_int Number v c -> ask of_int StrDeaggregated [v] = Says "Structure::DeaggregatedCost" [c] PyDists.
Proof. exact (fun T of_int => deaggregated of_int). Qed.
Print Assumptions C92_deaggregated_fails.

Example C92_deaggregated_ok : fits (T := Z) (fun z => z) Number (VInt 2) (CDouble 2%Z).
Proof. constructor. Qed.

(** Full statement: the hint for plotting is the one last set, or [None].  False: asking a
    simple demand parameter that was given none raises an exception. *)
Theorem C92_hint_refuted :
  forall T : Type, exists p (vs : list (value T)), hint_get (fold_left hint_set vs (hint_made p)) <> Some (last_set vs).
Proof. exact (fun T => refute_hint (T := T)). Qed.
Print Assumptions C92_hint_refuted.

(** It is for all others, and for it too once one is set. *)
Theorem C92_hint_partial :
  forall (T : Type) (p : plotted) (vs : list (value T)),
    p <> PlotSimple \/ vs <> [] -> hint_get (fold_left hint_set vs (hint_made p)) = Some (last_set vs).
Proof. exact (fun T => hint_kept (T := T)). Qed.
Print Assumptions C92_hint_partial.

Example C92_hint_ok :
  hint_get (fold_left hint_set [VInt 3; VInt 4] (hint_made (T := Z) PlotSimple)) = Some (Some (VInt 4)).
Proof. apply C92_hint_partial. right. discriminate. Qed.
