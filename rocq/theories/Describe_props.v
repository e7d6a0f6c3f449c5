(** Properties C89, C90: what print shows, and where it goes. *)
From Coq Require Import ZArith Ascii String List.
From Verif Require Import Paths Paths_spec Describe Describe_spec Describe_proofs.
Import ListNotations.
Local Open Scope string_scope.

(** ** C89: printing a definition shows it *)

(** Full statement: objects whose definitions differ are shown differently, part by
    part in the words of [told].  False of deterministic functions: *)
Theorem C89_detfn_refuted : forall F D (float_repr : F -> string) proxy, exists t t' : @thing F D,
  proper t /\ proper t' /\ t <> t' /\ describe float_repr proxy t = describe float_repr proxy t'.
Proof. exact @refute_detfn. Qed.
Print Assumptions C89_detfn_refuted.

(** Their type and parameters are never shown; the name stands where the parameters
    should. *)
Theorem C89_detfn_fails : forall F D (float_repr : F -> string) proxy id type params,
  describe float_repr proxy (Det id type params : @thing F D) =
    Some ("Deterministic Function '{}', of type '{}', from parameters " ++ id ++ ".") /\
  (plain id -> describe float_repr proxy (Det id type params : @thing F D) <>
     Some (told float_repr (Det id type params : @thing F D))).
Proof. exact @det_fails. Qed.
Print Assumptions C89_detfn_fails.

(** The distribution of a collapse is never shown, only where it is in memory. *)
Theorem C89_collapse_fails : forall F D (float_repr : F -> string) proxy id fn (c c' : @collapse D), c_address c = c_address c' ->
  describe float_repr proxy (Im id fn (Some c) : @thing F D) = describe float_repr proxy (Im id fn (Some c')).
Proof. exact @collapse_fails. Qed.
Print Assumptions C89_collapse_fails.

(** The function of such a measure is shown as when it is printed itself, not by its name. *)
Theorem C89_measure_partial : forall F D (float_repr : F -> string) proxy id fn type params (c : @collapse D) m,
  describe float_repr proxy (Det fn type params : @thing F D) = Some m ->
  describe float_repr proxy (Im id fn (Some c) : @thing F D) =
    Some ("Intensity measure '" ++ id ++ "', based on the deterministic function '" ++ m ++ "', with " ++
          proxy (c_address c)).
Proof. exact @measure. Qed.
Print Assumptions C89_measure_partial.

Example C89_measure_case : exists m, describe (fun _ : bool => "") (fun _ => "<Dist>") (Im "im" "rate" (Some (Collapse tt 7)) : @thing bool unit) = Some m.
Proof. eexists. reflexivity. Qed.

(** The second part of a compound demand parameter is never shown. *)
Theorem C89_compound_fails : forall F D (float_repr : F -> string) proxy id im fn x y,
  describe float_repr proxy (Edp id im fn x : @thing F D) = describe float_repr proxy (Edp id im fn y : @thing F D).
Proof. exact @compound_fails. Qed.
Print Assumptions C89_compound_fails.

(** A group without delays looks like one with the delay function "None". *)
Theorem C89_none_refuted : forall F D (float_repr : F -> string) proxy, exists id edp frag cost d count a b,
  proper (Group id edp frag cost d count a b : @thing F D) /\ proper (Group id edp frag cost None count a b : @thing F D) /\
  d <> None /\ describe float_repr proxy (Group id edp frag cost d count a b : @thing F D) =
    describe float_repr proxy (Group id edp frag cost None count a b : @thing F D).
Proof. exact @refute_none. Qed.
Print Assumptions C89_none_refuted.

(** All else is shown, ... *)
Theorem C89_told_partial : forall F D (float_repr : F -> string) proxy (t : @thing F D), proper t -> clear t ->
  describe float_repr proxy t = Some (told float_repr t).
Proof. exact @described. Qed.
Print Assumptions C89_told_partial.

(** ... so that objects of any kinds that look alike are alike. *)
Theorem C89_distinct_partial : forall F D (float_repr : F -> string) proxy, shows_floats float_repr ->
  forall t t' : @thing F D, proper t -> proper t' -> clear t -> clear t' ->
  describe float_repr proxy t = describe float_repr proxy t' -> t = t'.
Proof. exact @distinct. Qed.
Print Assumptions C89_distinct_partial.

(** The kind and the name of an object are always shown. *)
Theorem C89_name_partial : forall F D (float_repr : F -> string) proxy, 
  forall t t' : @thing F D, proper t -> proper t' ->
  describe float_repr proxy t = describe float_repr proxy t' -> sort_of t = sort_of t' /\ name_of t = name_of t'.
Proof. exact @named. Qed.
Print Assumptions C89_name_partial.

(** Printing an object never fails, nor does it look like the printing of an
    unknown name. *)
Theorem C89_known : forall F D (float_repr : F -> string) proxy (t : @thing F D),
  exists m, describe float_repr proxy t = Some m /\ m <> "None".
Proof. exact @always. Qed.
Print Assumptions C89_known.

(** Three floats, and a group and a loss function made with them. *)
Definition C89_repr (n : bool) : string := if n then "0.25" else "1e-05".
Definition C89_group : @thing bool unit :=
  Group "g1" "edp1" "frag_1" (Some "cost") None 10 (PFloat true) (PInt (-2)).
Definition C89_loss : @thing bool unit :=
  LossSimple "cost" (PDict [("mu", PInt 2); ("sd", PInt 1)]) (PList [PList [PFloat true; PFloat false]; PList [PNone; PText "x"]]).

Example C89_case : shows_floats C89_repr /\ (proper C89_group /\ clear C89_group) /\ (proper C89_loss /\ clear C89_loss) /\
  describe C89_repr (fun _ => "") C89_group =
    Some "Component Group 'g1' using edp1, frag_1, cost, and None (10 component(s); adjustments: 0.25 and -2)" /\
  describe C89_repr (fun _ => "") C89_loss =
    Some "Loss Function 'cost', from [[0.25, 1e-05], [None, 'x']] as {'mu': 2, 'sd': 1}.".
Proof.
  assert (PL : forall s, s <> "" -> every wordy s = true -> plain s) by (split; auto).
  split; [split; [intros [] []; cbn; congruence|intros []; split; reflexivity]|].
  split; [|split; [|split; reflexivity]].
  - split; [|split; discriminate]. cbn [proper C89_group].
    repeat (split; [apply PL; [discriminate|reflexivity]|]).
    split; [intros x H; injection H as <-; apply PL; [discriminate|reflexivity]|]. split; [discriminate|].
    split; (split; [constructor|discriminate]).
  - split; [|exact I]. cbn [proper C89_loss]. split; [apply PL; [discriminate|reflexivity]|].
    split; [eauto|]. split; (split; [|discriminate]).
    + constructor; intros e [<-|[<-|[]]]; cbn; try reflexivity; constructor.
    + constructor. intros v [<-|[<-|[]]]; constructor; intros v [<-|[<-|[]]]; constructor. reflexivity.
Qed.

(** ** C90: printed text goes where it should *)

(** Every command prints one text, which depends on nothing else. *)
Theorem C90_text : forall F D (float_repr : F -> string) proxy (p : @printed F D),
  exists m, text float_repr proxy p m /\ forall m', text float_repr proxy p m' -> m' = m.
Proof. exact @one_text. Qed.
Print Assumptions C90_text.

(** Whatever is printed, no command fails; the terminal has shown, in order, the
    texts printed without a file; a file holds, in order, those printed to it since
    it was last started afresh, after what it held before if it never was; other
    files are as they were. *)
Theorem C90_files : forall F D (float_repr : F -> string) proxy (l : list (@printed F D * target)) ms o,
  Forall2 (fun c m => text float_repr proxy (fst c) m) l ms ->
  let q := combine ms (map snd l) in
  exists o', prints float_repr proxy o l = Some o' /\
    terminal o' = terminal o ++ lines (to_terminal q) /\
    forall f, (restarted f q -> contents o' f = Some (lines (rev (since f (rev q))))) /\
      (~ restarted f q -> ~ untouched f q ->
         contents o' f = Some (match contents o f with Some s => s | None => "" end ++ lines (rev (since f (rev q))))) /\
      (untouched f q -> contents o' f = contents o f).
Proof. exact @printing. Qed.
Print Assumptions C90_files.

Example C90_case :
  let o := Output "" (fun f => if String.eqb f "old" then Some "x" else None) in
  exists o', prints C89_repr (fun _ => "") o
      [(PrMessage "a", Some ("new", true)); (PrObject (Some C89_group), None); (PrMessage "b", Some ("old", true));
       (PrMessage "c", Some ("new", false)); (PrMessage "d", Some ("new", true))] = Some o' /\
    contents o' "new" = Some ("c" ++ newline ++ "d" ++ newline) /\ contents o' "old" = Some ("xb" ++ newline) /\
    contents o' "other" = None /\ terminal o' <> "".
Proof. eexists. split; [reflexivity|]. repeat split. discriminate. Qed.

(** Full statement: a title is printed as its lines.  False: an empty line comes
    first, whatever the title. *)
Theorem C90_title_fails : forall F D (float_repr : F -> string) proxy l m, l <> [] ->
  message float_repr proxy (PrTitle l : @printed F D) = Some m -> m <> String.concat newline l.
Proof. exact @title_fails. Qed.
Print Assumptions C90_title_fails.

Example C90_title_case : message C89_repr (fun _ => "") (PrTitle ["a"; "b"] : @printed bool unit) =
  Some (newline ++ "a" ++ newline ++ "b").
Proof. reflexivity. Qed.

(** Full statement: a file name means the same file in a print command as in a
    recorder.  False if an output directory is set: *)
Theorem C90_place_refuted : exists set name, ~ same_file (print_path set name) (recorder_path set name).
Proof. exact refute_place. Qed.
Print Assumptions C90_place_refuted.

(** It does if the name has an extension, and a directory or none is set. *)
Theorem C90_place_partial : forall set h n, ~ In slash n -> (h = [] \/ exists h', h = (h' ++ [slash])%list) -> has_extension n ->
  h <> [] \/ set = None \/ set = Some [] ->
  same_file (print_path set (h ++ n)%list) (recorder_path set (h ++ n)%list).
Proof. exact place. Qed.
Print Assumptions C90_place_partial.

(** Without an extension it never does. *)
Theorem C90_extension_fails : forall set h n, ~ In slash n -> (h = [] \/ exists h', h = (h' ++ [slash])%list) -> ~ has_extension n ->
  ~ same_file (print_path set (h ++ n)%list) (recorder_path set (h ++ n)%list).
Proof. exact no_extension_fails. Qed.
Print Assumptions C90_extension_fails.

Example C90_place_case :
  ~ In slash (lit "log.txt") /\ has_extension (lit "log.txt") /\ ~ has_extension (lit "log").
Proof.
  split; [cbn; intros [H|[H|[H|[H|[H|[H|[H|[]]]]]]]]; discriminate|]. split.
  - exists (lit "log"), (lit "txt"). split; [reflexivity|]. split.
    + cbn. intros [H|[H|[H|[]]]]; discriminate.
    + exists "l"%char. split; [left; reflexivity|discriminate].
  - intros (b & e & Q & _). assert (I : In dot (lit "log")) by (rewrite Q; apply in_or_app; right; left; reflexivity).
    cbn in I. destruct I as [H|[H|[H|[]]]]; discriminate.
Qed.
