(** Property C66: the files 'analyze' writes. *)

Require Import String Ascii ZArith List Bool.
From Verif Require Import Recorder Recorder_spec Recorder_proofs3 Paths Paths_spec Paths_proofs Analyze Analyze_spec Analyze_proofs Analyze_proofs2.
Import ListNotations.

(** Full statement: after 'analyze' every recorder's table is in the file named by
    it, or on the terminal if it names none.  False: a recorder without a file name
    raises an exception, *)
Theorem C66_terminal_fails : forall L dir f (e : entry L), e_file e = None -> run dir f e = (f, Some TypeError).
Proof. exact no_file. Qed.
Print Assumptions C66_terminal_fails.

Example C66_terminal_case : e_file (Entry (toy_r imrate (OIm 0 "im") None (Some [@PNum toy 1%Z])) None false) = None.
Proof. reflexivity. Qed.

(** and of two recorders that name the same file the second overwrites the first. *)
Theorem C66_shared_refuted : exists L dir (d : defs L) f f' id e p lines,
  analyze dir f d = (f', None) /\ In (id, e) d /\ writes_to dir e p /\ output e lines /\
  ~ exists a b, f' p = a ++ lines ++ b.
Proof. exact refute_shared. Qed.
Print Assumptions C66_shared_refuted.

(** If every recorder names a file and ends normally, every file is what the
    recorders leave in it one after the other, *)
Theorem C66_files_partial : forall L dir (d : defs L) f,
  Forall (fun e => e_file (snd e) <> None /\ exists lines, output (snd e) lines) d ->
  exists f', analyze dir f d = (f', None) /\ forall p, left_in dir p (map snd d) (f p) (f' p).
Proof. exact analyze_left. Qed.
Print Assumptions C66_files_partial.

Example C66_files_case :
  Forall (fun e => e_file (snd e) <> None /\ exists lines, output (snd e) lines) demo /\
  (exists f', analyze (Some (lit "out")) (fun _ => []) demo = (f', None) /\
     f' (lit "out/rates.csv") = ["             im         lambda"; "              1              9"; "              2              8"]%string /\
     List.length (f' (lit "out/both.txt")) = 4).
Proof. exact demo_files. Qed.

(** so a file that none of them names is as before, *)
Theorem C66_others : forall L dir p (es : list (entry L)) old new,
  left_in dir p es old new -> (forall e, In e es -> ~ writes_to dir e p) -> new = old.
Proof. exact untouched. Qed.
Print Assumptions C66_others.

(** and one that exactly one of them names has its table, after what was there if it
    appends. *)
Theorem C66_alone : forall L dir p (es : list (entry L)) e old new lines a b,
  es = a ++ e :: b -> (forall e', In e' (a ++ b) -> ~ writes_to dir e' p) ->
  writes_to dir e p -> output e lines -> left_in dir p es old new ->
  new = (if e_append e then old else []) ++ lines.
Proof. exact alone. Qed.
Print Assumptions C66_alone.

Example C66_alone_case : exists a e b, map snd demo = a ++ e :: b /\ a <> [] /\ b <> [] /\
  writes_to (Some (lit "out")) e (lit "out/rates.csv") /\
  (forall e', In e' (a ++ b) -> ~ writes_to (Some (lit "out")) e' (lit "out/rates.csv")).
Proof. exact demo_alone. Qed.

(** A recorder that fails ends the run: those before it have written their tables,
    it itself the lines it printed until then, those after it nothing. *)
Theorem C66_failure : forall L dir (a b : defs L) id e x lines f,
  Forall (fun e => e_file (snd e) <> None /\ exists lines, output (snd e) lines) a ->
  (e_file e = None /\ x = TypeError /\ lines = [] \/ e_file e <> None /\ generate (e_recorder e) = (lines, Some x)) ->
  exists f1 f', analyze dir f (a ++ (id, e) :: b) = (f', Some x) /\
    (forall p, left_in dir p (map snd a) (f p) (f1 p)) /\
    (forall p, writes_to dir e p -> f' p = (if e_append e then f1 p else []) ++ lines) /\
    (forall p, ~ writes_to dir e p -> f' p = f1 p).
Proof. exact analyze_stops. Qed.
Print Assumptions C66_failure.

Example C66_failure_case :
  let e := Entry (toy_r edpim (OEdp 0 "im") (Some [PStr "median_x"]) (Some [@PNum toy 1%Z])) (Some (lit "e")) false in
  e_file e <> None /\ generate (e_recorder e) = (["             im       median_x"]%string, Some TypeError).
Proof. split; [discriminate|reflexivity]. Qed.

(** Running 'analyze' again leaves a file that no recorder appends to as it is. *)
Theorem C66_again : forall L dir (d : defs L) f f1 f2 p,
  Forall (fun e => e_file (snd e) <> None /\ exists lines, output (snd e) lines) d ->
  analyze dir f d = (f1, None) -> analyze dir f1 d = (f2, None) ->
  (forall e, In e (map snd d) -> writes_to dir e p -> e_append e = false) -> f2 p = f1 p.
Proof. exact analyze_again. Qed.
Print Assumptions C66_again.

Example C66_again_case : forall e, In e (map snd demo) -> writes_to (Some (lit "out")) e (lit "out/rates.csv") -> e_append e = false.
Proof. exact demo_again. Qed.

(** The recorders run are those in force: of each name the last definition, in the
    order in which names came up first. *)
Theorem C66_in_force : forall L (cmds : list (string * entry L)),
  in_force cmds (fold_left (fun d c => define d (fst c) (snd c)) cmds []).
Proof. exact defined_in_force. Qed.
Print Assumptions C66_in_force.

Example C66_in_force_case : forall a b c : entry toy,
  in_force [("x", a); ("y", b); ("x", c)]%string [("x", c); ("y", b)]%string.
Proof. intros a b c. exact (defined_in_force toy [("x", a); ("y", b); ("x", c)]%string). Qed.
