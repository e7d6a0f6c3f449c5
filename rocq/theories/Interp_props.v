(** * Properties of the interpreter: C52 *)
From Coq Require Import List ZArith String.
From Verif Require Import Interp Interp_spec Interp_proofs Interp_proofs2 Interp_proofs3 Interp_proofs4 Interp_proofs5.
Import ListNotations.
Open Scope string_scope.
Open Scope list_scope.

(** C52.  Every tree the grammar derives for a script is that of a list of commands of the
    abstract syntax, over which [meaning] is defined. *)
Theorem C52_grammar : forall l, derives (Node script l) -> exists is, Node script l = t_items is.
Proof. exact parsed. Qed.
Print Assumptions C52_grammar.

(** C52.  Full statement: the conclusion of [C52_script_partial] for every script the
    grammar derives.  False: [C52_loglog_refuted] and those after it.  Proved: a script all
    of whose commands are sound makes exactly the calls its commands spell out, in their
    order and with the values they spell out, for whatever the calls return or raise; at
    its end both stacks are empty.  Not sound are piecewise functions, probabilistic
    functions named by variables, integration settings whose number of iterations is a
    variable or an expression, dictionaries, and annual costs without both options or with
    columns. *)
Theorem C52_script_partial : forall world ask l,
  Forall (fun i => sound_item i = true) l -> derives (t_items l) ->
  forall w, as_spelt (run world ask (t_items l) w) (script_meaning world ask l (Core world [] [] w)).
Proof. exact script_done. Qed.
Print Assumptions C52_script_partial.

(** A variable has what was given to it last; one to which nothing was given is None. *)
Theorem C52_variables : forall x given,
  get_var x (fold_left (fun l p => set_var (fst p) (snd p) l) given []) = latest x given.
Proof. exact variables_latest. Qed.
Print Assumptions C52_variables.
Example C52_variables_case : latest "a" [("a", VInt 1); ("b", VInt 2); ("a", VInt 3); ("c", VInt 4)] = VInt 3.
Proof. reflexivity. Qed.

(** A piecewise function is never made. *)
Theorem C52_loglog_refuted : exists l, derives (t_items l) /\
  observed (t_items l) = (Some TypeError, [], []) /\
  intended l = (None, [("detfn", [VStr "f"; VStr "loglog"; VList [VList [VInt 1; VInt 3]; VList [VInt 2; VInt 4]]])], []).
Proof. exact refute_loglog. Qed.
Print Assumptions C52_loglog_refuted.

Theorem C52_linear_refuted : exists l, derives (t_items l) /\
  observed (t_items l) = (Some TypeError, [], []) /\
  intended l = (None, [("detfn", [VStr "f"; VStr "linear"; VList [VList [VInt 1; VInt 3]; VList [VInt 2; VInt 4]]])], []).
Proof. exact refute_linear. Qed.
Print Assumptions C52_linear_refuted.

(** Whatever the points, the command raises [TypeError] once they are evaluated. *)
Theorem C52_piecewise_fails : forall world ask id s p ps, s = Loglog p ps \/ s = Linear p ps -> forall b stk,
  as_spelt (walk world ask (t_cmd (Detfn id s)) (St world b stk []))
           (andthen world (all_of world (pair_value world ask) (p :: ps)) (fun _ => failing world TypeError) b).
Proof. exact piecewise_fails. Qed.
Print Assumptions C52_piecewise_fails.

(** The function a variable names is looked up under the text of the reference; the value
    stays on the stack. *)
Theorem C52_probfn_refuted : exists l, derives (t_items l) /\
  observed (t_items l) =
    (Some ValueError,
     [("detfn.lookup", [VStr "$x"]); ("detfn.lookup", [VStr "g"]);
      ("probfn", [VStr "p"; VStr "lognormal"; VList [VConst C_MEAN_X; VObj 0]; VList [VConst C_SD_X; VObj 1]])],
     [("x", VStr "f")]) /\
  intended l =
    (None,
     [("detfn.lookup", [VStr "f"]); ("detfn.lookup", [VStr "g"]);
      ("probfn", [VStr "p"; VStr "lognormal"; VList [VConst C_MEAN_X; VObj 0]; VList [VConst C_SD_X; VObj 1]])],
     [("x", VStr "f")]).
Proof. exact refute_probfn. Qed.
Print Assumptions C52_probfn_refuted.

(** No such command succeeds. *)
Theorem C52_probfn_fails : forall world ask id f g o x, f = FVar x \/ g = FVar x -> forall b stk,
  exists e c, walk world ask (t_cmd (Probfn id f g o)) (St world b stk []) = Raise world _ e c.
Proof. exact probfn_fails. Qed.
Print Assumptions C52_probfn_fails.

(** The tolerance and the number of iterations change places. *)
Theorem C52_integration_refuted : exists l, derives (t_items l) /\
  observed (t_items l) = (None, [("IntegrationSettings", [VInt 1024; VFloat "1e-6"])], [("n", VInt 1024)]) /\
  intended l = (None, [("IntegrationSettings", [VFloat "1e-6"; VInt 1024])], [("n", VInt 1024)]).
Proof. exact refute_integration. Qed.
Print Assumptions C52_integration_refuted.

(** They do so whenever the number of iterations is not a literal. *)
Theorem C52_integration_swaps : forall world ask p i b stk, (forall s, i <> LInt s) ->
  as_spelt (walk world ask (t_cmd (Integration p i None)) (St world b stk []))
    (andthen world (number_value world ask p) (fun p =>
     andthen world (limit_value world ask i) (fun i =>
     do world ask "IntegrationSettings" [i; p])) b).
Proof. exact integration_swaps. Qed.
Print Assumptions C52_integration_swaps.

(** The keys of dictionaries are nodes of the parse tree. *)
Theorem C52_dictionary_refuted : exists l, derives (t_items l) /\
  observed (t_items l) = (None, [], [("d", VDict [(VNode "a", VInt 1); (VNode "a", VInt 2)])]) /\
  intended l = (None, [], [("d", VDict [(VStr "a", VInt 2)])]).
Proof. exact refute_dictionary. Qed.
Print Assumptions C52_dictionary_refuted.

(** No entry of a dictionary set by a script can be found by its name. *)
Theorem C52_dictionary_nameless : forall world ask id k q es b stk,
  (exists d, walk world ask (t_cmd (Set_ id (SetParams (PDict k q es)))) (St world b stk []) =
             Ok world _ tt (St world (Core world (set_var id (VDict d) (vars world b)) (titles world b) (outside world b)) [] []) /\
             nameless d)
  \/ walk world ask (t_cmd (Set_ id (SetParams (PDict k q es)))) (St world b stk []) = Raise world _ AttributeError b.
Proof. exact dictionary_nameless. Qed.
Print Assumptions C52_dictionary_nameless.

(** The column of the mean is recorded twice, and columns given are not recorded. *)
Theorem C52_annual_refuted : exists l, derives (t_items l) /\
  observed (t_items l) =
    (None, [("structure.lookup", [VStr "s"]);
            ("MakeRecorder", [VStr "r"; VStr "structcost"; VObj 0; VDict [(VStr "structcost-type", VStr "annual")];
                              VList [VStr "mean_x"; VStr "mean_x"]; VNone])], []) /\
  intended l =
    (None, [("structure.lookup", [VStr "s"]);
            ("MakeRecorder", [VStr "r"; VStr "structcost"; VObj 0; VDict [(VStr "structcost-type", VStr "annual")];
                              VList [VStr "mean_x"]; VNone])], []).
Proof. exact refute_annual. Qed.
Print Assumptions C52_annual_refuted.

Theorem C52_annual_cols_refuted : exists l, derives (t_items l) /\
  observed (t_items l) =
    (None, [("structure.lookup", [VStr "s"]);
            ("MakeRecorder", [VStr "r"; VStr "structcost"; VObj 0; VDict [(VStr "structcost-type", VStr "annual")];
                              VList [VStr "mean_x"; VStr "sd_x"]; VNone])], []) /\
  intended l =
    (None, [("structure.lookup", [VStr "s"]);
            ("MakeRecorder", [VStr "r"; VStr "structcost"; VObj 0; VDict [(VStr "structcost-type", VStr "annual")];
                              VList [VStr "median_x"]; VNone])], []).
Proof. exact refute_annual_cols. Qed.
Print Assumptions C52_annual_cols_refuted.

(** Without an option for the mean the command fails. *)
Theorem C52_annual_fails : forall world ask id n q o b stk, opts_mu q = None ->
  walk world ask (t_cmd (Recorder id (RecAnnual n q None) o)) (St world b stk []) = Raise world _ UnboundLocalError b.
Proof. exact annual_fails. Qed.
Print Assumptions C52_annual_fails.

(** A script of sound commands: its tree is derived, and these are the calls it makes. *)
Example C52_case : Forall (fun i => sound_item i = true) a_script /\ derives (t_items a_script) /\
  observed (t_items a_script) =
  (None,
   [("eval", [VStr "1+(2)"]);
    ("detfn", [VStr "f"; VStr "hyperbolic"; VList [VList [VInt 1; VFloat "2.5"; VStr "x"]; VObj 0; VStr "q"]]);
    ("fragfn_user", [VStr "g"; VDict [(VStr "mu", VConst C_MEDIAN_X); (VStr "sd", VConst C_SD_X)];
                     VList [VList [VInt 1; VFloat "0.5"]; VList [VInt 2; VNone]]]);
    ("edp.lookup", [VStr "e"]); ("fragfn.lookup", [VStr "g"]); ("lossfn.lookup", [VStr "l"]);
    ("compgroup", [VStr "cg"; VObj 3; VObj 4; VObj 5; VNone; VInt 7; VFloat "1.5"; VFloat "1.0"]);
    ("structure.lookup", [VStr "s"]);
    ("MakeRecorder", [VStr "r"; VStr "structcost"; VObj 7;
       VDict [(VStr "filename", VStr "out/npv.txt"); (VStr "append", VBool true);
              (VStr "structcost-type", VStr "npv"); (VStr "discount-rate", VFloat "0.06")];
       VNone; VList [VInt 10; VInt 15; VInt 20]]);
    ("print", [VNone; VBool false; VStr "
A title"])],
   [("a", VList [VInt 1; VFloat "2.5"; VStr "x"])]) /\
  intended a_script = observed (t_items a_script).
Proof.
  split; [repeat constructor |]. split; [apply derived_ok; vm_compute; reflexivity |].
  split; vm_compute; reflexivity.
Qed.

(** A call that raises ends a script, here the first. *)
Example C52_raises : exists l, Forall (fun i => sound_item i = true) l /\ derives (t_items l) /\
  run nat (fun f a w => (inr (ApiError w), S w)) (t_items l) 0 = Raise nat _ (ApiError 0) (Core nat [] [] 1).
Proof.
  exists [Command (Im "a" "f"); Command (Im "b" "f")].
  split; [repeat constructor |]. split; [apply derived_ok; vm_compute; reflexivity |]. reflexivity.
Qed.
