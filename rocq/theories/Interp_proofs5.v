(** * Commands the interpreter does otherwise than spelt out *)
From Coq Require Import ZArith Bool Ascii String List Lia.
From Verif Require Import Interp Interp_spec Interp_proofs Interp_proofs2 Interp_proofs3 Interp_proofs4.
Import ListNotations.
Open Scope string_scope.
Open Scope list_scope.

(** ** Deciding whether the grammar derives a tree *)

Fixpoint rests (n : nat) (r : rhs) (l : list tree) : list (list tree) :=
  match n with
  | O => []
  | S n =>
      match r with
      | Eps => [l]
      | T k => match l with
               | Leaf k' s :: m => if kind_beq k k' && lexeme k s then [m] else []
               | _ => [] end
      | R r => match l with Node r' _ :: m => if rule_beq r r' then [m] else [] | _ => [] end
      | Seq a b => flat_map (rests n b) (rests n a l)
      | Alt a b => rests n a l ++ rests n b l
      | Star a => l :: flat_map (rests n (Star a)) (rests n a l)
      end
  end.

Lemma rests_ok : forall n r l m, In m (rests n r l) -> exists x, l = x ++ m /\ matches r x.
Proof.
  induction n as [| n IH]; intros r l m I; [destruct I |]. destruct r; cbn in I.
  - destruct I as [<- | []]. exists []. split; [reflexivity | constructor].
  - destruct l as [| [k' s | ] l]; try destruct I. destruct (kind_beq k k') eqn:K; [| destruct I].
    destruct (lexeme k s) eqn:L; [| destruct I]. destruct I as [<- | []].
    apply internal_kind_dec_bl in K. subst k'. exists [Leaf k s]. split; [reflexivity | now constructor].
  - destruct l as [| [| r' c] l]; try destruct I. destruct (rule_beq r r') eqn:K; [| destruct I].
    destruct I as [<- | []]. apply internal_rule_dec_bl in K. subst r'. exists [Node r c]. split; [reflexivity | constructor].
  - apply in_flat_map in I. destruct I as (y & A & B). apply IH in A. apply IH in B.
    destruct A as (u & -> & A), B as (v & -> & B). exists (u ++ v). split; [apply app_assoc | now constructor].
  - apply in_app_or in I. destruct I as [I | I]; apply IH in I; destruct I as (x & -> & I); exists x; split; auto;
      [now apply matches_left | now apply matches_right].
  - destruct I as [<- | I].
    + exists []. split; [reflexivity | constructor].
    + apply in_flat_map in I. destruct I as (y & A & B). apply IH in A. apply IH in B.
      destruct A as (u & -> & A), B as (v & -> & B). exists (u ++ v). split; [apply app_assoc | now constructor].
Qed.

Fixpoint size (r : rhs) : nat :=
  match r with Seq a b | Alt a b => S (size a + size b) | Star a => S (size a) | _ => 1 end.

Fixpoint derived (t : tree) : bool :=
  match t with
  | Leaf _ _ => true
  | Node r l =>
      existsb (fun m => match m with [] => true | _ => false end)
              (rests (size (grammar r) + 2 * length l) (grammar r) l)
      && forallb derived l
  end.

Lemma derived_ok : forall t, derived t = true -> derives t.
Proof.
  fix IH 1. intros [k s | r l] H; [constructor |]. cbn [derived] in H. apply andb_prop in H. destruct H as [A B].
  apply derives_node.
  - apply existsb_exists in A. destruct A as (m & I & E). destruct m; [| discriminate].
    apply rests_ok in I. destruct I as (x & -> & M). now rewrite app_nil_r.
  - clear A. induction l as [| t l IHl]; constructor; cbn in B; apply andb_prop in B; destruct B as [B C].
    + apply IH. exact B.
    + apply IHl. exact C.
Qed.

(** ** Witnesses *)

Definition one (s : string) : sc := SNumber (NInt s).

Lemma refute_loglog : exists l, derives (t_items l) /\
  observed (t_items l) = (Some TypeError, [], []) /\
  intended l = (None, [("detfn", [VStr "f"; VStr "loglog"; VList [VList [VInt 1; VInt 3]; VList [VInt 2; VInt 4]]])], []).
Proof.
  exists [Command (Detfn "f" (Loglog (one "1", one "2") [(one "3", one "4")]))].
  split; [apply derived_ok; vm_compute; reflexivity |]. split; vm_compute; reflexivity.
Qed.

Lemma refute_linear : exists l, derives (t_items l) /\
  observed (t_items l) = (Some TypeError, [], []) /\
  intended l = (None, [("detfn", [VStr "f"; VStr "linear"; VList [VList [VInt 1; VInt 3]; VList [VInt 2; VInt 4]]])], []).
Proof.
  exists [Command (Detfn "f" (Linear (one "1", one "2") [(one "3", one "4")]))].
  split; [apply derived_ok; vm_compute; reflexivity |]. split; vm_compute; reflexivity.
Qed.

Lemma refute_probfn : exists l, derives (t_items l) /\
  observed (t_items l) =
    (Some ValueError,
     [("detfn.lookup", [VStr "$x"]); ("detfn.lookup", [VStr "g"]);
      ("probfn", [VStr "p"; VStr "lognormal"; VList [VConst C_MEAN_X; VObj 0]; VList [VConst C_SD_X; VObj 1]])],
     [("x", VStr "f")]) /\
  intended l =
    (None,
     [("detfn.lookup", [VStr "f"]); ("detfn.lookup", [VStr "g"]);
      ("probfn", [VStr "p"; VStr "lognormal"; VList [VConst C_MEAN_X; VObj 0]; VList [VConst C_SD_X; VObj 1]])],
     [("x", VStr "f")]).
Proof.
  exists [Command (Set_ "x" (SetParams (POne (PName "f"))));
          Command (Probfn "p" (FVar "x") (FName "g") (MuSd (Some MuMean) (Some SdX)))].
  split; [apply derived_ok; vm_compute; reflexivity |]. split; vm_compute; reflexivity.
Qed.

Lemma refute_integration : exists l, derives (t_items l) /\
  observed (t_items l) = (None, [("IntegrationSettings", [VInt 1024; VFloat "1e-6"])], [("n", VInt 1024)]) /\
  intended l = (None, [("IntegrationSettings", [VFloat "1e-6"; VInt 1024])], [("n", VInt 1024)]).
Proof.
  exists [Command (Set_ "n" (SetParams (POne (PInt "1024"))));
          Command (Integration (NFloat "1e-6") (LVar "n") None)].
  split; [apply derived_ok; vm_compute; reflexivity |]. split; vm_compute; reflexivity.
Qed.

Lemma refute_dictionary : exists l, derives (t_items l) /\
  observed (t_items l) = (None, [], [("d", VDict [(VNode "a", VInt 1); (VNode "a", VInt 2)])]) /\
  intended l = (None, [], [("d", VDict [(VStr "a", VInt 2)])]).
Proof.
  exists [Command (Set_ "d" (SetParams (PDict (DName "a") (POne (PInt "1")) [(DName "a", POne (PInt "2"))])))].
  split; [apply derived_ok; vm_compute; reflexivity |]. split; vm_compute; reflexivity.
Qed.

Lemma refute_annual : exists l, derives (t_items l) /\
  observed (t_items l) =
    (None, [("structure.lookup", [VStr "s"]);
            ("MakeRecorder", [VStr "r"; VStr "structcost"; VObj 0; VDict [(VStr "structcost-type", VStr "annual")];
                              VList [VStr "mean_x"; VStr "mean_x"]; VNone])], []) /\
  intended l =
    (None, [("structure.lookup", [VStr "s"]);
            ("MakeRecorder", [VStr "r"; VStr "structcost"; VObj 0; VDict [(VStr "structcost-type", VStr "annual")];
                              VList [VStr "mean_x"]; VNone])], []).
Proof.
  exists [Command (Recorder "r" (RecAnnual "s" (MuSd (Some MuMean) None) None) None)].
  split; [apply derived_ok; vm_compute; reflexivity |]. split; vm_compute; reflexivity.
Qed.

Lemma refute_annual_cols : exists l, derives (t_items l) /\
  observed (t_items l) =
    (None, [("structure.lookup", [VStr "s"]);
            ("MakeRecorder", [VStr "r"; VStr "structcost"; VObj 0; VDict [(VStr "structcost-type", VStr "annual")];
                              VList [VStr "mean_x"; VStr "sd_x"]; VNone])], []) /\
  intended l =
    (None, [("structure.lookup", [VStr "s"]);
            ("MakeRecorder", [VStr "r"; VStr "structcost"; VObj 0; VDict [(VStr "structcost-type", VStr "annual")];
                              VList [VStr "median_x"]; VNone])], []).
Proof.
  exists [Command (Recorder "r" (RecAnnual "s" (MuSd (Some MuMean) (Some SdX)) (Some (CMu MuMedian, []))) None)].
  split; [apply derived_ok; vm_compute; reflexivity |]. split; vm_compute; reflexivity.
Qed.

(** ** A script of sound commands *)

Definition a_script : list item :=
  [Command (Title """A title""");
   Space " ";
   Command (Set_ "a" (SetParams (PArray (PInt "1") [PFloat "2.5"; PName "x"])));
   Command (Detfn "f" (Hyperbolic (SNumber (NVar "a")) (SNumber (NScript [Other "1+"; Paren; NestedOther "2"; NestedClose])) (SString "'q'")));
   Command (FragUser "g" (SNumber (NInt "1"), SNumber (NFloat "0.5")) [(SNumber (NInt "2"), SNumber (NVar "zz"))] (SdMu SdX MuMedian));
   Command (Compgroup "cg" "e" "g" "l" None "7" (Some "1.5") None);
   Command (Recorder "r" (RecNpv "s" "10" "5" "21" "0.06") (Some (POpts (FileName "out/npv.txt") (Some Append))));
   Command (Print PrTitle None)].

(** ** What they do always *)

Arguments Interp.walk : simpl never.
Arguments Interp.api : simpl never.
Arguments Interp_spec.call : simpl never.
Arguments texts : simpl never.
Arguments preprocess_string : simpl never.
Arguments int_of : simpl never.
Arguments strip_quotes : simpl never.
Arguments walks : simpl never.
Arguments Interp_spec.sc_value : simpl never.
Arguments Interp_spec.number_value : simpl never.
Arguments Interp_spec.pair_value : simpl never.
Arguments Interp_spec.run_script : simpl never.
Arguments Interp_spec.variable : simpl never.
Arguments Interp_spec.cols_value : simpl never.
Arguments Interp_spec.all_of : simpl never.
Arguments t_pairs : simpl never.
Arguments comma_list : simpl never.
Arguments t_body : simpl never.

Section Simulation.
Variable world : Type.
Variable ask : string -> list value -> world -> (value + exn) * world.
Notation core := (core world).
Notation St := (St world).
Notation Ok := (Ok world _).
Notation Raise := (Raise world _).
Notation walk := (walk world ask).
Notation walks := (walks world ask).
Notation call := (call world ask).
Notation pair_value := (pair_value world ask).

Ltac binds := unfold Interp.bind, Interp.ret, Interp.the, andthen, pure, Interp.raise, failing.
Ltac split_e :=
  unfold decimal, literal;
  match goal with
  | |- context [match ?e ?b with Returned _ _ => _ | Raised _ _ => _ end] =>
      match e with
      | context [match _ with Returned _ _ => _ | Raised _ _ => _ end] => fail 1
      | _ => destruct (e b); [| reflexivity]
      end
  end.
Ltac go1 := first
  [ rewrite walks_cons | rewrite walks_nil | rewrite walk_kw | rewrite walk_leaf | rewrite api_call
  | rewrite walk_script | rewrite walk_var | rewrite walk_number | rewrite walk_sc2 | rewrite walk_sc
  | rewrite walk_opts | rewrite walk_file | rewrite walk_popts | rewrite walk_cols | split_e ].
Ltac go := repeat (go1; cbn).
Ltac body := unfold t_body; rewrite walk_node; cbn.

Lemma all_pairs : forall l b vs b', all_of world pair_value l b = Returned vs b' ->
  length vs = length l /\ exists xs, vs = map (fun p => VList [fst p; snd p]) xs.
Proof.
  induction l as [| p l IH]; intros b vs b' E.
  - injection E as <- <-. split; [reflexivity | now exists []].
  - unfold all_of in E; fold (@all_of world (sc * sc) value) in E. unfold andthen, pure in E.
    destruct (pair_value p b) as [v c |] eqn:P; [| discriminate].
    destruct (all_of world pair_value l c) as [us d |] eqn:A; [| discriminate]. injection E as <- <-.
    destruct (IH _ _ _ A) as (L & xs & ->). split; [cbn; now rewrite L |].
    unfold Interp_spec.pair_value, andthen, pure in P.
    destruct (sc_value world ask (fst p) b) as [x c' |]; [| discriminate].
    destruct (sc_value world ask (snd p) c') as [y c'' |]; [| discriminate]. injection P as <- <-.
    exists ((x, y) :: xs). reflexivity.
Qed.

Lemma collect_pairs : forall xs s,
  collect world (map (fun p => VList [fst p; snd p]) xs)
    (fun p => Interp.bind world (index world p 0) (fun a => Interp.bind world (index world p 1) (fun b => Interp.ret world (a, b)))) s
  = Ok xs s.
Proof.
  induction xs as [| [x y] xs IH]; intros s; [reflexivity |]. cbn in *. binds. unfold Interp.bind in IH.
  cbn. unfold Interp.ret in IH. rewrite IH. reflexivity.
Qed.

Lemma walk_loglog : forall id p ps b stk stks, walk (t_body (Detfn id (Loglog p ps))) (St b stk stks) =
  match all_of world pair_value (p :: ps) b with
  | Returned _ b' => Raise TypeError b' | Raised x b' => Raise x b' end.
Proof.
  intros id p ps b stk stks. body. rewrite walks_cons, walk_kw, walks_cons, walk_leaf, walks_one. cbn [t_shape].
  rewrite walk_node. cbn. unfold push_stack. cbn. rewrite walks_cons, walk_kw. unfold t_pairs.
  rewrite (walks_comma _ _ _ pair_value); [| apply leaves_bracketed].
  destruct (all_of world pair_value (p :: ps) b) as [vs b' |] eqn:A; [| reflexivity].
  destruct (all_pairs _ _ _ _ A) as (_ & xs & ->). unfold exit_loglog. unfold Interp.bind at 1.
  unfold pop_stack. cbn. rewrite app_nil_r, rev_involutive. unfold Interp.bind at 1.
  rewrite collect_pairs. reflexivity.
Qed.

Lemma walk_linear : forall id p ps b stk stks, walk (t_body (Detfn id (Linear p ps))) (St b stk stks) =
  match all_of world pair_value (p :: ps) b with
  | Returned _ b' => Raise TypeError b' | Raised x b' => Raise x b' end.
Proof.
  intros id p ps b stk stks. body. rewrite walks_cons, walk_kw, walks_cons, walk_leaf, walks_one. cbn [t_shape].
  rewrite walk_node. cbn. rewrite walks_cons, walk_kw. unfold t_pairs.
  rewrite (walks_comma _ _ _ pair_value); [| apply leaves_bracketed].
  destruct (all_of world pair_value (p :: ps) b) as [vs b' |] eqn:A; [| reflexivity].
  destruct (all_pairs _ _ _ _ A) as (L & xs & ->).
  destruct xs as [| x ys _] using rev_ind; [discriminate |].
  rewrite map_app, rev_app_distr. cbn. destruct x. reflexivity.
Qed.

Lemma piecewise_fails : forall id s p ps, s = Loglog p ps \/ s = Linear p ps -> forall b stk,
  as_spelt (walk (t_cmd (Detfn id s)) (St b stk []))
           (andthen world (all_of world pair_value (p :: ps)) (fun _ => failing world TypeError) b).
Proof.
  intros id s p ps S b stk. unfold as_spelt, andthen, failing, t_cmd. rewrite walk_node. cbn. rewrite walks_cons.
  destruct S as [-> | ->]; [rewrite walk_loglog | rewrite walk_linear];
    destruct (all_of world pair_value (p :: ps) b); reflexivity.
Qed.

Lemma probfn_fails : forall id f g o x, f = FVar x \/ g = FVar x -> forall b stk,
  exists e c, walk (t_cmd (Probfn id f g o)) (St b stk []) = Raise e c.
Proof.
  intros id f g o x H b stk. unfold t_cmd. rewrite walk_node. cbn.
  rewrite walks_cons. body. rewrite walks_cons, walk_kw, walks_cons, walk_leaf, walks_cons, walk_kw, walks_cons.
  assert (F : forall f b stk stks, exists l, walk (t_fref f) (St b stk stks) = Ok tt (St b (l ++ stk) stks) /\
                ((exists x, f = FVar x) -> l <> [])).
  { clear. intros [s | x] b stk stks; [exists [] | exists [get_var x (vars world b)]]; split; try reflexivity;
      [intros (x & E) | intros _]; discriminate. }
  destruct (F f b [] []) as (l & -> & Lf). rewrite walks_cons, walk_kw, walks_cons.
  destruct (F g b (l ++ []) []) as (m & -> & Lg). rewrite walks_one, walk_opts.
  assert (N : m ++ l ++ [] <> []).
  { destruct H as [-> | ->].
    - destruct m; [| discriminate]. destruct l; [now destruct Lf; eauto | discriminate].
    - destruct m; [now destruct Lg; eauto | discriminate]. }
  destruct (m ++ l ++ []) as [| v r]; [congruence |].
  clear H Lf Lg N F. destruct f as [sf | xf], g as [sg | xg];
    unfold exit_probfn, ref_text, key, opts_value; binds; cbn;
    repeat (rewrite api_call;
            match goal with
            | |- context [match Interp_spec.call _ _ ?f ?l ?c with _ => _ end] =>
                destruct (call f l c) as [? ? |]; [cbn | eauto]
            end);
    rewrite walks_one, walk_kw; cbn; eauto.
Qed.

Lemma integration_swaps : forall p i b stk, (forall s, i <> LInt s) ->
  as_spelt (walk (t_cmd (Integration p i None)) (St b stk []))
    (andthen world (number_value world ask p) (fun p =>
     andthen world (limit_value world ask i) (fun i =>
     do world ask "IntegrationSettings" [i; p])) b).
Proof.
  intros p i b stk N.
  enough (E : walk (t_cmd (Integration p i None)) (St b stk []) =
  match andthen world (number_value world ask p) (fun p =>
        andthen world (limit_value world ask i) (fun i =>
        do world ask "IntegrationSettings" [i; p])) b with
  | Returned a b' => Ok a (St b' [] []) | Raised x b' => Raise x b' end).
  { unfold as_spelt. rewrite E. match goal with |- match ?x with _ => _ end => destruct x end; reflexivity. } unfold t_cmd. rewrite walk_node. cbn. rewrite walks_cons. body. unfold do. binds. go.
  rewrite walk_node. cbn. go.
  destruct i as [s | x | e]; [now destruct (N s) | |]; cbn [t_limit limit_value]; go;
    unfold exit_integration; binds; cbn; binds; go; reflexivity.
Qed.

Lemma dict_set_nameless : forall d t v, (forall s, dict_get d (VStr s) = None) ->
  forall s, dict_get (dict_set d (VNode t) v) (VStr s) = None.
Proof.
  induction d as [| [k w] d IH]; intros t v H s; [reflexivity |].
  assert (D : forall s, dict_get d (VStr s) = None).
  { intros s'. specialize (H s'). cbn [dict_get] in H. destruct (same_key (VStr s') k); [discriminate | exact H]. }
  specialize (H s). cbn [dict_get dict_set] in *. change (same_key (VNode t) k) with false. cbn [dict_get].
  destruct (same_key (VStr s) k); [discriminate | now apply IH].
Qed.

Definition entry (v : value) : Prop := exists t w, v = VList [VNode t; w].

Lemma go_entries : forall l d s, Forall entry l -> (forall s, dict_get d (VStr s) = None) ->
  exists d', (fix go (d : list (value * value)) (l : list value) : Interp.M world (list (value * value)) :=
             match l with
             | [] => Interp.ret world d
             | p :: l => Interp.bind world (index world p 0) (fun k => Interp.bind world (index world p 1) (fun v => go (dict_set d k v) l))
             end) d l s = Ok d' s /\ forall s, dict_get d' (VStr s) = None.
Proof.
  induction l as [| v l IH]; intros d s F H; [exists d; split; [reflexivity | exact H] |].
  inversion F as [| ? ? E Fl]; subst. destruct E as (t & w & ->). cbn. unfold Interp.bind. cbn.
  apply IH; [exact Fl |]. now apply dict_set_nameless.
Qed.

Lemma params_nameless : forall p b stk stks,
  (exists v, walk (t_params p) (St b stk stks) = Ok tt (St b (v :: stk) stks) /\
             ((exists k q es, p = PDict k q es) -> exists d, v = VDict d /\ forall s, dict_get d (VStr s) = None))
  \/ walk (t_params p) (St b stk stks) = Raise AttributeError b.
Proof.
  fix IH 1. intros [p | p ps | k q es] b stk stks.
  - left. exists (param_value p). split; [apply walk_params; reflexivity | intros (? & ? & ? & ?); discriminate].
  - left. eexists. split; [apply (walk_params world ask (PArray p ps)); reflexivity | intros (? & ? & ? & ?); discriminate].
  - assert (N : forall k q, (forall b stk stks,
       (exists v, walk (t_params q) (St b stk stks) = Ok tt (St b (v :: stk) stks) /\
             ((exists k q' es, q = PDict k q' es) -> exists d, v = VDict d /\ forall s, dict_get d (VStr s) = None))
        \/ walk (t_params q) (St b stk stks) = Raise AttributeError b) -> forall b stk stks,
       (exists v, walk (Node dictionary_entry [t_dkey k; kw COLON; t_params q]) (St b stk stks) = Ok tt (St b (v :: stk) stks) /\ entry v)
       \/ walk (Node dictionary_entry [t_dkey k; kw COLON; t_params q]) (St b stk stks) = Raise AttributeError b).
    { clear. intros k q Q b stk stks. rewrite walk_node. cbn. rewrite walks_cons.
      assert (K : walk (t_dkey k) (St b stk stks) = Ok tt (St b stk stks)) by (destruct k; reflexivity).
      rewrite K, walks_cons, walk_kw, walks_one. destruct (Q b stk stks) as [(v & -> & _) | ->]; [| now right].
      destruct k as [s | s]; [left | right]; destruct q; cbn; try reflexivity;
        eexists; split; try reflexivity; eexists _, _; reflexivity. }
    assert (L : forall es, (forall e, In e es -> forall b stk stks,
       (exists v, walk (t_params (snd e)) (St b stk stks) = Ok tt (St b (v :: stk) stks) /\
             ((exists k q' es, snd e = PDict k q' es) -> exists d, v = VDict d /\ forall s, dict_get d (VStr s) = None))
        \/ walk (t_params (snd e)) (St b stk stks) = Raise AttributeError b) -> forall b stk stks,
       (exists vs, walks (flat_map (fun e => [kw COMMA; Node dictionary_entry [t_dkey (fst e); kw COLON; t_params (snd e)]]) es) (St b stk stks)
                   = Ok tt (St b (rev vs ++ stk) stks) /\ Forall entry vs)
       \/ walks (flat_map (fun e => [kw COMMA; Node dictionary_entry [t_dkey (fst e); kw COLON; t_params (snd e)]]) es) (St b stk stks)
          = Raise AttributeError b).
    { clear - N. induction es as [| e es IHes]; intros H b stk stks.
      - left. exists []. split; [reflexivity | constructor].
      - cbn [flat_map]. rewrite walks_app, walks_cons, walk_kw, walks_one.
        destruct (N (fst e) (snd e) (H e (or_introl eq_refl)) b stk stks) as [(v & -> & V) | ->]; [| now right].
        destruct (IHes (fun e I => H e (or_intror I)) b (v :: stk) stks) as [(vs & -> & Vs) | ->]; [left | now right].
        exists (v :: vs). split; [| now constructor]. cbn. now rewrite <- app_assoc. }
    cbn [t_params]. rewrite walk_node. cbn. rewrite walks_one, walk_node. cbn [enter]. unfold push_stack. cbn [Interp.body Interp.stack Interp.stacks].
    rewrite walks_cons, walk_kw, walks_cons.
    destruct (N k q (IH q) b [] (stk :: stks)) as [(v & -> & V) | ->]; [| now right].
    rewrite walks_app.
    assert (H : forall e, In e es -> forall b stk stks,
       (exists v, walk (t_params (snd e)) (St b stk stks) = Ok tt (St b (v :: stk) stks) /\
             ((exists k q' es, snd e = PDict k q' es) -> exists d, v = VDict d /\ forall s, dict_get d (VStr s) = None))
        \/ walk (t_params (snd e)) (St b stk stks) = Raise AttributeError b).
    { clear - IH. induction es as [| [k p] es IHes]; intros e I; [destruct I |].
      destruct I as [<- | I]; [apply IH | apply IHes, I]. }
    destruct (L es H b [v] (stk :: stks)) as [(vs & -> & Vs) | ->]; [left | now right].
    rewrite walks_one, walk_kw. cbn [exit]. unfold exit_dictionary. cbn [Interp.stack].
    rewrite rev_app_distr, rev_involutive. cbn [rev app].
    destruct (go_entries (v :: vs) [] (St b (rev vs ++ [v]) (stk :: stks)) (Forall_cons _ V Vs) (fun _ => eq_refl)) as (d & E & D).
    exists (VDict d). split; [| intros _; exists d; auto].
    unfold Interp.bind at 1. rewrite E. reflexivity.
Qed.

Lemma dictionary_nameless : forall id k q es b stk,
  (exists d, walk (t_cmd (Set_ id (SetParams (PDict k q es)))) (St b stk []) =
             Ok tt (St (Core world (set_var id (VDict d) (vars world b)) (titles world b) (outside world b)) [] []) /\
             nameless d)
  \/ walk (t_cmd (Set_ id (SetParams (PDict k q es)))) (St b stk []) = Raise AttributeError b.
Proof.
  intros id k q es b stk. unfold t_cmd. rewrite walk_node. cbn [enter]. unfold Interp.body. cbn [Interp.stacks].
  rewrite walks_cons. unfold t_body. rewrite walk_node. cbn [enter]. unfold Interp.ret. rewrite walks_cons, walk_kw, walks_cons, walk_leaf, walks_one.
  destruct (params_nameless (PDict k q es) b [] []) as [(v & -> & V) | ->]; [left | now right].
  destruct V as (d & -> & D); [eauto |]. exists d. split; [| exact D].
  reflexivity.
Qed.

Lemma annual_fails : forall id n q o b stk, opts_mu q = None ->
  walk (t_cmd (Recorder id (RecAnnual n q None) o)) (St b stk []) = Raise UnboundLocalError b.
Proof.
  intros id n q o b stk N. unfold t_cmd. rewrite walk_node. cbn. rewrite walks_cons. body.
  rewrite walks_cons, walk_kw, walks_cons, walk_leaf_node by reflexivity. go.
  destruct q as [[m |] s | s m]; try discriminate.
  destruct o as [o |]; cbn [opt app]; go; try destruct o as [f md]; destruct s as [[] |]; reflexivity.
Qed.

End Simulation.

(** ** Variables *)
Lemma get_set : forall x y v l, get_var x (set_var y v l) = if string_dec x y then v else get_var x l.
Proof.
  intros x y v l. induction l as [|[z w] l IH]; cbn [set_var get_var].
  - destruct (string_dec x y) as [->|N]; [rewrite String.eqb_refl; reflexivity|].
    apply String.eqb_neq in N. rewrite N. reflexivity.
  - destruct (String.eqb_spec y z) as [->|N]; cbn [get_var].
    + destruct (string_dec x z) as [->|N]; [rewrite String.eqb_refl; reflexivity|].
      apply String.eqb_neq in N. rewrite N. reflexivity.
    + rewrite IH. destruct (string_dec x y) as [->|N']; [|reflexivity].
      apply String.eqb_neq in N. rewrite N. reflexivity.
Qed.

Lemma variables_latest : forall x given,
  get_var x (fold_left (fun l p => set_var (fst p) (snd p) l) given []) = latest x given.
Proof.
  intros x given. unfold latest. rewrite <- fold_left_rev_right.
  induction (rev given) as [|[y v] l IH]; cbn [fold_right find]; [reflexivity|].
  rewrite get_set. cbn [fst snd]. destruct (string_dec x y); [reflexivity|exact IH].
Qed.
