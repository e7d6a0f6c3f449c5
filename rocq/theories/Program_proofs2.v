(** * The grammar derives the tree of every script whose words are words *)
From Coq Require Import Ascii String List Bool.
From Verif Require Import Interp Interp_spec Program Program_proofs.
Import ListNotations.
Local Open Scope list_scope.

Definition good (w : kind * string) : Prop := lexeme (fst w) (snd w) = true.
Definition lexed (t : tree) : Prop := Forall good (leaves t).

Lemma star_map : forall A r (f : A -> list tree) l, (forall a, In a l -> matches r (f a)) -> matches (Star r) (flat_map f l).
Proof.
  induction l as [|a l IH]; intros H; cbn [flat_map]; [constructor|].
  apply matches_more; [apply H; left; reflexivity|apply IH; intros b I; apply H; right; exact I].
Qed.

(** Takes what is known of the words apart. *)
Ltac dig :=
  unfold lexed in *;
  repeat first
    [ progress cbn [leaves flat_map app kw fixed_text opt map fst snd lv] in *
    | rewrite app_nil_r in *
    | match goal with
      | H : Forall _ (_ ++ _) |- _ => apply Forall_app in H; let H1 := fresh "W" in let H2 := fresh "W" in destruct H as [H1 H2]
      | H : Forall _ (_ :: _) |- _ => apply Forall_cons_iff in H; let H1 := fresh "W" in let H2 := fresh "W" in destruct H as [H1 H2]
      | H : Forall _ [] |- _ => clear H
      | H : Forall _ (flat_map _ (_ ++ _)) |- _ => rewrite flat_map_app in H
      end ].

Ltac tok := apply matches_token; first [reflexivity | assumption].

Lemma params_rule : forall p, matches (R parameters) [t_params p].
Proof. intros []; exact (matches_rule _ _). Qed.
Ltac rule := first [exact (matches_rule _ _) | apply params_rule].

(** Finds how a list of trees matches. *)
Ltac mt :=
  cbn [grammar seq alts map]; unfold Opt;
  lazymatch goal with
  | |- matches Eps [] => constructor
  | |- matches (T _) [_] => tok
  | |- matches (R _) [_] => rule
  | |- matches (Seq (T _) _) (?x :: ?l) => apply (matches_seq _ _ [x] l); [tok | mt]
  | |- matches (Seq (R _) _) (?x :: ?l) => apply (matches_seq _ _ [x] l); [rule | mt]
  | |- matches (Seq (Alt Eps _) _) ?l =>
      first [ solve [apply (matches_seq _ _ [] l); [apply matches_left; constructor | mt]]
            | lazymatch l with ?x :: ?m => solve [apply (matches_seq _ _ [x] m); [apply matches_right; mt | mt]] end
            | lazymatch l with ?x :: ?y :: ?m => solve [apply (matches_seq _ _ [x; y] m); [apply matches_right; mt | mt]] end ]
  | |- matches (Seq (Alt _ _) _) (?x :: ?l) => apply (matches_seq _ _ [x] l); mt
  | |- matches (Seq (Star _) _) (_ ++ _) => apply matches_seq; [|mt]
  | |- matches (Star _) _ => idtac
  | |- matches (Alt _ _) _ => first [solve [apply matches_left; mt] | solve [apply matches_right; mt]]
  end.

Ltac all_derive := repeat (apply Forall_cons || apply Forall_nil); try apply derives_leaf.

Lemma d_script : forall e, lexed (t_script e) -> derives (t_script e).
Proof.
  intros e H. apply derives_node; [mt|]. all_derive. apply derives_node.
  - cbn [grammar]. replace (map t_piece e) with (flat_map (fun p => [t_piece p]) e)
      by (clear; induction e; cbn; congruence).
    apply star_map. intros p I.
    assert (G : good (match t_piece p with Leaf k s => (k, s) | _ => (OTHER, ""%string) end)) by (destruct p; reflexivity).
    destruct p; mt.
  - apply Forall_forall. intros t I. apply in_map_iff in I. destruct I as (p & <- & _). destruct p; apply derives_leaf.
Qed.

Lemma d_var : forall x, lexed (t_var x) -> derives (t_var x).
Proof. intros x H. unfold t_var in *. dig. apply derives_node; [mt|all_derive]. Qed.

Lemma d_number : forall n, lexed (t_number n) -> derives (t_number n).
Proof.
  intros n H. unfold t_number in *. apply derives_node.
  - destruct n; dig; mt.
  - all_derive. destruct n; dig; try apply derives_leaf; [apply d_script|apply d_var]; assumption.
Qed.

Lemma d_limit : forall n, lexed (t_limit n) -> derives (t_limit n).
Proof. intros [s|x|e] H; [apply derives_leaf|apply d_var|apply d_script]; assumption. Qed.

Lemma d_sc : forall a, lexed (t_sc a) -> derives (t_sc a).
Proof.
  intros a H. unfold t_sc in *. apply derives_node.
  - destruct a; dig; mt.
  - all_derive. destruct a; dig; [apply derives_leaf|apply d_number; assumption].
Qed.

Lemma d_sc2 : forall a b, lexed (t_sc2 a b) -> derives (t_sc2 a b).
Proof. intros a b H. unfold t_sc2 in *. dig. apply derives_node; [mt|all_derive; apply d_sc; assumption]. Qed.
Lemma d_sc3 : forall a b c, lexed (t_sc3 a b c) -> derives (t_sc3 a b c).
Proof. intros a b c H. unfold t_sc3 in *. dig. apply derives_node; [mt|all_derive; [apply d_sc2|apply d_sc]; assumption]. Qed.
Lemma d_param : forall p, lexed (t_param p) -> derives (t_param p).
Proof. intros p H. unfold t_param in *. apply derives_node; [destruct p; dig; mt|all_derive; destruct p; apply derives_leaf]. Qed.

Lemma Forall_flat : forall A B (P : B -> Prop) (f : A -> list B) l, Forall P (flat_map f l) <-> (forall a, In a l -> Forall P (f a)).
Proof.
  induction l as [|a l IH]; cbn [flat_map]; [split; [intros _ ? []|constructor]|].
  rewrite Forall_app, IH. split.
  - intros [H1 H2] b [<-|I]; auto.
  - intros H. split; [apply H; left; reflexivity|]. intros b I. apply H. right. exact I.
Qed.

Lemma lexed_list : forall A (f : A -> list tree) l, Forall good (flat_map leaves (flat_map f l)) ->
  forall a, In a l -> Forall good (flat_map leaves (f a)).
Proof.
  intros A f l H a I. rewrite Forall_flat in H. rewrite Forall_flat. intros t It. apply H.
  apply in_flat_map. exists a. split; assumption.
Qed.

Lemma derives_list : forall A (f : A -> list tree) l, (forall a, In a l -> Forall derives (f a)) -> Forall derives (flat_map f l).
Proof. intros A f l H. apply Forall_flat. exact H. Qed.

(** The last words of lists: each after a comma. *)
Ltac star := apply star_map; let a := fresh in let I := fresh in intros a I; cbn [app]; mt.

Ltac member a I :=
  match type of I with In _ ?l =>
    match goal with H : Forall good (flat_map leaves ?g) |- _ =>
      match g with context [l] => let L := fresh "L" in pose proof (lexed_list _ _ l H a I) as L end
    end
  end; unfold comma_list in *; dig.

Lemma d_params : forall p, lexed (t_params p) -> derives (t_params p).
Proof.
  induction p as [p|p ps|k v es IHv IHes] using params_ind'; intros H; cbn [t_params] in *; apply derives_node; [mt| |mt| |mt|]; all_derive.
  - apply d_param. dig. assumption.
  - dig. apply derives_node; [mt; unfold comma_list; star|].
    all_derive; [apply d_param; assumption|]. apply Forall_app. split; [|all_derive].
    apply derives_list. intros q I. all_derive. apply d_param.
    member q I. assumption.
  - dig. apply derives_node; [mt; star|].
    all_derive.
    + apply derives_node.
      * destruct k; cbn [t_dkey] in *; dig; mt.
      * all_derive; [destruct k; apply derives_leaf|apply IHv; assumption].
    + apply Forall_app. split; [|all_derive]. apply derives_list. intros e I. all_derive.
      rewrite Forall_forall in IHes. specialize (IHes e I).
      member e I.
      apply derives_node.
      * destruct (fst e); cbn [t_dkey] in *; dig; mt.
      * all_derive; [destruct (fst e); apply derives_leaf|apply IHes; assumption].
Qed.

Lemma d_opts : forall o, derives (t_opts o).
Proof.
  assert (M : forall m, derives (t_mu_option m)) by (intros []; apply derives_node; [mt|all_derive|mt|all_derive|mt|all_derive]).
  assert (D : forall m, derives (t_sd_option m)) by (intros []; apply derives_node; [mt|all_derive|mt|all_derive]).
  intros [[m|] [d|]|d m]; apply derives_node; cbn [opt app]; try mt; all_derive; auto.
Qed.

Lemma d_fref : forall f, lexed (t_fref f) -> derives (t_fref f).
Proof. intros f H. unfold t_fref in *. apply derives_node; [destruct f; dig; mt|all_derive; destruct f; dig; [apply derives_leaf|apply d_var; assumption]]. Qed.
Lemma d_file : forall f, lexed (t_file f) -> derives (t_file f).
Proof. intros f H. unfold t_file in *. apply derives_node; [destruct f; dig; mt|all_derive; destruct f; apply derives_leaf]. Qed.
Lemma d_key : forall f, lexed (t_key f) -> derives (t_key f).
Proof. intros f H. unfold t_key in *. apply derives_node; [dig; mt|all_derive]. Qed.
Lemma d_db : forall d, lexed (t_db d) -> derives (t_db d).
Proof.
  intros [[f|] k|k f] H; apply derives_node; unfold t_db in *; dig; cbn [app]; try mt; all_derive; auto using d_file, d_key.
Qed.
Lemma d_popts : forall o, lexed (t_popts o) -> derives (t_popts o).
Proof.
  intros [f m] H. cbn [t_popts] in *. apply derives_node.
  - destruct m as [[]|]; cbn [opt]; mt.
  - dig. all_derive; [apply d_file; assumption|]. destruct m as [[]|]; cbn [opt]; all_derive.
Qed.

Lemma d_place : forall p, lexed (t_place p) -> derives (t_place p).
Proof.
  intros p H. unfold t_place in *. destruct p; dig; apply derives_node; try mt; all_derive.
  - apply derives_node; [mt; unfold comma_list; star|]. all_derive. apply derives_list. intros a I. all_derive.
  - apply d_script. assumption.
  - apply d_var. assumption.
  - apply derives_node; [destruct linear; mt|all_derive].
Qed.

Lemma d_col : forall c, lexed (t_col c) -> derives (t_col c).
Proof.
  intros c H. unfold t_col in *. destruct c as [m|d|x]; dig; apply derives_node; try mt; all_derive.
  - apply derives_node; [destruct m; mt|all_derive].
  - apply derives_node; [destruct d; mt|all_derive].
  - apply d_sc. assumption.
Qed.

Lemma d_cols : forall c, lexed (t_cols c) -> derives (t_cols c).
Proof.
  intros [c l] H. unfold t_cols in *. cbn [fst snd] in *. dig. apply derives_node; [mt; unfold comma_list; star|].
  all_derive; [apply d_col; assumption|]. apply derives_list. intros a I. all_derive. apply d_col.
  member a I. assumption.
Qed.

Lemma pairs_star : forall p ps, matches (seq [T LBRACKET; R scalar2; T RBRACKET;
      Star (seq [T COMMA; T LBRACKET; R scalar2; T RBRACKET])]) (t_pairs p ps).
Proof.
  intros p ps. unfold t_pairs, bracketed, comma_list. cbn [app]. mt. apply star_map. intros a I. mt.
Qed.

Lemma d_pairs : forall p ps, Forall good (flat_map leaves (t_pairs p ps)) -> Forall derives (t_pairs p ps).
Proof.
  intros p ps H. unfold t_pairs, bracketed, comma_list, t_pair in *. dig. cbn [app]. all_derive; [apply d_sc2; assumption|].
  apply derives_list. intros a I. all_derive. apply d_sc2.
  member a I. assumption.
Qed.

Lemma d_shape : forall s, lexed (t_shape s) -> derives (t_shape s).
Proof.
  intros s H. unfold t_shape in *. destruct s as [a b c|a b|p ps|p ps]; dig; apply derives_node.
  - mt.
  - all_derive. apply d_sc3; assumption.
  - mt.
  - all_derive. apply d_sc2; assumption.
  - apply (matches_seq _ _ [kw LOGLOG]); [tok|apply pairs_star].
  - apply Forall_cons; [apply derives_leaf|apply d_pairs; assumption].
  - apply (matches_seq _ _ [kw LINEAR]); [tok|apply pairs_star].
  - apply Forall_cons; [apply derives_leaf|apply d_pairs; assumption].
Qed.

Lemma d_spec5 : forall p, lexed (t_spec5 p) -> derives (t_spec5 p).
Proof.
  intros [[[[a b] c] d] e] H. cbn [t_spec5] in *. dig. apply derives_node; [mt|all_derive; apply d_number; assumption].
Qed.

Lemma d_printed : forall p, lexed (t_printed p) -> derives (t_printed p).
Proof.
  intros p H. unfold t_printed in *. destruct p as [[|s|e|x]|r id|]; dig; apply derives_node; cbn [app];
    try mt; all_derive; auto using d_script, d_var.
  destruct r; cbn [k_reg]; mt.
Qed.

Lemma d_search : forall s, lexed (t_search s) -> derives (t_search s).
Proof.
  intros [k l] H. unfold t_search in *. cbn [fst snd] in *. dig. apply derives_node.
  - destruct k, l; cbn [k_search t_limit] in *; dig; mt.
  - all_derive. apply d_limit. assumption.
Qed.

Lemma d_dist : forall a b o, lexed (t_dist a b o) -> derives (t_dist a b o).
Proof. intros a b o H. unfold t_dist in *. dig. apply derives_node; [mt|all_derive; [apply d_sc2; assumption|apply d_opts]]. Qed.

Lemma matches_app : forall a b l m, matches a l -> matches b m -> matches (Seq a b) (l ++ m).
Proof. intros. apply matches_seq; assumption. Qed.

Lemma opt_match : forall A (f : A -> tree) r o, (forall a, matches (R r) [f a]) -> matches (Opt (R r)) (opt f o).
Proof. intros A f r [a|] H; [apply matches_right, H|apply matches_left; constructor]. Qed.

Lemma opt_derives : forall A (f : A -> tree) o, (forall a, lexed (f a) -> derives (f a)) ->
  Forall good (flat_map leaves (opt f o)) -> Forall derives (opt f o).
Proof. intros A f [a|] H G; cbn [opt] in *; all_derive. dig. apply H. assumption. Qed.

Lemma popts_rule : forall o, matches (R print_options) [t_popts o].
Proof. intros [f m]. rule. Qed.
Lemma cols_rule : forall o, matches (R recorder_cols) [t_cols o].
Proof. intros o. rule. Qed.

Definition rec_rhs := alts
  [seq [R recorder_type; T ID; R recorder_at; Opt (R recorder_cols)];
   seq [Alt (T DSRATE) (T COLLRATE); T ID];
   seq [alts (map T [COSTRATE; COLLAPSE; DEAGG; TOTALCOST]); T ID; R recorder_at];
   seq [T PDF; T ID; R recorder_at; Opt (T NORMALISE_FLAG)];
   seq [T STRUCTCOST; T ID;
     Alt (seq [T NPV_FLAG; T INTEGER; T COLON; T INTEGER; T COLON; T INTEGER; T FLOAT_VAL])
         (Seq (Alt (seq [R structcost_type; R recorder_at])
                   (seq [T ANNUAL_FLAG; R lognormal_options]))
              (Opt (R recorder_cols)))]].

Lemma rec_match : forall r, Forall good (flat_map leaves (t_rec r)) -> matches rec_rhs (t_rec r).
Proof.
  intros r H. unfold rec_rhs, t_rec in *. cbn [seq alts map].
  destruct r as [t id p c|t id|t id p|id p n|id a b c d|id b p c|id q c]; dig.
  - apply matches_left. destruct c; cbn [opt app]; mt.
  - apply matches_right, matches_left. destruct t; mt.
  - do 2 apply matches_right. apply matches_left. destruct t; mt.
  - do 3 apply matches_right. apply matches_left. destruct n; cbn [app]; mt.
  - do 4 apply matches_right. mt.
  - do 4 apply matches_right. apply (matches_seq _ _ [kw STRUCTCOST]); [tok|]. apply (matches_seq _ _ [Leaf ID id]); [tok|].
    apply matches_right. match goal with |- matches _ (?x :: ?y :: ?m) => apply (matches_seq _ _ [x; y] m) end.
    + apply matches_left. mt.
    + apply opt_match. apply cols_rule.
  - do 4 apply matches_right. apply (matches_seq _ _ [kw STRUCTCOST]); [tok|]. apply (matches_seq _ _ [Leaf ID id]); [tok|].
    apply matches_right. match goal with |- matches _ (?x :: ?y :: ?m) => apply (matches_seq _ _ [x; y] m) end.
    + apply matches_right. mt.
    + apply opt_match. apply cols_rule.
Qed.

Lemma d_rec : forall r, Forall good (flat_map leaves (t_rec r)) -> Forall derives (t_rec r).
Proof.
  intros r H. unfold t_rec in *.
  destruct r as [t id p c|t id|t id p|id p n|id a b c d|id b p c|id q c]; dig; cbn [app]; all_derive;
    try (apply d_place; assumption); try (apply opt_derives; [apply d_cols|assumption]).
  - apply derives_node; [destruct t; mt|all_derive].
  - destruct n; all_derive.
  - apply derives_node; [destruct b; mt|all_derive].
  - apply d_opts.
Qed.

Lemma d_body : forall c, lexed (t_body c) -> derives (t_body c).
Proof.
  intros c H. destruct c; cbn [t_body] in *; unfold lexed in *.
  - dig. apply derives_node; [mt|all_derive].
  - dig. apply derives_node; [destruct s; mt|all_derive; apply d_shape; assumption].
  - dig. apply derives_node; [mt|all_derive; try apply d_fref; try assumption; apply d_opts].
  - dig. apply derives_node; [mt|all_derive].
  - dig. apply derives_node; [mt|all_derive].
  - dig. apply derives_node; [mt|all_derive; apply d_db; assumption].
  - dig. apply derives_node; [mt|all_derive]. apply derives_node; [mt|all_derive; [|apply d_opts]].
    apply derives_node; [apply pairs_star|apply d_pairs; assumption].
  - dig. apply derives_node; [mt|all_derive]. apply derives_node; [mt|all_derive; [|apply d_opts]].
    apply derives_node; [apply pairs_star|apply d_pairs; assumption].
  - dig. apply derives_node; [mt|all_derive]. apply derives_node; [mt|all_derive].
    apply derives_node.
    + change (matches (seq [R bilevel_spec; Star (seq [T COMMA; R bilevel_spec])])
        ([t_spec5 p] ++ comma_list (fun p0 => [t_spec5 p0]) ps)). cbn [seq]. apply matches_seq; [destruct p as [[[[? ?] ?] ?] ?]; rule|].
      unfold comma_list. apply star_map. intros [[[[? ?] ?] ?] ?] I. mt.
    + all_derive; [apply d_spec5; assumption|]. apply derives_list. intros q I. all_derive. apply d_spec5.
      member q I. assumption.
  - apply derives_node.
    + destruct delay, x, y; cbn [opt app]; dig; mt.
    + dig. cbn [app]. all_derive;
        try (apply derives_node; [mt|all_derive]).
      apply Forall_app. split.
      * destruct delay; cbn [opt]; dig; all_derive. apply derives_node; [mt|all_derive].
      * all_derive. apply Forall_app. split; [destruct x|destruct y]; cbn [opt]; all_derive.
  - dig. apply derives_node.
    + apply (matches_seq _ _ [t_printed p]); [destruct p; cbn [t_printed]; mt|apply opt_match; apply popts_rule].
    + apply Forall_cons; [apply d_printed; assumption|apply opt_derives; [apply d_popts|assumption]].
  - dig. apply derives_node.
    + destruct iterations, s; cbn [opt app t_limit] in *; dig; mt.
    + cbn [app]. all_derive.
      * apply derives_node; [mt|all_derive].
      * apply d_number; assumption.
      * apply d_limit; assumption.
      * apply opt_derives; [apply d_search|assumption].
  - dig. apply derives_node.
    + apply (matches_seq _ _ [kw RECORDER]); [tok|]. apply (matches_seq _ _ [Node recorder_id [Leaf ID id]]); [rule|].
      apply matches_seq; [apply rec_match; assumption|apply opt_match; apply popts_rule].
    + all_derive; [apply derives_node; [mt|all_derive]|]. apply Forall_app. split; [apply d_rec; assumption|].
      apply opt_derives; [apply d_popts|assumption].
  - apply derives_node; [mt|all_derive].
  - dig. apply derives_node; [destruct v; mt|all_derive]. destruct v; [apply d_script|apply d_var|apply d_params]; assumption.
  - dig. apply derives_node; [mt|all_derive; apply d_file; assumption].
  - dig. apply derives_node; [mt|all_derive; apply d_dist; assumption].
  - dig. apply derives_node; [mt|all_derive; apply d_dist; assumption].
  - dig. apply derives_node; [mt|all_derive]. apply derives_node.
    + change (matches (seq [T ID; Star (seq [T COMMA; T ID])])
        ([Leaf ID g] ++ comma_list (fun g0 => [Leaf ID g0]) gs)). cbn [seq]. apply matches_seq; [tok|].
      unfold comma_list in *. apply star_map. intros q I. member q I. mt.
    + all_derive. apply derives_list. intros q I. all_derive.
  - dig. apply derives_node; [mt|all_derive; apply d_file; assumption].
  - dig. apply derives_node; [mt|all_derive; apply d_dist; assumption].
  - dig. apply derives_node; [mt|all_derive; apply d_dist; assumption].
  - apply derives_node; [destruct flag as [[]|], f; cbn [opt app]; mt|].
    dig. all_derive. apply Forall_app. split; [destruct flag; all_derive|apply opt_derives; [apply d_file|assumption]].
  - apply derives_node; [destruct print; mt|all_derive].
  - dig. apply derives_node; [mt|all_derive; apply d_file; assumption].
  - dig. apply derives_node; [mt|all_derive; apply d_file; assumption].
Qed.

Lemma command_rule : forall c, matches (grammar command) [t_body c; kw SEMICOLON].
Proof.
  intros c. cbn [grammar]. apply (matches_seq _ _ [t_body c]); [|tok].
  destruct c; cbn [t_body alts map]; try mt.
Qed.

Lemma d_cmd : forall c, lexed (t_cmd c) -> derives (t_cmd c).
Proof.
  intros c H. unfold t_cmd in *. dig. apply derives_node; [apply command_rule|all_derive; apply d_body; assumption].
Qed.

Lemma d_items : forall l, lexed (t_items l) -> derives (t_items l).
Proof.
  intros l H. unfold t_items in *. apply derives_node.
  - cbn [grammar].
    replace (map (fun i => match i with Space s => Leaf WS s | Command c => t_cmd c end) l)
      with (flat_map (fun i => [match i with Space s => Leaf WS s | Command c => t_cmd c end]) l) by (clear; induction l; cbn; congruence).
    apply star_map. intros [s|c] I; mt.
  - apply Forall_forall. intros t I. apply in_map_iff in I. destruct I as ([s|c] & <- & I); [apply derives_leaf|].
    apply d_cmd. unfold lexed in *. cbn [leaves] in H. rewrite Forall_flat in H. apply H. apply in_map_iff. exists (Command c). auto.
Qed.
