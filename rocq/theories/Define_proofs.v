(** * Lemmas about definitions made from Python *)
From Coq Require Import Reals List Bool ZArith Lra Lia.
From Verif Require Import Num ER ERmath Maq Maq_spec Maq_ER_spec Lognormal Lognormal_spec Lognormal_proofs
  Damage Damage_spec Damage_proofs Damage_proofs2 Group Group_proofs2 Define Define_spec.
Import ListNotations.
Local Open Scope R_scope.

(** ** Loops *)

Lemma map_py_fine : forall {A B} (f : A -> pyres B) (h : A -> B) l, (forall a, In a l -> f a = Fine (h a)) ->
  map_py f l = Fine (map h l).
Proof.
  induction l as [|a l IH]; intros H; [reflexivity|].
  cbn [map_py map]. rewrite (H a (or_introl eq_refl)). cbn [pbind]. rewrite IH by (intros; apply H; right; assumption).
  reflexivity.
Qed.

Lemma map_py_raises : forall {A B} (f : A -> pyres B) l, (forall a, In a l -> f a = Raises \/ exists b, f a = Fine b) ->
  (exists a, In a l /\ f a = Raises) -> map_py f l = Raises.
Proof.
  induction l as [|a l IH]; intros H [x [Hx E]]; [destruct Hx|].
  cbn [map_py]. destruct (H a (or_introl eq_refl)) as [R|[b R]]; rewrite R; [reflexivity|]. cbn [pbind].
  rewrite IH; [reflexivity|intros; apply H; right; assumption|].
  destruct Hx as [->|Hx]; [congruence|]. exists x. auto.
Qed.

(** ** Fragility functions *)

Lemma onsets_bad : forall l m, onsets_ok m l = false <->
  (er_leb (get_mu_lnX (nth 0 l nodist)) m = true /\ l <> []) \/ out_of_order l.
Proof.
  induction l as [|d l IH]; intros m; cbn [onsets_ok].
  - split; [discriminate|]. intros [[_ H]|[i [H _]]]; [contradiction|cbn in H; lia].
  - cbn [nth]. destruct (er_leb (get_mu_lnX d) m) eqn:E.
    + split; [intros _; left; split; [reflexivity|discriminate]|reflexivity].
    + rewrite IH. split.
      * intros [[H Hl]|[i [Hi H]]]; right.
        -- exists 0%nat. destruct l; [contradiction|]. cbn [length nth] in *. split; [lia|exact H].
        -- exists (S i). cbn [length nth] in *. split; [lia|exact H].
      * intros [[H _]|[i [Hi H]]]; [discriminate|]. destruct i as [|i]; cbn [length nth] in *.
        -- left. split; [exact H|]. destruct l; [cbn in Hi; lia|discriminate].
        -- right. exists i. split; [lia|exact H].
Qed.

Lemma fragility_cases : forall l, new_fragility l = Returns l /\ l <> [] /\ ~ out_of_order l \/
  new_fragility l = Throws /\ (l = [] \/ out_of_order l).
Proof.
  intros [|d l]; [right; auto|]. unfold new_fragility. destruct (onsets_ok NaN (d :: l)) eqn:E.
  - left. repeat split; [discriminate|]. intros H.
    assert (K : onsets_ok NaN (d :: l) = false) by (apply onsets_bad; right; exact H). congruence.
  - right. split; [reflexivity|]. right. apply onsets_bad in E. destruct E as [[E _]|E]; [|exact E].
    rewrite leb_nan in E. discriminate.
Qed.

Lemma py_make_cases : forall o d, (exists mt st, o = Options (Some mt) (Some st) /\ py_make o d = Fine (make (fst d) mt (snd d) st)) \/
  ((o_mu o = None \/ o_sd o = None) /\ py_make o d = Raises).
Proof.
  intros [[mt|] [st|]] d; cbn; [left; exists mt, st; auto|right; auto|right; auto|right; auto].
Qed.

Theorem fragility_defined : forall mt st scalars,
  let l := map (fun d => make (fst d) mt (snd d) st) scalars in
  let made := fragfn_user (Options (Some mt) (Some st)) scalars in
  (made = Fine l /\ scalars <> [] /\ ~ out_of_order l) \/ (made = Ends /\ (scalars = [] \/ out_of_order l)).
Proof.
  intros mt st scalars l made. unfold made, fragfn_user.
  rewrite (map_py_fine _ (fun d => make (fst d) mt (snd d) st)) by reflexivity. fold l. cbn [pbind].
  destruct (fragility_cases l) as [[E [H1 H2]]|[E H]]; rewrite E; cbn [lib].
  - left. repeat split; [|exact H2]. intros ->. apply H1. reflexivity.
  - right. split; [reflexivity|]. destruct H as [H|H]; [left|right; exact H]. destruct scalars; [reflexivity|discriminate].
Qed.

Theorem fragility_undescribed : forall o scalars, o_mu o = None \/ o_sd o = None ->
  (scalars <> [] -> fragfn_user o scalars = Raises) /\ (scalars = [] -> fragfn_user o scalars = Ends).
Proof.
  intros o scalars Ho. split; [|intros ->; reflexivity]. intros Hs. unfold fragfn_user.
  rewrite (map_py_raises (py_make o)); [reflexivity| |].
  - intros a _. destruct (py_make_cases o a) as [[mt [st [-> _]]]|[_ E]]; [destruct Ho; discriminate|left; exact E].
  - destruct scalars as [|a r]; [contradiction|]. exists a. split; [left; reflexivity|].
    destruct (py_make_cases o a) as [[mt [st [-> _]]]|[_ E]]; [destruct Ho; discriminate|exact E].
Qed.

(** ** Loss functions *)

Theorem simple_defined : forall mt st data,
  simplelossfn (Options (Some mt) (Some st)) data =
  match data with
  | [] => Ends
  | _ => Fine (SimpleLoss (map (fun d => if er_eqb (fst d) (Fin 0) then nodist else make (fst d) mt (snd d) st) data))
  end.
Proof.
  intros mt st data. unfold simplelossfn.
  rewrite (map_py_fine _ (fun d => if er_eqb (fst d) (Fin 0) then nodist else make (fst d) mt (snd d) st)).
  - destruct data; reflexivity.
  - intros a _. unfold loss_state. destruct (er_eqb (fst a) (Fin 0)); reflexivity.
Qed.

Theorem simple_undescribed : forall o data, o_mu o = None \/ o_sd o = None ->
  (data = [] -> simplelossfn o data = Ends) /\
  (Exists (fun d => er_eqb (fst d) (Fin 0) = false) data -> simplelossfn o data = Raises) /\
  (data <> [] -> Forall (fun d => er_eqb (fst d) (Fin 0) = true) data ->
     simplelossfn o data = Fine (SimpleLoss (map (fun _ => nodist) data))).
Proof.
  intros o data Ho. split; [intros ->; reflexivity|]. split.
  - intros H. unfold simplelossfn. rewrite (map_py_raises (loss_state o)); [reflexivity| |].
    + intros a _. unfold loss_state. destruct (er_eqb (fst a) (Fin 0)); [right; eexists; reflexivity|].
      destruct (py_make_cases o a) as [[mt [st [-> _]]]|[_ E]]; [destruct Ho; discriminate|left; exact E].
    + apply Exists_exists in H. destruct H as [a [Ha H]]. exists a. split; [exact Ha|]. unfold loss_state. rewrite H.
      destruct (py_make_cases o a) as [[mt [st [-> _]]]|[_ E]]; [destruct Ho; discriminate|exact E].
  - intros Hd H. unfold simplelossfn. rewrite (map_py_fine _ (fun _ => nodist)).
    + destruct data; [contradiction|reflexivity].
    + intros a Ha. unfold loss_state. rewrite Forall_forall in H. rewrite (H a Ha). reflexivity.
Qed.

Lemma bilevel_loop_spec : forall data params func,
  (forall b, In b data -> is_int (count_min b) && is_int (count_max b) = true) -> data <> [] ->
  bilevel_loop data params func = Fine (BiLevelLoss (params ++ data)).
Proof.
  induction data as [|d r IH]; intros params func H Hd; [contradiction|]. cbn [bilevel_loop].
  unfold py_bilevel. rewrite (H d (or_introl eq_refl)). cbn [pbind].
  unfold new_bilevel. destruct (params ++ [d]) eqn:E; [apply app_eq_nil in E; destruct E; discriminate|].
  cbn [lib pbind]. rewrite <- E. destruct r as [|d' r]; [reflexivity|].
  rewrite IH; [rewrite <- app_assoc; reflexivity|intros; apply H; right; assumption|discriminate].
Qed.

Lemma bilevel_loop_raises : forall data params func,
  (exists b, In b data /\ is_int (count_min b) && is_int (count_max b) = false) ->
  bilevel_loop data params func = Raises.
Proof.
  induction data as [|d r IH]; intros params func [b [Hb E]]; [destruct Hb|]. cbn [bilevel_loop]. unfold py_bilevel.
  destruct (is_int (count_min d) && is_int (count_max d)) eqn:F; [|reflexivity]. cbn [pbind].
  unfold new_bilevel. destruct (params ++ [d]) eqn:G; [apply app_eq_nil in G; destruct G; discriminate|].
  cbn [lib pbind]. rewrite <- G. apply IH. destruct Hb as [->|Hb]; [congruence|]. exists b. auto.
Qed.

Lemma is_int_range : forall z, is_int z = true <-> (-2147483648 <= z <= 2147483647)%Z.
Proof. intros z. unfold is_int, int_min, int_max. rewrite andb_true_iff, !Z.leb_le. tauto. Qed.

Theorem bilevel_defined : forall data,
  (bilevellossfn data = Fine (BiLevelLoss data) /\ data <> [] /\
   Forall (fun b => (-2147483648 <= count_min b <= 2147483647)%Z /\ (-2147483648 <= count_max b <= 2147483647)%Z) data) \/
  (bilevellossfn data = Raises /\ (data = [] \/
   Exists (fun b => ~ ((-2147483648 <= count_min b <= 2147483647)%Z /\ (-2147483648 <= count_max b <= 2147483647)%Z)) data)).
Proof.
  intros data. destruct data as [|d r]; [right; auto|]. unfold bilevellossfn. set (data := d :: r).
  destruct (Exists_dec (fun b => is_int (count_min b) && is_int (count_max b) = false) data) as [H|H].
  - intros x. destruct (is_int (count_min x) && is_int (count_max x)); [right; discriminate|left; reflexivity].
  - right. split; [apply bilevel_loop_raises; apply Exists_exists; exact H|]. right.
    apply Exists_exists in H. destruct H as [b [Hb H]]. apply Exists_exists. exists b. split; [exact Hb|].
    rewrite <- !is_int_range. rewrite andb_false_iff in H. intros [A B]. destruct H; congruence.
  - assert (K : forall b, In b data -> is_int (count_min b) && is_int (count_max b) = true).
    { intros b Hb. destruct (is_int (count_min b) && is_int (count_max b)) eqn:E; [reflexivity|].
      exfalso. apply H. apply Exists_exists. exists b. auto. }
    left. split; [apply (bilevel_loop_spec data [] Raises K); discriminate|]. split; [discriminate|].
    apply Forall_forall. intros b Hb. rewrite <- !is_int_range. apply andb_true_iff. apply K; exact Hb.
Qed.

(** ** Groups *)

Theorem group_defined : forall edp frag cost delay n ca da,
  (exists p slope fr f, edp = Some (p, slope) /\ frag = Some fr /\ cost = Some f /\ is_int n = true /\
     compgroup edp frag cost delay n ca da =
       Fine (Group p slope fr (Some f) (Some (match delay with Some d => d | None => SimpleLoss [nodist] end)) n ca da)) \/
  (compgroup edp frag cost delay n ca da = Raises /\
   (edp = None \/ frag = None \/ cost = None \/ ~ (-2147483648 <= n <= 2147483647)%Z)).
Proof.
  intros edp frag cost delay n ca da. unfold compgroup.
  destruct edp as [[p slope]|]; [|right; auto]. destruct frag as [fr|]; [|right; auto].
  destruct cost as [f|]; [|right; auto]. destruct (is_int n) eqn:E.
  - left. exists p, slope, fr, f. destruct delay; repeat split.
  - right. split; [reflexivity|]. right. right. right. rewrite <- is_int_range. congruence.
Qed.

(** ** Requests *)

Lemma p_highest_length : forall N frag edp, length (p_highest N frag edp) = length frag.
Proof.
  intros N frag edp. unfold p_highest, p_exceeded. rewrite <- (map_length (fun d => p_at_most N d edp) frag).
  generalize (map (fun d => p_at_most N d edp) frag). induction l as [|a [|b l] IH]; [reflexivity|reflexivity|].
  cbn [differences length] in *. f_equal. exact IH.
Qed.

Lemma levels_length : forall l n ds, levels l n = Returns ds -> length ds = length l.
Proof.
  induction l as [|b l IH]; intros n ds H; cbn [levels] in H; [inversion H; reflexivity|].
  destruct (level_dist b n); cbn [bind] in H; try discriminate.
  destruct (levels l n) eqn:E; cbn [bind] in H; try discriminate. inversion H. cbn. f_equal. eapply IH. exact E.
Qed.

Lemma level_small : forall b n, ((count_min b < n < count_max b)%Z ->
   (n - count_min b <= 2147483647)%Z /\ (count_max b - count_min b <= 2147483647)%Z) <-> exists d, level_dist b n = Returns d.
Proof.
  intros b n. unfold level_dist, level_mean.
  destruct (Z.leb_spec n (count_min b)); [split; [intros _; eexists; reflexivity|lia]|].
  destruct (Z.leb_spec (count_max b) n); [split; [intros _; eexists; reflexivity|lia]|].
  unfold int_sub. destruct (is_int (n - count_min b)) eqn:E1; cbn [bind].
  - destruct (is_int (count_max b - count_min b)) eqn:E2; cbn [bind].
    + rewrite is_int_range in E1, E2. split; [intros _; eexists; reflexivity|lia].
    + split; [|intros [d H1]; discriminate]. intros K. exfalso. destruct K as [K1 K2]; [lia|].
      assert (is_int (count_max b - count_min b) = true) by (apply is_int_range; lia). congruence.
  - split; [|intros [d H1]; discriminate]. intros K. exfalso. destruct K as [K1 K2]; [lia|].
    assert (is_int (n - count_min b) = true) by (apply is_int_range; lia). congruence.
Qed.

Lemma level_not_throws : forall b n, level_dist b n <> Throws.
Proof.
  intros b n. unfold level_dist, level_mean, int_sub.
  destruct (n <=? count_min b)%Z; [discriminate|]. destruct (count_max b <=? n)%Z; [discriminate|].
  destruct (is_int (n - count_min b)); cbn [bind]; [|discriminate].
  destruct (is_int (count_max b - count_min b)); discriminate.
Qed.

Lemma levels_kind : forall l n,
  (small_counts (BiLevelLoss l) n /\ exists ds, levels l n = Returns ds) \/
  (~ small_counts (BiLevelLoss l) n /\ levels l n = Undefined).
Proof.
  induction l as [|b l IH]; intros n; cbn [small_counts levels] in *; [left; split; [constructor|eexists; reflexivity]|].
  pose proof (level_small b n) as L. pose proof (level_not_throws b n) as T.
  destruct (level_dist b n) as [d| |]; [|contradiction|].
  - cbn [bind]. destruct (IH n) as [[A [ds E]]|[A E]]; rewrite E; cbn [bind].
    + left. split; [constructor; [apply L; eexists; reflexivity|exact A]|eexists; reflexivity].
    + right. split; [intros H; apply A; inversion H; assumption|reflexivity].
  - right. split; [|reflexivity]. intros H. inversion H. subst. destruct (proj1 L H2) as [d E]. discriminate.
Qed.

(** The outcome of a request does not depend on the demand. *)
Lemma loss_kind : forall N frag f n factor,
  (f <> BaseLoss /\ states_of f = length frag /\ small_counts f n /\ forall edp, exists d, loss_given N frag (Some f) n factor edp = Returns d) \/
  ((f = BaseLoss \/ states_of f <> length frag) /\ forall edp, loss_given N frag (Some f) n factor edp = Throws) \/
  (f <> BaseLoss /\ states_of f = length frag /\ ~ small_counts f n /\ forall edp, loss_given N frag (Some f) n factor edp = Undefined).
Proof.
  intros N frag f n factor. unfold loss_given, calculate_loss. destruct f as [|l|l]; cbn [unadjusted_loss states_of].
  - right. left. split; [left; reflexivity|]. reflexivity.
  - destruct (Nat.eqb (length l) (length frag)) eqn:E.
    + left. apply Nat.eqb_eq in E. split; [discriminate|]. split; [exact E|]. split; [exact I|]. intros edp.
      unfold weighted_loss, add_weighted. rewrite p_highest_length, E, Nat.eqb_refl.
      destruct (weigh l _ _ _). cbn [bind]. eexists. reflexivity.
    + right. left. split; [right; apply Nat.eqb_neq; exact E|]. intros edp.
      unfold weighted_loss, add_weighted. rewrite p_highest_length, E. reflexivity.
  - destruct (Nat.eqb (length l) (length frag)) eqn:E.
    + apply Nat.eqb_eq in E. destruct (levels_kind l n) as [[A [ds F]]|[A F]].
      * left. split; [discriminate|]. split; [exact E|]. split; [exact A|]. intros edp.
        rewrite p_highest_length, E, Nat.eqb_refl, F. cbn [bind]. unfold weighted_loss, add_weighted.
        rewrite p_highest_length, (levels_length _ _ _ F), E, Nat.eqb_refl. destruct (weigh ds _ _ _). cbn [bind]. eexists. reflexivity.
      * right. right. split; [discriminate|]. split; [exact E|]. split; [exact A|]. intros edp.
        rewrite p_highest_length, E, Nat.eqb_refl, F. reflexivity.
    + right. left. split; [right; apply Nat.eqb_neq; exact E|]. intros edp.
      rewrite p_highest_length. rewrite Nat.eqb_sym in E. rewrite E. reflexivity.
Qed.

(** *** Given a demand *)

Theorem edp_requests : forall N frag f n factor edp (fig : lnd -> er), f <> BaseLoss ->
  let asked := lib (bind (loss_given N frag (Some f) n factor edp) (fun d => Returns (fig d))) in
  (states_of f <> length frag -> asked = Ends) /\
  (states_of f = length frag -> small_counts f n -> exists d, loss_given N frag (Some f) n factor edp = Returns d /\ asked = Fine (fig d)) /\
  (states_of f = length frag -> ~ small_counts f n -> asked = Wild).
Proof.
  intros N frag f n factor edp fig Hf asked. unfold asked.
  destruct (loss_kind N frag f n factor) as [[_ [A [B C]]]|[[A C]|[_ [A [B C]]]]].
  - destruct (C edp) as [d E]. rewrite E. repeat split; intros; try contradiction. exists d. split; reflexivity.
  - rewrite C. repeat split; intros; destruct A; try contradiction; reflexivity.
  - rewrite C. repeat split; intros; try contradiction; reflexivity.
Qed.

(** *** Given an intensity *)

Definition nan_result : maq_result ER :=
  mkMR ER NaN false 2 ExNan 2 [Fin 0; PInf; Fin 1; Fin 0] [] (Some (Fin 0, Fin 1)).

Lemma x_zero : x_from_t ER (Fin 0) = PInf.
Proof. unfold x_from_t. cbn. unfold Reqb. destruct (Req_EM_T 0 0); [reflexivity|contradiction]. Qed.
Lemma x_one : x_from_t ER (Fin 1) = Fin 0.
Proof.
  unfold x_from_t. cbn. unfold Reqb. destruct (Req_EM_T 1 0); [lra|]. cbn. f_equal. lra.
Qed.
Lemma half_is : c0_mid ER = Fin (1 / 2).
Proof.
  unfold c0_mid. cbn. unfold Reqb. destruct (Req_EM_T 2 0); [lra|]. f_equal. lra.
Qed.
Lemma rev_half_is : c0_rev ER = Fin (1 / 2).
Proof. unfold c0_rev. rewrite half_is. cbn. f_equal. lra. Qed.
Lemma x_half : x_from_t ER (Fin (1 / 2)) = Fin 1.
Proof.
  unfold x_from_t. cbn. unfold Reqb. destruct (Req_EM_T (1 / 2) 0); [lra|]. cbn. f_equal. field.
Qed.
Lemma around_half : around ER (Fin (1 / 2)) = (Fin 0, Fin 1).
Proof.
  unfold around, half. cbn. unfold Reqb. destruct (Req_EM_T 2 0); [lra|]. unfold Rltb.
  destruct (Rlt_dec (1 / 2) (1 / 2)) as [H|H]; [lra|]. repeat f_equal. lra.
Qed.

Lemma nan_search : forall (f : er -> er) m fuel limit, f (Fin 1) = NaN ->
  search ER f m fuel limit = Done (mkSR ER (Some (Fin 0, Fin 1)) 2 [Fin 1; Fin 0]).
Proof.
  intros f m fuel limit H1.
  assert (L : forall b, b && le_eps ER NaN = false) by (intros b; apply andb_false_r).
  assert (S : forall c, c = Fin (1 / 2) -> search_start ER f c =
    (f (Fin 0), mkSS ER (Fin 0) (Fin 1) (Fin (1 / 2)) NaN 2 [Fin 1; Fin 0])).
  { intros c ->. unfold search_start. change (nofZ ER 1) with (Fin 1). change (nofZ ER 0) with (Fin 0).
    rewrite x_one, x_half, H1. reflexivity. }
  destruct m; cbn [search]; unfold binary_subdivision, reverse_binary_subdivision, low_first_reverse_binary_subdivision,
    scattered_search, directed_search;
    rewrite S by (exact half_is || exact rev_half_is); cbn [ss_fc]; rewrite L; try reflexivity.
  unfold set_around. cbn [ss_c]. rewrite around_half. reflexivity.
Qed.

Lemma nan_integral : forall (f : er -> er) s, f (Fin 1) = NaN -> f PInf = NaN -> integrate s f = Done nan_result.
Proof.
  intros f s H1 Hi. unfold integrate, MAQ. rewrite (nan_search f) by exact H1. cbn [obind sr_range sr_evals sr_trace].
  change (nisnan ER (Fin 0)) with false. cbn iota. unfold integrate_range, eval_left, eval_at.
  rewrite x_zero, Hi, x_one. reflexivity.
Qed.

Lemma zero_eqb : er_eqb (Fin 1) (Fin 0) = false /\ er_eqb PInf (Fin 0) = false /\ er_eqb (Fin 0) (Fin 0) = true.
Proof.
  cbn. unfold Reqb. destruct (Req_EM_T 1 0); [lra|]. destruct (Req_EM_T 0 0); [auto|contradiction].
Qed.

Lemma calls_nan : forall (call : er -> Damage.outcome lnd) o, (forall x, call x = o) ->
  calls call (rev (mr_trace nan_result)) = bind o (fun _ => Returns tt).
Proof.
  intros call o H. cbn [nan_result mr_trace rev app calls]. destruct zero_eqb as [A [B C]]. rewrite A, B, C, !H.
  destruct o; reflexivity.
Qed.

Lemma calls_return : forall (call : er -> Damage.outcome lnd) l, (forall x, exists d, call x = Returns d) ->
  calls call l = Returns tt.
Proof.
  intros call l H. induction l as [|x l IH]; [reflexivity|]. cbn [calls]. destruct (er_eqb x (Fin 0)); [exact IH|].
  destruct (H x) as [d E]. rewrite E. exact IH.
Qed.

Lemma mean_nodist : get_mean_X nodist = NaN.
Proof. reflexivity. Qed.
Lemma sd_nodist : get_sigma_X nodist = NaN.
Proof. reflexivity. Qed.

(** Integrands of a loss that is not a number. *)
Lemma nan_integrands : forall N D g im, 
  ((forall x, er_eqb x (Fin 0) = false -> get_mean_X (cost_edp N g x) = NaN) ->
     (forall s, integrate s (cost_integrand N D g im) = Done nan_result) /\
     (forall s, integrate s (cost_sq_integrand N D g im) = Done nan_result)) /\
  ((forall x, er_eqb x (Fin 0) = false -> get_mean_X (delay_edp N g x) = NaN) ->
     (forall s, integrate s (delay_integrand N D g im) = Done nan_result) /\
     (forall s, integrate s (delay_sq_integrand N D g im) = Done nan_result)).
Proof.
  intros N D g im. destruct zero_eqb as [A [B C]]. split; intros H; split; intros s; apply nan_integral;
    unfold cost_integrand, cost_sq_integrand, delay_integrand, delay_sq_integrand; rewrite ?A, ?B;
    (rewrite (H _ A) || rewrite (H _ B)); reflexivity.
Qed.

Lemma match_fine : forall call s f, limits_ok s -> (forall x, exists d, call x = Returns d) ->
  exists r, integrate s f = Done r /\ integration call (integrate s f) = Fine r.
Proof.
  intros call s f Hs H. destruct (integrate_done s f Hs) as [r E]. exists r. rewrite E. split; [reflexivity|].
  unfold integration. rewrite calls_return by exact H. reflexivity.
Qed.

Theorem im_cost_requests : forall N D s g im f, cost_fn g = Some f -> f <> BaseLoss ->
  ((count g <= 0)%Z -> E_Cost_IM N D s g im = Fine (Fin 0) /\ SD_ln_Cost_IM N D s g im = Fine (Fin 0)) /\
  ((0 < count g)%Z -> states_of f <> length (fragility g) ->
     E_Cost_IM N D s g im = Ends /\ SD_ln_Cost_IM N D s g im = Ends) /\
  ((0 < count g)%Z -> states_of f = length (fragility g) -> small_counts f (count g) -> limits_ok s ->
     exists e sd, e_cost_im N D s g im = Done e /\ sd_ln_cost_im N D s g im = Done sd /\
       E_Cost_IM N D s g im = Fine e /\ SD_ln_Cost_IM N D s g im = Fine sd) /\
  ((0 < count g)%Z -> states_of f = length (fragility g) -> ~ small_counts f (count g) ->
     E_Cost_IM N D s g im = Wild /\ SD_ln_Cost_IM N D s g im = Wild).
Proof.
  intros N D s g im f Hf Hb. unfold E_Cost_IM, SD_ln_Cost_IM, E_Cost_IM, e_cost_im, sd_ln_cost_im, e_cost_im.
  destruct (Z.ltb_spec 0 (count g)) as [Hc|Hc].
  2: { split; [intros _; split; reflexivity|]. split; [lia|]. split; lia. }
  split; [lia|].
  assert (Call : forall x, cost_call N g x = loss_given N (fragility g) (Some f) (count g) (cost_factor g) x)
    by (intros x; unfold cost_call; rewrite Hf; reflexivity).
  assert (Edp : forall x, cost_edp N g x = or_nodist (loss_given N (fragility g) (Some f) (count g) (cost_factor g) x))
    by (intros x; unfold cost_edp; rewrite Hf; reflexivity).
  destruct (loss_kind N (fragility g) f (count g) (cost_factor g)) as [[_ [A [B C]]]|[[A C]|[_ [A [B C]]]]].
  - split; [intros; contradiction|]. split; [|intros; contradiction]. intros _ _ _ Hs.
    assert (K : forall x, exists d, cost_call N g x = Returns d) by (intros x; rewrite Call; apply C).
    destruct (match_fine (cost_call N g) s (cost_integrand N D g im) Hs K) as [r [E1 E2]].
    destruct (match_fine (cost_call N g) s (cost_sq_integrand N D g im) Hs K) as [q [E3 E4]].
    rewrite E2, E4, E1, E3. cbn [pbind obind]. exists (integral_or (Fin 0) r).
    destruct (mr_successful q); eexists; repeat split.
  - destruct A as [A|A]; [contradiction|]. split; [|split; intros; contradiction]. intros _ _.
    destruct (proj1 (nan_integrands N D g im)) as [H1 H2].
    { intros x _. rewrite Edp, C. reflexivity. }
    rewrite H1, H2. unfold integration. rewrite (calls_nan _ Throws) by (intros x; rewrite Call; apply C).
    split; reflexivity.
  - split; [intros; contradiction|]. split; [intros; contradiction|]. intros _ _ _.
    destruct (proj1 (nan_integrands N D g im)) as [H1 H2].
    { intros x _. rewrite Edp, C. reflexivity. }
    rewrite H1, H2. unfold integration. rewrite (calls_nan _ Undefined) by (intros x; rewrite Call; apply C).
    split; reflexivity.
Qed.

Theorem im_delay_requests : forall N D s g im f, delay_fn g = Some f -> f <> BaseLoss ->
  ((count g <= 0)%Z -> E_Delay_IM N D s g im = Fine (Fin 0) /\ SD_ln_Delay_IM N D s g im = Fine (Fin 0)) /\
  ((0 < count g)%Z -> states_of f <> length (fragility g) ->
     E_Delay_IM N D s g im = Ends /\ SD_ln_Delay_IM N D s g im = Ends) /\
  ((0 < count g)%Z -> states_of f = length (fragility g) -> small_counts f (count g) -> limits_ok s ->
     exists e sd, e_delay_im N D s g im = Done e /\ sd_ln_delay_im N D s g im = Done sd /\
       E_Delay_IM N D s g im = Fine e /\ SD_ln_Delay_IM N D s g im = Fine sd) /\
  ((0 < count g)%Z -> states_of f = length (fragility g) -> ~ small_counts f (count g) ->
     E_Delay_IM N D s g im = Wild /\ SD_ln_Delay_IM N D s g im = Wild).
Proof.
  intros N D s g im f Hf Hb. unfold E_Delay_IM, SD_ln_Delay_IM, E_Delay_IM, e_delay_im, sd_ln_delay_im, e_delay_im.
  destruct (Z.ltb_spec 0 (count g)) as [Hc|Hc].
  2: { split; [intros _; split; reflexivity|]. split; [lia|]. split; lia. }
  split; [lia|].
  assert (Call : forall x, delay_call N g x = loss_given N (fragility g) (Some f) (count g) (delay_factor g) x)
    by (intros x; unfold delay_call; rewrite Hf; reflexivity).
  assert (Edp : forall x, delay_edp N g x = or_nodist (loss_given N (fragility g) (Some f) (count g) (delay_factor g) x))
    by (intros x; unfold delay_edp; rewrite Hf; reflexivity).
  destruct (loss_kind N (fragility g) f (count g) (delay_factor g)) as [[_ [A [B C]]]|[[A C]|[_ [A [B C]]]]].
  - split; [intros; contradiction|]. split; [|intros; contradiction]. intros _ _ _ Hs.
    assert (K : forall x, exists d, delay_call N g x = Returns d) by (intros x; rewrite Call; apply C).
    destruct (match_fine (delay_call N g) s (delay_integrand N D g im) Hs K) as [r [E1 E2]].
    destruct (match_fine (delay_call N g) s (delay_sq_integrand N D g im) Hs K) as [q [E3 E4]].
    rewrite E2, E4, E1, E3. cbn [pbind obind]. exists (integral_or (Fin 0) r).
    destruct (mr_successful q); eexists; repeat split.
  - destruct A as [A|A]; [contradiction|]. split; [|split; intros; contradiction]. intros _ _.
    destruct (proj2 (nan_integrands N D g im)) as [H1 H2].
    { intros x _. rewrite Edp, C. reflexivity. }
    rewrite H1, H2. unfold integration. rewrite (calls_nan _ Throws) by (intros x; rewrite Call; apply C).
    split; reflexivity.
  - split; [intros; contradiction|]. split; [intros; contradiction|]. intros _ _ _.
    destruct (proj2 (nan_integrands N D g im)) as [H1 H2].
    { intros x _. rewrite Edp, C. reflexivity. }
    rewrite H1, H2. unfold integration. rewrite (calls_nan _ Undefined) by (intros x; rewrite Call; apply C).
    split; reflexivity.
Qed.

(** ** Losses that are not numbers *)

Lemma add_nan_r : forall a, er_add a NaN = NaN.
Proof. destruct a; reflexivity. Qed.
Lemma mul_nan_r : forall a, er_mul a NaN = NaN.
Proof. destruct a; reflexivity. Qed.

Lemma weigh_nan_start : forall l w v, fst (weigh l w NaN v) = NaN.
Proof.
  induction l as [|d l IH]; intros [|p w] v; try reflexivity. cbn [weigh]. apply IH.
Qed.

Lemma weigh_nan : forall l w m v i, (i < length l)%nat -> length w = length l ->
  get_mean_X (nth i l nodist) = NaN \/ nth i w NaN = NaN -> fst (weigh l w m v) = NaN.
Proof.
  induction l as [|d l IH]; intros [|p w] m v i Hi Hw H; cbn [length] in *; try lia. cbn [weigh].
  destruct i as [|i].
  - cbn [nth] in H. replace (er_mul (get_mean_X d) p) with NaN
      by (destruct H as [H|H]; rewrite H; [reflexivity|rewrite mul_nan_r; reflexivity]).
    rewrite add_nan_r. apply weigh_nan_start.
  - cbn [nth] in H. apply (IH w _ _ i); [lia|lia|exact H].
Qed.

Lemma from_mean_nan : forall sd n f, let d := adjust (scale_count (from_mean_sd NaN sd) n) f in
  get_mean_X d = NaN /\ get_sigma_lnX d = NaN.
Proof.
  intros sd n f. assert (E : sigma_from_sd NaN sd = NaN).
  { unfold sigma_from_sd. cbn. destruct (er_mul sd sd); reflexivity. }
  unfold from_mean_sd. rewrite E. cbn. destruct n, f; split; reflexivity.
Qed.

Lemma nan_loss : forall l w n f i, (i < length l)%nat -> length w = length l ->
  get_mean_X (nth i l nodist) = NaN \/ nth i w NaN = NaN ->
  exists d, calculate_loss (SimpleLoss l) w n f = Returns d /\ get_mean_X d = NaN /\ get_sigma_lnX d = NaN.
Proof.
  intros l w n f i Hi Hw H. unfold calculate_loss, unadjusted_loss, weighted_loss, add_weighted.
  rewrite Hw, Nat.eqb_refl. pose proof (weigh_nan l w (Fin 0) (Fin 0) i Hi Hw H) as E.
  destruct (weigh l w (Fin 0) (Fin 0)) as [m v]. cbn [fst] in E. subst m. cbn [bind].
  eexists. split; [reflexivity|]. apply from_mean_nan.
Qed.

Lemma nan_state_highest : forall N frag edp i, (i < length frag)%nat ->
  p_at_most N (nth i frag nodist) edp = NaN -> nth i (p_highest N frag edp) NaN = NaN.
Proof.
  intros N frag edp i Hi H. unfold p_highest, p_exceeded.
  assert (K : nth i (map (fun d => p_at_most N d edp) frag) NaN = NaN).
  { rewrite (nth_indep _ NaN (p_at_most N nodist edp)) by (rewrite map_length; exact Hi).
    rewrite (map_nth (fun d => p_at_most N d edp)). exact H. }
  clear H Hi. revert i K. generalize (map (fun d => p_at_most N d edp) frag).
  induction l as [|a l IH]; intros i K; [exact K|]. destruct l as [|b l]; [exact K|].
  cbn [differences]. destruct i as [|i].
  - cbn [nth] in *. subst a. reflexivity.
  - cbn [nth]. apply IH. exact K.
Qed.

(** Groups with a state, in the fragility or in the losses, that has no distribution. *)
Lemma nan_loss_given : forall N frag l n f edp i, (i < length l)%nat -> length l = length frag ->
  nth i l nodist = nodist \/ nth i frag nodist = nodist ->
  exists d, loss_given N frag (Some (SimpleLoss l)) n f edp = Returns d /\ get_mean_X d = NaN /\ get_sigma_lnX d = NaN.
Proof.
  intros N frag l n f edp i Hi Hl H. unfold loss_given. apply (nan_loss l _ n f i Hi).
  - rewrite p_highest_length. auto.
  - destruct H as [H|H]; [left; rewrite H; reflexivity|right]. apply nan_state_highest; [lia|]. rewrite H. reflexivity.
Qed.

Theorem nan_cost_figures : forall N g l i, cost_fn g = Some (SimpleLoss l) -> length l = length (fragility g) ->
  (i < length l)%nat -> nth i l nodist = nodist \/ nth i (fragility g) nodist = nodist ->
  (forall edp, E_Cost_EDP N g edp = Fine NaN /\ SD_ln_Cost_EDP N g edp = Fine NaN) /\
  (forall D s im, E_Cost_IM N D s g im = Fine (Fin 0) /\ SD_ln_Cost_IM N D s g im = Fine (Fin 0)).
Proof.
  intros N g l i Hf Hl Hi H.
  assert (C : forall edp, exists d, cost_call N g edp = Returns d /\ get_mean_X d = NaN /\ get_sigma_lnX d = NaN).
  { intros edp. unfold cost_call. rewrite Hf. apply (nan_loss_given N _ l _ _ edp i Hi Hl H). }
  split.
  - intros edp. unfold E_Cost_EDP, SD_ln_Cost_EDP. destruct (C edp) as [d [E [M S]]]. rewrite E. cbn [bind lib]. rewrite M, S. auto.
  - intros D s im. unfold SD_ln_Cost_IM, E_Cost_IM. destruct (0 <? count g)%Z; [|auto].
    destruct (proj1 (nan_integrands N D g im)) as [H1 H2].
    { intros x _. destruct (C x) as [d [E [M _]]]. unfold cost_edp. unfold cost_call in E. rewrite E. exact M. }
    rewrite H1, H2. unfold integration. rewrite calls_return by (intros x; destruct (C x) as [d [E _]]; exists d; exact E).
    split; reflexivity.
Qed.

Theorem nan_delay_figures : forall N g l i, delay_fn g = Some (SimpleLoss l) -> length l = length (fragility g) ->
  (i < length l)%nat -> nth i l nodist = nodist \/ nth i (fragility g) nodist = nodist ->
  (forall edp, E_Delay_EDP N g edp = Fine NaN /\ SD_ln_Delay_EDP N g edp = Fine NaN) /\
  (forall D s im, E_Delay_IM N D s g im = Fine (Fin 0) /\ SD_ln_Delay_IM N D s g im = Fine (Fin 0)).
Proof.
  intros N g l i Hf Hl Hi H.
  assert (C : forall edp, exists d, delay_call N g edp = Returns d /\ get_mean_X d = NaN /\ get_sigma_lnX d = NaN).
  { intros edp. unfold delay_call. rewrite Hf. apply (nan_loss_given N _ l _ _ edp i Hi Hl H). }
  split.
  - intros edp. unfold E_Delay_EDP, SD_ln_Delay_EDP. destruct (C edp) as [d [E [M S]]]. rewrite E. cbn [bind lib]. rewrite M, S. auto.
  - intros D s im. unfold SD_ln_Delay_IM, E_Delay_IM. destruct (0 <? count g)%Z; [|auto].
    destruct (proj2 (nan_integrands N D g im)) as [H1 H2].
    { intros x _. destruct (C x) as [d [E [M _]]]. unfold delay_edp. unfold delay_call in E. rewrite E. exact M. }
    rewrite H1, H2. unfold integration. rewrite calls_return by (intros x; destruct (C x) as [d [E _]]; exists d; exact E).
    split; reflexivity.
Qed.

(** ** Distributions of definitions *)

Lemma consistent_moments : forall d, consistent d -> exists a v, moments d a v /\ get_mean_X d = Fin a.
Proof.
  intros [mu sg] [m [s [Hs [E1 [E2 _]]]]]. cbn in E1, E2. subst mu sg.
  exists (exp (m + s * s / 2)), ((exp (s * s) - 1) * exp (2 * m + s * s)).
  assert (M : moments (LND (Fin m) (Fin s)) (exp (m + s * s / 2)) ((exp (s * s) - 1) * exp (2 * m + s * s))).
  { left. exists m, s. repeat split; auto. }
  split; [exact M|]. apply (moments_mean _ _ _ M).
Qed.

Lemma all_described : forall mt st data, supported mt st -> Forall (proper_pair mt) data ->
  Forall2 (described mt st) data (map (fun d => make (fst d) mt (snd d) st) (map fin2 data)).
Proof.
  intros mt st data Hs H. induction H as [|p r [H1 H2] H IH]; [constructor|].
  cbn [map]. constructor; [|exact IH]. unfold described, fin2. cbn [fst snd]. apply round_trip; assumption.
Qed.

Theorem described_fragility : forall mt st data l, supported mt st -> Forall (proper_pair mt) data ->
  fragfn_user (Options (Some mt) (Some st)) (map fin2 data) = Fine l -> Forall2 (described mt st) data l.
Proof.
  intros mt st data l Hs H E. destruct (fragility_defined mt st (map fin2 data)) as [[F _]|[F _]];
    rewrite F in E; [|discriminate]. inversion E. subst l. apply all_described; assumption.
Qed.

Lemma nonzero : forall x, x <> 0 -> er_eqb (Fin x) (Fin 0) = false.
Proof. intros x H. cbn. unfold Reqb. destruct (Req_EM_T x 0); [contradiction|reflexivity]. Qed.

Theorem described_losses : forall mt st data, supported mt st -> Forall (proper_pair mt) data -> data <> [] ->
  Forall (fun d => fst d <> 0) data ->
  exists l, simplelossfn (Options (Some mt) (Some st)) (map fin2 data) = Fine (SimpleLoss l) /\
    Forall2 (described mt st) data l.
Proof.
  intros mt st data Hs H Hd Hz. rewrite simple_defined. destruct data as [|p r]; [contradiction|].
  eexists. split; [reflexivity|].
  rewrite (map_ext_in _ (fun d => make (fst d) mt (snd d) st)); [apply all_described; assumption|].
  intros a Ha. change (fin2 p :: map fin2 r) with (map fin2 (p :: r)) in Ha. apply in_map_iff in Ha.
  destruct Ha as [q [<- Hq]]. rewrite Forall_forall in Hz. cbn [fin2 fst]. rewrite nonzero by (apply Hz; exact Hq). reflexivity.
Qed.

Lemma described_means : forall mt st data l, Forall2 (described mt st) data l -> exists mv, all_moments l mv.
Proof.
  intros mt st data l H. induction H as [|p d data l [_ [_ H]] _ [mv IH]]; [exists []; constructor|].
  destruct (consistent_moments d H) as [a [v [M _]]]. exists ((a, v) :: mv). constructor; assumption.
Qed.

(** From the definitions to the mean cost. *)
Theorem defined_cost : forall N mt st c data slopes delay n f df, normal_ok N -> supported mt st -> spreads c -> c <> [] ->
  Forall (proper_pair mt) data -> Forall (fun d => fst d <> 0) data -> length data = length c ->
  (0 <= n <= 2147483647)%Z -> 0 <= f ->
  exists l mv g, simplelossfn (Options (Some mt) (Some st)) (map fin2 data) = Fine (SimpleLoss l) /\
    Forall2 (described mt st) data l /\ all_moments l mv /\
    compgroup (Some slopes) (Some (map curve c)) (Some (SimpleLoss l)) delay n (Fin f) df = Fine g /\
    forall x, 0 <= x -> exists hs, p_highest N (map curve c) (Fin x) = map Fin hs /\
      E_Cost_EDP N g (Fin x) = Fine (Fin (f * IZR n * mix_mean hs mv)).
Proof.
  intros N mt st c data [p slope] delay n f df HN Hs Hc Hc0 Hd Hz Hl Hn Hf.
  assert (Hd0 : data <> []) by (intros ->; destruct c; [contradiction|discriminate]).
  destruct (described_losses mt st data Hs Hd Hd0 Hz) as [l [E D]].
  destruct (described_means _ _ _ _ D) as [mv M]. exists l, mv. eexists. split; [exact E|]. split; [exact D|]. split; [exact M|].
  split.
  { unfold compgroup. rewrite (proj2 (is_int_range n)) by lia. reflexivity. }
  intros x Hx. assert (L : length l = length c) by (rewrite <- Hl; clear - D; induction D; cbn; congruence).
  destruct (loss_given_demand N c l mv n f x HN Hc M L ltac:(lia) Hf Hx) as [hs [d [E1 [_ [E2 E3]]]]].
  exists hs. split; [exact E1|]. unfold E_Cost_EDP, cost_call. cbn [fragility cost_fn count cost_factor].
  rewrite E2. cbn [bind lib]. rewrite E3. reflexivity.
Qed.

(** ** Zero costs *)

Theorem zero_cost : forall mt st data slopes frag delay n ca da N, length data = length frag ->
  Exists (fun d => fst d = Fin 0) data -> is_int n = true ->
  exists f g, simplelossfn (Options (Some mt) (Some st)) data = Fine f /\
    compgroup (Some slopes) (Some frag) (Some f) delay n ca da = Fine g /\
    (forall edp, E_Cost_EDP N g edp = Fine NaN /\ SD_ln_Cost_EDP N g edp = Fine NaN) /\
    (forall D s im, E_Cost_IM N D s g im = Fine (Fin 0) /\ SD_ln_Cost_IM N D s g im = Fine (Fin 0)).
Proof.
  intros mt st data [p slope] frag delay n ca da N Hl H Hn. rewrite simple_defined.
  destruct data as [|d0 r]; [inversion H|]. set (data := d0 :: r) in *.
  eexists. eexists. split; [reflexivity|]. unfold compgroup. rewrite Hn. split; [reflexivity|].
  apply Exists_exists in H. destruct H as [d [Hd Hz]]. destruct (In_nth data d (Fin 0, Fin 0) Hd) as [i [Hi E]].
  set (h := fun d : er * er => if er_eqb (fst d) (Fin 0) then nodist else make (fst d) mt (snd d) st).
  assert (K : nth i (map h data) nodist = nodist).
  { rewrite (nth_indep _ nodist (h (Fin 0, Fin 0))) by (rewrite map_length; exact Hi).
    rewrite (map_nth h), E. unfold h. rewrite Hz. rewrite (proj2 (proj2 zero_eqb)). reflexivity. }
  match goal with |- (forall edp, E_Cost_EDP N ?g edp = _ /\ _) /\ _ =>
    exact (nan_cost_figures N g (map h data) i eq_refl ltac:(rewrite map_length; exact Hl) ltac:(rewrite map_length; exact Hi) (or_introl K)) end.
Qed.

Theorem unsupported_cost : forall mt st scalars slopes cost delay n ca da N, ~ supported mt st -> scalars <> [] ->
  length cost = length scalars -> is_int n = true ->
  exists frag g, fragfn_user (Options (Some mt) (Some st)) scalars = Fine frag /\
    compgroup (Some slopes) (Some frag) (Some (SimpleLoss cost)) delay n ca da = Fine g /\
    (forall edp, E_Cost_EDP N g edp = Fine NaN /\ SD_ln_Cost_EDP N g edp = Fine NaN) /\
    (forall D s im, E_Cost_IM N D s g im = Fine (Fin 0) /\ SD_ln_Cost_IM N D s g im = Fine (Fin 0)).
Proof.
  intros mt st scalars [p slope] cost delay n ca da N Hs H0 Hl Hn.
  assert (Mk : forall d : er * er, make (fst d) mt (snd d) st = nodist).
  { intros d. destruct mt, st; try reflexivity; exfalso; apply Hs; unfold supported; auto. }
  assert (Map : map (fun d => make (fst d) mt (snd d) st) scalars = map (fun _ => nodist) scalars)
    by (apply map_ext; exact Mk).
  destruct (fragility_defined mt st scalars) as [[E _]|[E K]].
  - rewrite E, Map. eexists. eexists. split; [reflexivity|]. unfold compgroup. rewrite Hn. split; [reflexivity|].
    destruct scalars as [|d r]; [contradiction|].
    match goal with |- (forall edp, E_Cost_EDP N ?g edp = _ /\ _) /\ _ =>
      exact (nan_cost_figures N g cost 0%nat eq_refl ltac:(cbn [fragility]; rewrite map_length; exact Hl)
               ltac:(rewrite Hl; cbn; lia) (or_intror eq_refl)) end.
  - exfalso. destruct K as [K|K]; [contradiction|]. cbv zeta in K. rewrite Map in K. destruct K as [i [_ K]].
    assert (forall j, nth j (map (fun _ : er * er => nodist) scalars) nodist = nodist).
    { intros j. destruct (nth_in_or_default j (map (fun _ : er * er => nodist) scalars) nodist) as [X|X]; [|exact X].
      apply in_map_iff in X. destruct X as [? [X _]]. symmetry. exact X. }
    rewrite !H in K. discriminate.
Qed.

(** ** Groups without a delay function *)

Theorem no_delay : forall slopes frag cost n ca da N, is_int n = true ->
  exists g, compgroup (Some slopes) (Some frag) (Some cost) None n ca da = Fine g /\
  (length frag = 1%nat ->
     (forall edp, E_Delay_EDP N g edp = Fine NaN /\ SD_ln_Delay_EDP N g edp = Fine NaN) /\
     (forall D s im, E_Delay_IM N D s g im = Fine (Fin 0) /\ SD_ln_Delay_IM N D s g im = Fine (Fin 0))) /\
  (length frag <> 1%nat ->
     (forall edp, E_Delay_EDP N g edp = Ends /\ SD_ln_Delay_EDP N g edp = Ends) /\
     ((0 < n)%Z -> forall D s im, E_Delay_IM N D s g im = Ends /\ SD_ln_Delay_IM N D s g im = Ends)).
Proof.
  intros [p slope] frag cost n ca da N Hn. unfold compgroup. rewrite Hn. eexists. split; [reflexivity|].
  match goal with |- context [E_Delay_EDP N ?g] => set (g0 := g) end. split; intros Hl.
  - exact (nan_delay_figures N g0 [nodist] 0%nat eq_refl ltac:(unfold g0; cbn [fragility]; rewrite Hl; reflexivity) ltac:(cbn; lia) (or_introl eq_refl)).
  - assert (Hs : states_of default_delay <> length frag) by (cbn; auto). split.
    + intros edp. split; apply (edp_requests N frag default_delay n da edp); (discriminate || exact Hs).
    + intros Hc D s im. apply (im_delay_requests N D s g0 im default_delay eq_refl); (discriminate || assumption).
Qed.

Theorem without_functions : forall N g edp,
  (cost_fn g = None -> E_Cost_EDP N g edp = Fine NaN /\ SD_ln_Cost_EDP N g edp = Fine NaN) /\
  (delay_fn g = None -> E_Delay_EDP N g edp = Fine NaN /\ SD_ln_Delay_EDP N g edp = Fine NaN).
Proof.
  intros N g edp. split; intros E; split;
    unfold E_Cost_EDP, SD_ln_Cost_EDP, E_Delay_EDP, SD_ln_Delay_EDP, cost_call, delay_call; rewrite E; reflexivity.
Qed.

(** ** Structures *)

Theorem add_requests : forall ims im,
  (im = None -> AddCompGroup ims im = Raises) /\
  (forall i, im = Some i -> ims = [] \/ (exists r, ims = i :: r) -> AddCompGroup ims im = Fine (ims ++ [i])) /\
  (forall i j r, im = Some i -> ims = j :: r -> i <> j -> AddCompGroup ims im = Ends).
Proof.
  intros ims im. split; [intros ->; reflexivity|]. split.
  - intros i -> [->|[r ->]]; [reflexivity|]. cbn. rewrite Nat.eqb_refl. reflexivity.
  - intros i j r -> -> H. cbn. apply Nat.eqb_neq in H. rewrite H. reflexivity.
Qed.

(** ** Refutations *)

Lemma refute_mistakes :
  (forall o, fragfn_user o [] = Ends) /\ (forall o, simplelossfn o [] = Ends) /\
  fragfn_user (Options (Some MEAN_LN_X) (Some SD_LN_X)) [(Fin 2, Fin 1); (Fin 1, Fin 1)] = Ends /\
  (forall N slopes delay edp, exists f g,
     simplelossfn (Options (Some MEAN_X) (Some SD_LN_X)) [(Fin 10, Fin 1)] = Fine f /\
     compgroup (Some slopes) (Some [LND (Fin 0) (Fin 1); LND (Fin 1) (Fin 1)]) (Some f) delay 5 (Fin 1) (Fin 1) = Fine g /\
     E_Cost_EDP N g edp = Ends) /\
  AddCompGroup [1%nat] (Some 2%nat) = Ends.
Proof.
  split; [reflexivity|]. split; [reflexivity|]. split; [|split; [|reflexivity]].
  - destruct (fragility_defined MEAN_LN_X SD_LN_X [(Fin 2, Fin 1); (Fin 1, Fin 1)]) as [[_ [_ H]]|[E _]]; [|exact E].
    exfalso. apply H. exists 0%nat. split; [cbn; lia|]. cbn. unfold Rleb. destruct (Rle_dec 1 2); [reflexivity|lra].
  - intros N [p slope] delay edp. rewrite simple_defined. eexists. eexists. split; [reflexivity|]. split; [reflexivity|].
    match goal with |- E_Cost_EDP N (Group _ _ ?fr (Some ?f) _ ?n ?ca _) _ = _ =>
      apply (edp_requests N fr f n ca edp get_mean_X) end; [discriminate|cbn; lia].
Qed.

Lemma refute_zero_cost : forall N slopes delay, normal_ok N -> exists f g,
  simplelossfn (Options (Some MEAN_X) (Some SD_LN_X)) [(Fin 0, Fin 1); (Fin 100, Fin 1)] = Fine f /\
  compgroup (Some slopes) (Some (map curve [(0, 1); (1, 1)])) (Some f) delay 5 (Fin 1) (Fin 1) = Fine g /\
  forall x, 0 < x -> exists h1 h2,
    p_highest N (map curve [(0, 1); (1, 1)]) (Fin x) = [Fin h1; Fin h2] /\ 0 <= h1 /\ 0 < h2 /\
    E_Cost_EDP N g (Fin x) = Fine NaN /\ forall D s im, E_Cost_IM N D s g im = Fine (Fin 0).
Proof.
  intros N slopes delay HN.
  destruct (zero_cost MEAN_X SD_LN_X [(Fin 0, Fin 1); (Fin 100, Fin 1)] slopes (map curve [(0, 1); (1, 1)]) delay 5 (Fin 1) (Fin 1) N)
    as [f [g [E1 [E2 [E3 E4]]]]]; [reflexivity|apply Exists_cons_hd; reflexivity|reflexivity|].
  exists f, g. split; [exact E1|]. split; [exact E2|]. intros x Hx.
  assert (P : forall m, p_at_most N (curve (m, 1)) (Fin x) = Fin (cdf N ((ln x - m) / 1))).
  { intros m. apply curve_at; [exact HN|cbn; lra|exact Hx]. }
  unfold p_highest, p_exceeded. cbn [map]. rewrite !P. cbn [differences er_sub er_opp er_add er_ltb].
  pose proof (cdf_range N HN ((ln x - 1) / 1)). 
  assert (L : cdf N ((ln x - 1) / 1) < cdf N ((ln x - 0) / 1)) by (apply (cdf_increasing N HN); lra).
  exists (cdf N ((ln x - 0) / 1) - cdf N ((ln x - 1) / 1)), (cdf N ((ln x - 1) / 1)).
  split.
  - unfold Rltb. destruct (Rlt_dec (cdf N ((ln x - 0) / 1) + - cdf N ((ln x - 1) / 1)) 0); [lra|]. reflexivity.
  - split; [lra|]. split; [lra|]. split; [apply E3|intros D s im; apply E4].
Qed.

Theorem zero_location : forall mt st data i, (i < length data)%nat -> fst (nth i data (Fin 0, Fin 0)) = Fin 0 ->
  exists l, simplelossfn (Options (Some mt) (Some st)) data = Fine (SimpleLoss l) /\ length l = length data /\
    all_nan (nth i l nodist).
Proof.
  intros mt st data i Hi Hz. rewrite simple_defined. destruct data as [|d0 r]; [cbn in Hi; lia|]. set (data := d0 :: r) in *.
  eexists. split; [reflexivity|]. split; [apply map_length|].
  set (h := fun d : er * er => if er_eqb (fst d) (Fin 0) then nodist else make (fst d) mt (snd d) st).
  change (all_nan (nth i (map h data) nodist)).
  rewrite (nth_indep _ nodist (h (Fin 0, Fin 0))) by (rewrite map_length; exact Hi).
  rewrite (map_nth h). unfold h at 1. rewrite Hz, (proj2 (proj2 zero_eqb)). repeat split.
Qed.

Lemma refute_described : exists d0 d, described MEAN_LN_X SD_LN_X (0, 1) d0 /\
  simplelossfn (Options (Some MEAN_LN_X) (Some SD_LN_X)) (map fin2 [(0, 1)]) = Fine (SimpleLoss [d]) /\
  ~ described MEAN_LN_X SD_LN_X (0, 1) d.
Proof.
  exists (make (Fin 0) MEAN_LN_X (Fin 1) SD_LN_X), nodist. split; [|split].
  - apply round_trip; [left; reflexivity|left; reflexivity|lra].
  - rewrite simple_defined. cbn [map fin2 fst snd]. rewrite (proj2 (proj2 zero_eqb)). reflexivity.
  - intros [H _]. discriminate.
Qed.

(** A group for examples. *)
Definition some_group (cost delay : lossfn) : group :=
  Group (fun _ _ => Fin 0) (fun _ => Fin 0) [LND (Fin 0) (Fin 1); LND (Fin 1) (Fin 1)] (Some cost) (Some delay) 7 (Fin 1) (Fin 1).
