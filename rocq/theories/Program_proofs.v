(** * The grammar is unambiguous *)
From Coq Require Import Ascii String List Bool.
From Verif Require Import Interp Interp_spec Program.
Import ListNotations.
Local Open Scope list_scope.

(** [n] tells which kinds of word may not come next. *)
Definition avoids (n : kind -> bool) (s : list (kind * string)) : Prop :=
  match s with [] => True | (k, _) :: _ => n k = false end.
Definition lv (l : list tree) : list (kind * string) := flat_map leaves l.
Definition code {X} (n : kind -> bool) (f : X -> list tree) : Prop := forall a b s s',
  avoids n s -> avoids n s' -> lv (f a) ++ s = lv (f b) ++ s' -> f a = f b /\ s = s'.
Definition code1 {X} (n : kind -> bool) (f : X -> tree) : Prop := forall a b s s',
  avoids n s -> avoids n s' -> leaves (f a) ++ s = leaves (f b) ++ s' -> f a = f b /\ s = s'.
Definition none (k : kind) : bool := false.
Definition these (l : list kind) (k : kind) : bool := existsb (kind_beq k) l.

Lemma avoids_none : forall s, avoids none s.
Proof. intros [|[k t] s]; [exact I|reflexivity]. Qed.

Lemma code_single : forall X n (f : X -> tree), code1 n f -> code n (fun a => [f a]).
Proof.
  intros X n f C a b s s' Hs Hs' H. cbn [lv flat_map] in H. rewrite !app_nil_r in H.
  destruct (C a b s s' Hs Hs' H) as [-> ->]. split; reflexivity.
Qed.

Lemma lv_app : forall l m, lv (l ++ m) = lv l ++ lv m.
Proof. intros. unfold lv. apply flat_map_app. Qed.

(** Brings an equation of words to the form [leaves x ++ …] or [w :: …]. *)
Ltac norm H :=
  cbn [lv leaves flat_map app kw fixed_text opt map fst snd] in H;
  repeat (rewrite ?lv_app, ?flat_map_app, <- ?app_assoc, ?app_nil_r in H;
          cbn [lv leaves flat_map app kw fixed_text opt map fst snd] in H).

Ltac av := first [exact I | apply avoids_none | assumption | reflexivity].

(** ** Python expressions, variables, numbers *)
Lemma pieces_code : forall e e' s s',
  lv (map t_piece e) ++ (PYTHON_END, ")"%string) :: s = lv (map t_piece e') ++ (PYTHON_END, ")"%string) :: s' ->
  map t_piece e = map t_piece e' /\ s = s'.
Proof.
  induction e as [|p e IH]; intros [|p' e'] s s' H.
  - cbn in H. injection H as ->. split; reflexivity.
  - destruct p'; discriminate.
  - destruct p; discriminate.
  - assert (E : t_piece p = t_piece p' /\ lv (map t_piece e) ++ (PYTHON_END, ")"%string) :: s = lv (map t_piece e') ++ (PYTHON_END, ")"%string) :: s').
    { destruct p, p'; cbn [map t_piece lv flat_map leaves kw fixed_text app] in H; try discriminate;
        injection H; intros; subst; split; assumption || reflexivity. }
    destruct E as [E1 E2]. destruct (IH _ _ _ E2) as [E3 ->]. cbn [map]. rewrite E1, E3. split; reflexivity.
Qed.

Lemma script_code : code1 none t_script.
Proof.
  intros a b s s' _ _ H. unfold t_script in *. norm H. apply (f_equal (@tl _)) in H. cbn [tl] in H.
  destruct (pieces_code a b s s' H) as [-> ->]. split; reflexivity.
Qed.

Lemma var_code : code1 none t_var.
Proof. intros a b s s' _ _ H. unfold t_var in *. norm H. injection H as -> ->. split; reflexivity. Qed.

Ltac fin := split; reflexivity || assumption.

Lemma number_code : code1 none t_number.
Proof.
  intros a b s s' _ _ H. unfold t_number in *. destruct a, b; norm H; try discriminate.
  - injection H as -> ->; fin.
  - injection H as -> ->; fin.
  - apply script_code in H; [|av|av]. destruct H as [-> ->]. fin.
  - apply var_code in H; [|av|av]. destruct H as [-> ->]. fin.
Qed.

Lemma limit_code : code1 none t_limit.
Proof.
  intros a b s s' _ _ H. unfold t_limit in *. destruct a, b; norm H; try discriminate.
  - injection H as -> ->; fin.
  - apply var_code in H; [|av|av]. destruct H as [-> ->]. fin.
  - apply script_code in H; [|av|av]. destruct H as [-> ->]. fin.
Qed.

Lemma sc_code : code1 none t_sc.
Proof.
  intros a b s s' _ _ H. unfold t_sc in *. destruct a, b; norm H; try discriminate.
  - injection H as -> ->; fin.
  - destruct n; discriminate.
  - destruct n; discriminate.
  - apply number_code in H; [|av|av]. destruct H as [-> ->]. fin.
Qed.

Lemma cons_eq : forall (k k' : kind) (t t' : string) s s',
  (k, t) :: s = (k', t') :: s' -> k = k' /\ t = t' /\ s = s'.
Proof. intros. injection H as -> -> ->. repeat split. Qed.

(** Takes off what both sides begin with. *)
Ltac off H :=
  let E1 := fresh in let E2 := fresh in
  apply cons_eq in H; destruct H as (E1 & E2 & H);
  first [discriminate E1 | clear E1; first [discriminate E2 | subst | clear E2]].
Ltac sub C H :=
  let E := fresh "E" in
  apply C in H; [destruct H as [E H]; rewrite ?E | av | av].

Lemma sc2_code : code1 none (fun p => t_sc2 (fst p) (snd p)).
Proof.
  intros [a b] [a' b'] s s' _ _ H. cbn [fst snd] in *. unfold t_sc2 in *. norm H.
  sub sc_code H. off H. sub sc_code H. subst. fin.
Qed.

Lemma pair_code : code1 none t_pair.
Proof. exact sc2_code. Qed.

Lemma sc3_code : code1 none (fun p => t_sc3 (fst (fst p)) (snd (fst p)) (snd p)).
Proof.
  intros [[a b] c] [[a' b'] c'] s s' _ _ H. cbn [fst snd] in *. unfold t_sc3 in *. norm H.
  apply (sc2_code (a, b) (a', b')) in H; [|av|av]. destruct H as [E1 H]. cbn [fst snd] in E1. rewrite E1.
  off H. sub sc_code H. subst. fin.
Qed.

Lemma param_code : code1 none t_param.
Proof.
  intros a b s s' _ _ H. unfold t_param in *. destruct a, b; norm H; off H; subst; fin.
Qed.

Lemma dkey_code : code1 none t_dkey.
Proof.
  intros a b s s' _ _ H. unfold t_dkey in *. destruct a, b; norm H; off H; subst; fin.
Qed.

Definition commas := these [COMMA].

Lemma comma_code : forall X (f : X -> list tree), code none f -> code commas (comma_list f).
Proof.
  intros X f C a. induction a as [|x a IH]; intros [|y b] s s' Hs Hs' H; unfold comma_list in *; norm H.
  - subst. fin.
  - subst s. discriminate Hs.
  - subst s'. discriminate Hs'.
  - off H. change (flat_map leaves (f x)) with (lv (f x)) in H. change (flat_map leaves (f y)) with (lv (f y)) in H.
    sub C H. cbn [flat_map].
    apply IH in H; [|av|av]. destruct H as [E1 ->]. rewrite E, E1. fin.
Qed.

Lemma params_ind' : forall P : params -> Prop,
  (forall p, P (POne p)) -> (forall p ps, P (PArray p ps)) ->
  (forall k v es, P v -> Forall (fun e => P (snd e)) es -> P (PDict k v es)) -> forall p, P p.
Proof.
  intros P A B C. fix IH 1. intros [p|p ps|k v es]; [apply A|apply B|apply C; [apply IH|]].
  induction es as [|e es IHe]; constructor; [apply IH|exact IHe].
Qed.

Lemma params_code : code1 none t_params.
Proof.
  intros a. induction a as [p|p ps|k v es IHv IHes] using params_ind'; intros b s s' _ _ H.
  - destruct b as [q|q qs|k' v' es']; cbn [t_params] in *; norm H.
    + sub param_code H. subst. fin.
    + destruct p; discriminate.
    + destruct p; discriminate.
  - destruct b as [q|q qs|k' v' es']; cbn [t_params] in *; norm H; try discriminate.
    + destruct q; discriminate.
    + off H. sub param_code H.
      apply (comma_code _ _ (code_single _ _ _ param_code)) in H; [|av|av]. destruct H as [-> H].
      off H. subst. fin.
  - destruct b as [q|q qs|k' v' es']; cbn [t_params] in *; norm H; try discriminate.
    + destruct q; discriminate.
    + off H. sub dkey_code H. off H. apply IHv in H; [|av|av]. destruct H as [-> H].
      enough (flat_map (fun e => [kw COMMA; Node dictionary_entry [t_dkey (fst e); kw COLON; t_params (snd e)]]) es
              = flat_map (fun e => [kw COMMA; Node dictionary_entry [t_dkey (fst e); kw COLON; t_params (snd e)]]) es'
              /\ s = s') as [-> ->] by fin.
      clear E k k' v v' IHv. revert es' H.
      induction IHes as [|e es IHe _ IH]; intros [|e' es'] H; norm H; try discriminate.
      * off H. subst. fin.
      * off H. sub dkey_code H. off H. apply IHe in H; [|av|av]. destruct H as [E1 H].
        apply IH in H. destruct H as [E2 ->]. cbn [flat_map]. rewrite E, E1, E2. fin.
Qed.

Lemma mu_code : code1 none t_mu.
Proof. intros a b s s' _ _ H. unfold t_mu in *. destruct a, b; norm H; off H; subst; fin. Qed.
Lemma sd_code : code1 none t_sd.
Proof. intros a b s s' _ _ H. unfold t_sd in *. destruct a, b; norm H; off H; subst; fin. Qed.
Lemma mu_option_code : code1 none t_mu_option.
Proof. intros a b s s' _ _ H. unfold t_mu_option in *. norm H. off H. sub mu_code H. subst. fin. Qed.
Lemma sd_option_code : code1 none t_sd_option.
Proof. intros a b s s' _ _ H. unfold t_sd_option in *. norm H. off H. sub sd_code H. subst. fin. Qed.

Definition flags := these [MU_FLAG; SD_FLAG].

(** Refutes that [s] begins with a word it avoids. *)
Ltac no_flag := match goal with
  | H : avoids _ (_ :: _) |- _ => exfalso; discriminate H
  | H : avoids _ ?s, E : ?s = _ |- _ => exfalso; rewrite E in H; discriminate H
  | H : avoids _ ?s, E : _ = ?s |- _ => exfalso; rewrite <- E in H; discriminate H
  end.

Lemma opts_code : code1 flags t_opts.
Proof.
  intros a b s s' Hs Hs' H. unfold t_opts in *.
  destruct a as [[m|] [d|]|d m], b as [[m'|] [d'|]|d' m'];
    cbn [opt app] in *; norm H; unfold t_mu_option, t_sd_option in *; norm H;
    try discriminate; try no_flag;
    try (off H; first [sub mu_code H | sub sd_code H]; norm H; try discriminate; try no_flag; rewrite ?E).
  all: try (off H; first [sub mu_code H | sub sd_code H]).
  all: subst; fin.
Qed.

(** ** Files, data bases, places *)
Lemma fref_code : code1 none t_fref.
Proof.
  intros a b s s' _ _ H. unfold t_fref in *. destruct a, b; norm H; try discriminate.
  - off H; subst; fin.
  - sub var_code H. subst. fin.
Qed.
Lemma file_code : code1 none t_file.
Proof. intros a b s s' _ _ H. unfold t_file in *. destruct a, b; norm H; off H; subst; fin. Qed.
Lemma key_code : code1 none t_key.
Proof. intros a b s s' _ _ H. unfold t_key in *. norm H; off H; subst; fin. Qed.

Lemma db_code : code1 (these [DB_FLAG]) t_db.
Proof.
  intros a b s s' Hs Hs' H. unfold t_db in *.
  destruct a as [[f|] k|k f], b as [[f'|] k'|k' f']; norm H; try discriminate;
    off H; try (sub file_code H; off H); sub key_code H; try no_flag;
    try (off H; sub file_code H); subst; fin.
Qed.

Lemma popts_code : code1 (these [APPEND_OPTION; NEW_OPTION]) t_popts.
Proof.
  intros [f [m|]] [f' [m'|]] s s' Hs Hs' H; cbn [t_popts] in *; norm H; sub file_code H.
  - destruct m, m'; norm H; off H; subst; fin.
  - destruct m; no_flag.
  - destruct m'; no_flag.
  - subst. fin.
Qed.

Lemma float_code : code1 none (Leaf FLOAT_VAL).
Proof. intros a b s s' _ _ H. norm H; off H; subst; fin. Qed.
Lemma id_code : code1 none (Leaf ID).
Proof. intros a b s s' _ _ H. norm H; off H; subst; fin. Qed.

Lemma place_code : code1 (these [COMMA; COLON]) t_place.
Proof.
  assert (W : forall s, avoids (these [COMMA; COLON]) s -> avoids commas s).
  { intros [|[k t] s] H; [exact I|]. cbn in *. destruct (kind_beq k COMMA); [discriminate|reflexivity]. }
  intros a b s s' Hs Hs' H. unfold t_place in *.
  destruct a as [x xs|x y z|e|x|x y l n], b as [x' xs'|x' y' z'|e'|x'|x' y' l' n']; norm H; try discriminate.
  - off H. change (flat_map leaves (comma_list (fun x => [Leaf FLOAT_VAL x]) xs)) with (lv (comma_list (fun x => [Leaf FLOAT_VAL x]) xs)) in H.
    change (flat_map leaves (comma_list (fun x => [Leaf FLOAT_VAL x]) xs')) with (lv (comma_list (fun x => [Leaf FLOAT_VAL x]) xs')) in H.
    apply (comma_code _ _ (code_single _ _ _ float_code)) in H; [|apply W; assumption|apply W; assumption].
    destruct H as [-> ->]. fin.
  - off H. destruct xs; cbn in H; [no_flag|discriminate].
  - off H. destruct xs; cbn in H; [no_flag|discriminate].
  - off H. destruct xs'; cbn in H; [no_flag|discriminate].
  - do 5 off H. subst. fin.
  - sub script_code H. subst. fin.
  - sub var_code H. subst. fin.
  - off H. destruct xs'; cbn in H; [no_flag|discriminate].
  - do 3 off H. destruct l, l'; norm H; off H; off H; subst; fin.
Qed.

Lemma col_code : code1 none t_col.
Proof.
  intros a b s s' _ _ H. unfold t_col in *. destruct a, b; norm H.
  - sub mu_code H. subst. fin.
  - destruct m, s0; discriminate.
  - destruct m; destruct s0 as [?|[]]; discriminate.
  - destruct s0, m; discriminate.
  - sub sd_code H. subst. fin.
  - destruct s0; destruct s1 as [?|[]]; discriminate.
  - destruct m; destruct s0 as [?|[]]; discriminate.
  - destruct s1; destruct s0 as [?|[]]; discriminate.
  - sub sc_code H. subst. fin.
Qed.

Ltac comma C H :=
  let E := fresh "E" in
  apply (comma_code _ _ C) in H; [destruct H as [E H]; rewrite ?E | av | av].

Lemma cols_code : code1 commas t_cols.
Proof.
  intros [a l] [b m] s s' Hs Hs' H. unfold t_cols in *. cbn [fst snd] in *. norm H. off H.
  sub col_code H. comma (code_single _ _ _ col_code) H. subst. fin.
Qed.

Lemma bracketed_code : code none bracketed.
Proof.
  intros a b s s' _ _ H. unfold bracketed in *. norm H. off H. sub pair_code H. off H. subst. fin.
Qed.

Lemma pairs_code : code commas (fun p => t_pairs (fst p) (snd p)).
Proof.
  intros [a l] [b m] s s' Hs Hs' H. unfold t_pairs in *. cbn [fst snd] in *. rewrite !lv_app, <- !app_assoc in H.
  sub bracketed_code H. comma bracketed_code H. subst. fin.
Qed.

Lemma shape_code : code1 commas t_shape.
Proof.
  intros a b s s' Hs Hs' H. unfold t_shape in *. destruct a, b; norm H; off H.
  - apply (sc3_code (_, _, _) (_, _, _)) in H; [|av|av]. cbn [fst snd] in H. destruct H as [-> ->]. fin.
  - apply (sc2_code (_, _) (_, _)) in H; [|av|av]. cbn [fst snd] in H. destruct H as [-> ->]. fin.
  - apply (pairs_code (_, _) (_, _)) in H; [|av|av]. cbn [fst snd] in H. destruct H as [-> ->]. fin.
  - apply (pairs_code (_, _) (_, _)) in H; [|av|av]. cbn [fst snd] in H. destruct H as [-> ->]. fin.
Qed.

Lemma spec5_code : code1 none t_spec5.
Proof.
  intros [[[[a b] c] d] e] [[[[a' b'] c'] d'] e'] s s' _ _ H. cbn [t_spec5] in *. norm H. off H.
  do 4 (sub number_code H; off H). sub number_code H. off H. subst. fin.
Qed.

Lemma search_code : code1 none t_search.
Proof.
  intros [k l] [k' l'] s s' _ _ H. unfold t_search in *. cbn [fst snd] in *.
  destruct k, k'; cbn [k_search] in *; norm H; off H; sub limit_code H; subst; fin.
Qed.

Lemma dist_code : forall a b o a' b' o' s s', avoids flags s -> avoids flags s' ->
  leaves (t_dist a b o) ++ s = leaves (t_dist a' b' o') ++ s' -> t_dist a b o = t_dist a' b' o' /\ s = s'.
Proof.
  intros a b o a' b' o' s s' Hs Hs' H. unfold t_dist in *. norm H.
  apply (sc2_code (_, _) (_, _)) in H; [|av|av]. cbn [fst snd] in H. destruct H as [-> H].
  sub opts_code H. subst. fin.
Qed.

(** ** Commands: what comes before a semicolon *)
Definition semi (s : list (kind * string)) := (SEMICOLON, ";"%string) :: s.
Definition rest (o : option popts) (s : list (kind * string)) := lv (opt t_popts o) ++ semi s.

Lemma rest_avoids : forall n o s, n FILE_NAME = false -> n ID = false -> n SEMICOLON = false -> avoids n (rest o s).
Proof. intros n [[[f|f] m]|] s A B C; assumption. Qed.

Lemma rest_code : forall o o' s s', rest o s = rest o' s' -> opt t_popts o = opt t_popts o' /\ s = s'.
Proof.
  intros [o|] [o'|] s s' H; unfold rest, semi in H; norm H.
  - sub popts_code H. off H. subst. cbn [opt]. rewrite E. fin.
  - destruct o as [[]]; discriminate.
  - destruct o' as [[]]; discriminate.
  - off H. subst. fin.
Qed.

Ltac avr := first [apply rest_avoids; reflexivity | av].
Ltac subr C H :=
  let E := fresh "E" in
  apply C in H; [destruct H as [E H]; rewrite ?E | avr | avr].

Lemma cols_avoids : forall n c o s, n COLS_FLAG = false -> n FILE_NAME = false -> n ID = false -> n SEMICOLON = false ->
  avoids n (lv (opt t_cols c) ++ rest o s).
Proof. intros n [[a l]|] o s A B C D; [exact A|cbn [opt lv flat_map app]; apply rest_avoids; assumption]. Qed.

Lemma cols_rest : forall c c' o o' s s', lv (opt t_cols c) ++ rest o s = lv (opt t_cols c') ++ rest o' s' ->
  opt t_cols c = opt t_cols c' /\ opt t_popts o = opt t_popts o' /\ s = s'.
Proof.
  intros [c|] [c'|] o o' s s' H; norm H.
  - subr cols_code H. apply rest_code in H. destruct H as [-> ->]. cbn [opt]. rewrite E. repeat split.
  - destruct c, o' as [[[]]|]; discriminate.
  - destruct c', o as [[[]]|]; discriminate.
  - apply rest_code in H. destruct H as [-> ->]. repeat split.
Qed.

Ltac cols H := apply cols_rest in H; let E1 := fresh "E" in let E2 := fresh "E" in destruct H as (E1 & E2 & H).

Lemma rec_code : forall r r' o o' s s', lv (t_rec r) ++ rest o s = lv (t_rec r') ++ rest o' s' ->
  t_rec r = t_rec r' /\ opt t_popts o = opt t_popts o' /\ s = s'.
Proof.
  intros r r' o o' s s' H. unfold t_rec in *.
  destruct r as [t id p c|t id|t id p|id p n|id a b c d|id b p c|id q c],
           r' as [t' id' p' c'|t' id'|t' id' p'|id' p' n'|id' a' b' c' d'|id' b' p' c'|id' q' c'];
    rewrite ?lv_app, <- ?app_assoc in H;
    try (destruct t; discriminate H); try (destruct t'; discriminate H);
    try (destruct t, t'; discriminate H); try discriminate H.
  - assert (t = t') as <- by (clear - H; destruct t, t'; try discriminate H; reflexivity).
    cbn [lv flat_map leaves app kw] in H. rewrite <- ?app_assoc in H. cbn [app] in H. off H. off H.
    apply place_code in H; [|apply cols_avoids; reflexivity|apply cols_avoids; reflexivity]. destruct H as [-> H].
    cols H. rewrite E, E0, H. repeat split.
  - destruct t, t'; norm H; off H; off H; apply rest_code in H; destruct H as [-> ->]; repeat split.
  - destruct t, t'; norm H; off H; off H; subr place_code H; apply rest_code in H; destruct H as [-> ->]; repeat split.
  - norm H. off H. off H.
    apply place_code in H; [|destruct n; [reflexivity|apply rest_avoids; reflexivity]|destruct n'; [reflexivity|apply rest_avoids; reflexivity]].
    destruct H as [-> H].
    destruct n, n'; norm H.
    + off H. apply rest_code in H. destruct H as [-> ->]. repeat split.
    + destruct o' as [[[]]|]; discriminate.
    + destruct o as [[[]]|]; discriminate.
    + apply rest_code in H. destruct H as [-> ->]. repeat split.
  - norm H. do 9 off H. apply rest_code in H. destruct H as [-> ->]. repeat split.
  - destruct b'; discriminate H.
  - destruct b; discriminate H.
  - assert (b = b') as <- by (clear - H; destruct b, b'; try discriminate H; reflexivity).
    cbn [lv flat_map leaves app kw] in H. rewrite <- ?app_assoc in H. cbn [app] in H. do 3 off H.
    apply place_code in H; [|apply cols_avoids; reflexivity|apply cols_avoids; reflexivity]. destruct H as [-> H].
    cols H. rewrite E, E0, H. repeat split.
  - destruct b; discriminate H.
  - destruct b'; discriminate H.
  - cbn [lv flat_map leaves app kw fixed_text] in H. rewrite <- ?app_assoc in H. cbn [app] in H. do 3 off H.
    apply opts_code in H; [|apply cols_avoids; reflexivity|apply cols_avoids; reflexivity]. destruct H as [-> H].
    cols H. rewrite E, E0, H. repeat split.
Qed.

Definition messages := these [STRING; PYTHON_ESCAPE; DOLLARS].

Lemma printed_code : code1 messages t_printed.
Proof.
  intros a b s s' Hs Hs' H. unfold t_printed in *.
  destruct a as [m|r id|], b as [m'|r' id'|]; try (destruct r; discriminate H); try (destruct r'; discriminate H);
    try discriminate H.
  - destruct m, m'; norm H; off H; off H; try discriminate H; try no_flag;
      try discriminate Hs; try discriminate Hs'.
    + fin.
    + off H. subst. fin.
    + sub script_code H. subst. fin.
    + sub var_code H. subst. fin.
  - destruct r, r'; cbn [k_reg] in *; norm H; do 3 off H; subst; fin.
  - norm H. do 2 off H. subst. fin.
Qed.

Lemma body_code : forall a b s s', leaves (t_body a) ++ semi s = leaves (t_body b) ++ semi s' ->
  t_body a = t_body b /\ s = s'.
Proof.
  intros a b s s' H. destruct a, b; try discriminate H;
    try (match goal with p : printed |- _ => solve [destruct p as [|rr|]; [|destruct rr|]; discriminate H] end);
    cbn [t_body] in *.
  - norm H. do 2 off H. off H. subst. fin.
  - norm H. do 2 off H. sub shape_code H. off H. subst. fin.
  - norm H. do 3 off H. sub fref_code H. off H. sub fref_code H. sub opts_code H. off H. subst. fin.
  - norm H. do 4 off H. subst. fin.
  - norm H. do 5 off H. subst. fin.
  - norm H. do 2 off H. sub db_code H. off H. subst. fin.
  - exfalso. destruct d as [[]|]; norm H; do 2 off H; discriminate H.
  - exfalso. destruct d as [[]|]; norm H; do 2 off H; discriminate H.
  - norm H. do 2 off H. apply (pairs_code (_, _) (_, _)) in H; [|destruct o as [[[]|] [[]|]|[] []]; reflexivity|destruct o0 as [[[]|] [[]|]|[] []]; reflexivity].
    cbn [fst snd] in H. destruct H as [-> H]. sub opts_code H. off H. subst. fin.
  - norm H. do 3 off H. apply (pairs_code (_, _) (_, _)) in H; [|destruct o as [[[]|] [[]|]|[] []]; reflexivity|destruct o0 as [[[]|] [[]|]|[] []]; reflexivity].
    cbn [fst snd] in H. destruct H as [-> H]. sub opts_code H. off H. subst. fin.
  - norm H. do 3 off H. sub spec5_code H. comma (code_single _ _ _ spec5_code) H. off H. subst. fin.
  - destruct delay, delay0; norm H; do 5 off H; try off H;
      try off H; destruct x, y, x0, y0; norm H; try discriminate H;
      repeat off H; subst; fin.
  - rewrite <- !app_assoc in H || idtac. cbn [leaves flat_map] in H. rewrite <- !app_assoc in H.
    apply printed_code in H; [|apply rest_avoids; reflexivity|apply rest_avoids; reflexivity].
    destruct H as [-> H]. apply rest_code in H. destruct H as [-> ->]. fin.
  - norm H. do 2 off H. sub number_code H. sub limit_code H.
    destruct s0 as [k|], s1 as [k'|]; norm H.
    + sub search_code H. off H. subst. cbn [opt]. rewrite E1. fin.
    + destruct k as [[] ?]; discriminate H.
    + destruct k' as [[] ?]; discriminate H.
    + off H. subst. fin.
  - cbn [leaves flat_map kw fixed_text app] in H. off H. off H.
    change (flat_map leaves (t_rec r ++ opt t_popts o)) with (lv (t_rec r ++ opt t_popts o)) in H.
    change (flat_map leaves (t_rec r0 ++ opt t_popts o0)) with (lv (t_rec r0 ++ opt t_popts o0)) in H.
    rewrite !lv_app, <- !app_assoc in H.
    apply rec_code in H. destruct H as (-> & -> & ->). fin.
  - norm H. off H. off H. subst. fin.
  - destruct v, v0; norm H; do 2 off H; try discriminate H.
    + sub script_code H. off H. subst. fin.
    + destruct p as [[]|? ?|? ? ?]; discriminate H.
    + sub var_code H. off H. subst. fin.
    + destruct p as [[]|? ?|? ? ?]; discriminate H.
    + destruct p as [[]|? ?|? ? ?]; discriminate H.
    + destruct p as [[]|? ?|? ? ?]; discriminate H.
    + sub params_code H. off H. subst. fin.
  - norm H. do 2 off H. sub file_code H. off H. subst. fin.
  - norm H. do 2 off H. sub dist_code H. off H. subst. fin.
  - norm H. do 2 off H. sub dist_code H. off H. subst. fin.
  - norm H. do 3 off H. comma (code_single _ _ _ id_code) H. off H. subst. fin.
  - norm H. do 2 off H. sub file_code H. off H. subst. fin.
  - norm H. do 2 off H. sub dist_code H. off H. subst. fin.
  - norm H. do 2 off H. sub dist_code H. off H. subst. fin.
  - assert (flag = flag0) as <-.
    { clear - H. destruct flag as [[]|], flag0 as [[]|], f as [[]|], f0 as [[]|]; norm H; try discriminate H; reflexivity. }
    destruct flag as [[]|]; norm H; off H; try off H; destruct f as [f|], f0 as [f0|]; norm H;
      try (destruct f; discriminate H); try (destruct f0; discriminate H);
      try (sub file_code H; cbn [opt]; rewrite ?E); off H; subst; fin.
  - destruct print, print0; norm H; try discriminate H; do 3 off H; subst; fin.
  - norm H. off H. sub file_code H. off H. subst. fin.
  - norm H. off H. sub file_code H. off H. subst. fin.
Qed.

(** ** Scripts *)
Definition t_item (i : item) : tree := match i with Space s => Leaf WS s | Command c => t_cmd c end.

Lemma item_code : code1 none t_item.
Proof.
  intros a b s s' _ _ H. destruct a as [w|c], b as [w'|c']; cbn [t_item] in *.
  - norm H. off H. subst. fin.
  - exfalso. destruct c'; try discriminate H. destruct p as [|r|]; [|destruct r|]; discriminate H.
  - exfalso. destruct c; try discriminate H. destruct p as [|r|]; [|destruct r|]; discriminate H.
  - unfold t_cmd in *. cbn [leaves flat_map kw fixed_text] in H. rewrite <- !app_assoc in H. cbn [app] in H.
    apply body_code in H. destruct H as [-> ->]. fin.
Qed.

Lemma items_code : forall l l', lv (map t_item l) = lv (map t_item l') -> map t_item l = map t_item l'.
Proof.
  assert (N : forall i, leaves (t_item i) <> []).
  { intros [w|c]; cbn [t_item]; [discriminate|]. destruct c; try discriminate. destruct p as [|r|]; [|destruct r|]; discriminate. }
  induction l as [|i l IH]; intros [|i' l'] H; cbn [map lv flat_map] in *.
  - reflexivity.
  - symmetry in H. apply app_eq_nil in H. destruct H as [H _]. contradiction (N _ H).
  - apply app_eq_nil in H. destruct H as [H _]. contradiction (N _ H).
  - sub item_code H. rewrite (IH _ H). reflexivity.
Qed.
