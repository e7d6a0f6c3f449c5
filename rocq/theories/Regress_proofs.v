(** * Reading numbers, and comparing files (C95) *)
From Coq Require Import Ascii String List ZArith QArith Qabs Qfield Bool Lia Lqa.
From Verif Require Import Regress Regress_spec.
Import ListNotations.
Local Open Scope Z_scope.
Local Open Scope list_scope.

(** ** Numbers *)

Lemma digit_is c d : digit c = Some d <-> is_digit c d.
Proof.
  split.
  - destruct c as [[] [] [] [] [] [] [] []]; cbv; intros E; inversion E; constructor.
  - intros D. destruct D; reflexivity.
Qed.

Lemma digits_list s n : digits s n -> exists l, Forall2 is_digit s l /\ n = digits_value l.
Proof.
  induction 1 as [|s c n d D (l & F & ->) C]; [exists []; split; [constructor | reflexivity] |].
  exists (l ++ [d]). split; [apply Forall2_app; [exact F | constructor; [exact C | constructor]] |].
  unfold digits_value. rewrite fold_left_app. reflexivity.
Qed.

Definition ends (t : text) : Prop := match t with [] => True | c :: _ => digit c = None end.

Lemma span_app s l t : Forall2 is_digit s l -> ends t -> span (s ++ t) = (l, t).
Proof.
  intros F E. induction F as [|c d s l D F IH].
  - destruct t as [|c t]; [reflexivity |]. cbn in E |- *. rewrite E. reflexivity.
  - cbn [app span]. apply digit_is in D. rewrite D, IH. reflexivity.
Qed.

Lemma Forall2_len (A B : Type) (R : A -> B -> Prop) s l : Forall2 R s l -> length s = length l.
Proof. induction 1; cbn; congruence. Qed.

Lemma Forall2_split (A B : Type) (R : A -> B -> Prop) s t l : Forall2 R (s ++ t) l ->
  exists l1 l2, l = l1 ++ l2 /\ Forall2 R s l1 /\ Forall2 R t l2.
Proof.
  revert l. induction s as [|a s IH]; intros l F; [exists [], l; repeat split; [constructor | exact F] |].
  inversion F as [|? b ? l' H F']; subst. destruct (IH _ F') as (l1 & l2 & -> & A1 & A2).
  exists (b :: l1), l2. repeat split; [constructor; assumption | exact A2].
Qed.


(** What begins with a digit or a point has no sign, and is no exponent. *)
Definition plainly (t : text) : Prop := match t with [] => True | c :: _ => c <> "+"%char /\ c <> "-"%char end.

Lemma sign_app s sg t : signed s sg -> plainly t -> sign (s ++ t) = (sg =? -1, t).
Proof.
  intros S P. destruct S; cbn [app]; try reflexivity.
  destruct t as [|c t]; [reflexivity |]. destruct P as [A B]. cbn.
  destruct c as [[] [] [] [] [] [] [] []]; try reflexivity; now destruct A || now destruct B.
Qed.

Lemma digit_plain c d : is_digit c d -> c <> "+"%char /\ c <> "-"%char /\ c <> "."%char.
Proof. destruct 1; repeat split; discriminate. Qed.

Lemma exponent_app x e : exponential x e -> exponent x = (e, []).
Proof.
  intros [|c s sg y n C S D N]; [reflexivity |]. cbn [exponent].
  replace ((Ascii.eqb c "e" || Ascii.eqb c "E")%char) with true by (destruct C as [-> | ->]; reflexivity).
  destruct (digits_list _ _ D) as (l & F & ->).
  rewrite (sign_app s sg y S); [| inversion F as [E | a d ? ? Ha ? E]; subst; [exact I | destruct (digit_plain _ _ Ha) as (? & ? & _); split; assumption]].
  rewrite <- (app_nil_r y), (span_app y l [] F I). destruct l as [|d l]; [inversion F; subst; now destruct N |].
  destruct S; cbn [Z.eqb]; f_equal; ring.
Qed.

Lemma exponent_ends x e : exponential x e -> ends x /\ (match x with [] => True | c :: _ => c <> "."%char end) .
Proof. intros [|c s sg y n [-> | ->] S D N]; repeat split; discriminate. Qed.

Lemma parse_number s q : is_number s q -> exists v, parse s = Some (v, []) /\ (v == q)%Q.
Proof.
  intros [s' sg i p f x e n S P D (m & Di) N E]. unfold parse.
  destruct (digits_list _ _ D) as (l & F & ->). destruct (Forall2_split _ _ _ _ _ _ F) as (l1 & l2 & -> & F1 & F2).
  destruct (exponent_ends x e E) as [Ee Ep].
  rewrite (sign_app s' sg _ S).
  2: { destruct i as [|c i]; cbn [app].
       - destruct P; [now destruct N | split; discriminate].
       - inversion F1 as [|? d0 ? ? Hd]; subst. destruct (digit_plain c d0 Hd) as (? & ? & _). split; assumption. }
  rewrite (span_app i l1 _ F1).
  2: { destruct P; [exact Ee | reflexivity]. }
  assert (Fr : fraction (p ++ x) = (l2, x)).
  { destruct P as [|f].
    - inversion F2; subst. cbn [app]. destruct x as [|c x]; [reflexivity |]. unfold fraction.
      destruct c as [[] [] [] [] [] [] [] []]; try reflexivity. now destruct Ep.
    - cbn [app fraction]. apply span_app; assumption. }
  rewrite Fr. assert (NE : l1 ++ l2 <> []).
  { intros Z. apply N. destruct (l1 ++ l2); [| discriminate]. inversion F. reflexivity. }
  destruct (l1 ++ l2) as [|d l] eqn:El; [now destruct NE |]. rewrite <- El in *. clear El d l.
  rewrite (exponent_app x e E). eexists. split; [reflexivity |].
  assert (L : List.length l2 = List.length f) by (symmetry; apply (Forall2_len _ _ _ _ _ F2)). rewrite L.
  destruct S; cbn [Z.eqb]; rewrite inject_Z_mult; cbn; ring.
Qed.

Lemma number_num s q : is_number s q -> (num s == q)%Q /\ looks s = true.
Proof. intros N. destruct (parse_number s q N) as (v & E & V). unfold num, looks. rewrite E. split; [exact V | reflexivity]. Qed.

Lemma figure_digit c d : is_digit c d -> figure c = true.
Proof. intros D. unfold figure. apply digit_is in D. now rewrite D. Qed.

Lemma digits_figures s n : digits s n -> forallb figure s = true.
Proof.
  induction 1 as [|s c n d D IH C]; [reflexivity |]. rewrite forallb_app, IH. cbn. now rewrite (figure_digit c d C).
Qed.
Lemma signed_figures s n : signed s n -> forallb figure s = true.
Proof. destruct 1; reflexivity. Qed.

Lemma number_pattern s q : is_number s q -> pattern s = true.
Proof.
  intros [s' sg i p f x e n S P D (m & Di) N E].
  assert (A : forallb figure (s' ++ i ++ p ++ x) = true).
  { pose proof (digits_figures _ _ D) as F. rewrite forallb_app in F. apply andb_true_iff in F. destruct F as [F1 F2].
    rewrite !forallb_app, (signed_figures _ _ S), F1. cbn [andb]. apply andb_true_iff. split.
    - destruct P; [reflexivity | exact F2].
    - destruct E as [|c s2 sg' y k [-> | ->] S' D' N']; [reflexivity | |];
        cbn [forallb]; rewrite forallb_app, (signed_figures _ _ S'), (digits_figures _ _ D'); reflexivity. }
  unfold pattern. destruct (s' ++ i ++ p ++ x) as [|c r] eqn:Z; [| exact A].
  exfalso. apply app_eq_nil in Z. destruct Z as [_ Z]. apply app_eq_nil in Z. destruct Z as [-> Z]. apply app_eq_nil in Z. destruct Z as [-> _].
  inversion P; subst. now apply N.
Qed.

Lemma figure_listed c : figure c = true -> In c ["0"; "1"; "2"; "3"; "4"; "5"; "6"; "7"; "8"; "9"; "."; "e"; "E"; "-"; "+"]%char.
Proof. destruct c as [[] [] [] [] [] [] [] []]; cbv; intros E; try discriminate; tauto. Qed.

Lemma word_pattern s : word s -> pattern s = false.
Proof.
  intros (c & I & N). unfold pattern. destruct s as [|a s]; [reflexivity |].
  destruct (forallb figure (a :: s)) eqn:E; [| reflexivity]. exfalso. rewrite forallb_forall in E. apply N, figure_listed, E, I.
Qed.

Lemma span_figures s l t : span s = (l, t) -> exists u, s = u ++ t /\ forallb figure u = true.
Proof.
  revert l t. induction s as [|c s IH]; intros l t E; cbn [span] in E; [inversion E; now exists [] |].
  destruct (digit c) as [d|] eqn:D; [| inversion E; now exists []].
  destruct (span s) as [l' t'] eqn:Sp. inversion E; subst. destruct (IH l' t eq_refl) as (u & -> & F).
  exists (c :: u). split; [reflexivity |]. cbn [forallb]. rewrite F. unfold figure. now rewrite D.
Qed.

Lemma sign_figures s b t : sign s = (b, t) -> exists u, s = u ++ t /\ forallb figure u = true.
Proof.
  intros E. destruct s as [|c s]; [inversion E; now exists [] |].
  destruct c as [[] [] [] [] [] [] [] []]; cbn in E; inversion E; subst;
    first [now exists [] | now exists ["+"%char] | now exists ["-"%char]].
Qed.

Lemma fraction_figures s l t : fraction s = (l, t) -> exists u, s = u ++ t /\ forallb figure u = true.
Proof.
  intros E. destruct s as [|c s]; [inversion E; now exists [] |]. unfold fraction in E.
  destruct c as [[] [] [] [] [] [] [] []]; try (inversion E; subst; now exists []).
  destruct (span_figures _ _ _ E) as (u & -> & F). exists ("."%char :: u). split; [reflexivity | exact F].
Qed.

Lemma exponent_figures s x t : exponent s = (x, t) -> exists u, s = u ++ t /\ forallb figure u = true.
Proof.
  intros E. destruct s as [|c s]; [inversion E; now exists [] |]. cbn [exponent] in E.
  destruct ((Ascii.eqb c "e" || Ascii.eqb c "E")%char) eqn:C; [| inversion E; now exists []].
  destruct (sign s) as [b s1] eqn:S. destruct (span s1) as [[|d l] s2] eqn:Sp; [inversion E; now exists [] |].
  inversion E; subst. destruct (sign_figures _ _ _ S) as (u & -> & U). destruct (span_figures _ _ _ Sp) as (v & -> & V).
  exists (c :: u ++ v). split; [cbn; now rewrite app_assoc |]. cbn [forallb]. rewrite forallb_app, U, V.
  apply orb_true_iff in C. destruct C as [C | C]; apply Ascii.eqb_eq in C; subst; reflexivity.
Qed.

Lemma looks_pattern s : looks s = true -> pattern s = true.
Proof.
  unfold looks, parse. destruct (sign s) as [b s1] eqn:S. destruct (span s1) as [i s2] eqn:I. destruct (fraction s2) as [f s3] eqn:F.
  destruct (i ++ f) as [|d l] eqn:L; [discriminate |]. destruct (exponent s3) as [x s4] eqn:X. destruct s4; [intros _ | discriminate].
  destruct (sign_figures _ _ _ S) as (u1 & E1 & U1). destruct (span_figures _ _ _ I) as (u2 & E2 & U2).
  destruct (fraction_figures _ _ _ F) as (u3 & E3 & U3). destruct (exponent_figures _ _ _ X) as (u4 & E4 & U4).
  unfold pattern. destruct s as [|c s].
  { cbn in S. injection S as <- <-. cbn in I. injection I as <- <-. cbn in F. injection F as <- <-. discriminate. }
  rewrite E1, E2, E3, E4, !forallb_app, U1, U2, U3, U4. reflexivity.
Qed.

(** ** Fields *)

Lemma text_eqb_iff x y : text_eqb x y = true <-> x = y.
Proof. unfold text_eqb. destruct (list_eq_dec ascii_dec x y); split; congruence. Qed.

Lemma too_large_iff e : too_large e = false <-> (e <= 1 # 1000)%Q.
Proof. unfold too_large. rewrite negb_false_iff. apply Qle_bool_iff. Qed.

Lemma field_number x y p q : is_number x p -> is_number y q ->
  (field x y = Fine /\ close p q) \/ (field x y = Differs 1 /\ ~ close p q).
Proof.
  intros X Y. destruct (number_num x p X) as [Ex Lx]. destruct (number_num y q Y) as [Ey _]. unfold field, nonzero.
  rewrite (number_pattern x p X), Lx. unfold close.
  destruct (Qeq_bool (num x) 0) eqn:Z; cbn [negb].
  - apply Qeq_bool_iff in Z. assert (P0 : (p == 0)%Q) by (rewrite <- Ex; exact Z).
    assert (E : (Qabs (num x - num y) == Qabs q)%Q).
    { rewrite Z, Ey. setoid_replace (0 - q)%Q with (- q)%Q by ring. apply Qabs_opp. }
    destruct (too_large (Qabs (num x - num y))) eqn:T; [right | left]; (split; [reflexivity |]).
    + intros [C | [_ C]].
      * rewrite P0 in C. setoid_replace (0 - q)%Q with (- q)%Q in C by ring. rewrite Qabs_opp in C.
        assert (too_large (Qabs (num x - num y)) = false); [| congruence]. apply too_large_iff. rewrite E.
        cbn in C. rewrite Qmult_0_l in C. lra.
      * assert (too_large (Qabs (num x - num y)) = false); [| congruence]. apply too_large_iff. rewrite E. exact C.
    + apply too_large_iff in T. rewrite E in T. right. split; assumption.
  - apply Qeq_bool_neq in Z. assert (P0 : ~ (p == 0)%Q) by (rewrite <- Ex; exact Z).
    assert (PA : (0 < Qabs (num x))%Q).
    { destruct (Qlt_le_dec 0 (Qabs (num x))) as [L | L]; [exact L |]. exfalso. apply Z. pose proof (Qabs_nonneg (num x)).
      assert (E0 : (Qabs (num x) == 0)%Q) by lra. pose proof (Qle_Qabs (num x)). pose proof (Qle_Qabs (- num x)). rewrite Qabs_opp in H1. lra. }
    assert (I : (Qabs (num x - num y) / Qabs (num x) <= 1 # 1000)%Q <-> (Qabs (p - q) <= Qabs p * (1 # 1000))%Q).
    { rewrite <- Ex, <- Ey. rewrite (Qmult_comm (Qabs (num x))). split; intros H.
      - apply (Qmult_le_compat_r _ _ (Qabs (num x))) in H; [| lra]. unfold Qdiv in H.
        rewrite <- Qmult_assoc, (Qmult_comm (/ _)), Qmult_inv_r, Qmult_1_r in H by lra. exact H.
      - apply Qle_shift_div_r; [exact PA | exact H]. }
    destruct (too_large (Qabs (num x - num y) / Qabs (num x))) eqn:T; [right | left]; (split; [reflexivity |]).
    + intros [C | [C _]]; [| now destruct P0]. apply I in C. apply too_large_iff in C. congruence.
    + left. apply I. apply too_large_iff. exact T.
Qed.

Lemma field_word x y : word x -> (field x y = Fine /\ x = y) \/ (field x y = Differs (-1) /\ x <> y).
Proof.
  intros W. unfold field. rewrite (word_pattern x W). destruct (text_eqb x y) eqn:E.
  - left. split; [reflexivity |]. now apply text_eqb_iff.
  - right. split; [reflexivity |]. intros F. apply text_eqb_iff in F. congruence.
Qed.

Lemma same_field_fine x y : same_field x y -> field x y = Fine.
Proof.
  intros [a b p q A B C | a W].
  - destruct (field_number a b p q A B) as [[E _] | [_ N]]; [exact E | now destruct N].
  - destruct (field_word a a W) as [[E _] | [_ N]]; [exact E | now destruct N].
Qed.

Lemma field_code x y c : field x y = Differs c -> c <> 0.
Proof.
  unfold field. destruct (pattern x); [destruct (nonzero x); [destruct (Qeq_bool _ _); [discriminate |] |]; destruct (too_large _) | destruct (text_eqb x y)];
    intros E; inversion E; discriminate.
Qed.
Lemma extra_code y c : extra y = Differs c -> c <> 0.
Proof. unfold extra. destruct (looks y); [destruct (Qeq_bool _ _) |]; intros E; inversion E; discriminate. Qed.

(** ** Lines *)

Lemma fields_code x y : forall st st', fields_check x y st = Some st' -> code st' = 0 ->
  code st = 0 /\ forall i a b, nth_error x i = Some a -> nth_error y i = Some b -> field a b = Fine.
Proof.
  revert x. induction y as [|b y IH]; intros x st st' E C.
  - inversion E; subst. split; [exact C |]. intros [|i] a b _ H; discriminate.
  - cbn [fields_check] in E. destruct x as [|a x]; cbn [tl] in E.
    + destruct (extra b) as [|c|] eqn:X; [| | discriminate].
      * destruct (IH [] _ _ E C) as [C0 _]. split; [exact C0 |]. intros [|i] ? ? H; discriminate.
      * destruct (IH [] _ _ E C) as [C0 _]. cbn in C0. now destruct (extra_code _ _ X).
    + destruct (field a b) as [|c|] eqn:X; [| | discriminate].
      * destruct (IH x _ _ E C) as [C0 N]. split; [exact C0 |]. intros [|i] a' b' Ha Hb; cbn in Ha, Hb; [congruence | now apply (N i)].
      * destruct (IH x _ _ E C) as [C0 _]. cbn in C0. now destruct (field_code _ _ _ X).
Qed.

Lemma line_code strict x y st st' : line_check strict x y st = Some st' -> code st' = 0 ->
  code st = 0 /\ forall i a b, nth_error x i = Some a -> nth_error y i = Some b -> field a b = Fine.
Proof.
  unfold line_check. set (st1 := if Nat.eqb _ _ then st else _). intros E C.
  assert (E' : fields_check x y st1 = Some st').
  { destruct x as [|a x], y as [|b y]; try exact E. destruct strict; [discriminate | exact E]. }
  destruct (fields_code x y _ _ E' C) as [C0 N]. split; [| exact N]. unfold st1 in C0. now destruct (Nat.eqb _ _).
Qed.

Lemma lines_code strict second : forall first st st', lines_check strict first second st = Some st' -> code st' = 0 ->
  code st = 0 /\ forall k i x y a b, nth_error first k = Some x -> nth_error second k = Some y ->
    nth_error x i = Some a -> nth_error y i = Some b -> field a b = Fine.
Proof.
  induction second as [|y second IH]; intros first st st' E C.
  - inversion E; subst. split; [exact C |]. intros [|k] i x y a b _ H; discriminate.
  - cbn [lines_check] in E. destruct (line_check strict (hd [] first) y st) as [st1|] eqn:L; [| discriminate].
    destruct (IH _ _ _ E C) as [C1 N]. destruct (line_code _ _ _ _ _ L C1) as [C0 M]. split; [exact C0 |].
    intros [|k] i x y' a b Hx Hy Ha Hb.
    + destruct first as [|z first]; [discriminate |]. cbn in Hx, Hy. inversion Hx; inversion Hy; subst. now apply (M i).
    + destruct first as [|z first]; [discriminate |]. cbn in Hx, Hy. exact (N k i x y' a b Hx Hy Ha Hb).
Qed.

(** What the first file does not have. *)
Lemma fields_surplus x y : forall st st', fields_check x y st = Some st' -> code st' = 0 ->
  forall i b, nth_error x i = None -> nth_error y i = Some b -> extra b = Fine.
Proof.
  revert x. induction y as [|b y IH]; intros x st st' E C i b' Hx Hy; [destruct i; discriminate |].
  cbn [fields_check] in E. destruct x as [|a x]; cbn [tl] in E.
  - destruct (extra b) as [|c|] eqn:X; [| | discriminate].
    + destruct i as [|i]; cbn in Hy; [congruence |]. apply (IH [] _ _ E C i); [destruct i; reflexivity | exact Hy].
    + destruct (fields_code _ _ _ _ E C) as [C0 _]. now destruct (extra_code _ _ X).
  - destruct i as [|i]; [discriminate |]. cbn in Hx, Hy. destruct (field a b) as [|c|] eqn:X; [| | discriminate]; exact (IH x _ _ E C i b' Hx Hy).
Qed.

Lemma line_surplus strict x y st st' : line_check strict x y st = Some st' -> code st' = 0 ->
  forall i b, nth_error x i = None -> nth_error y i = Some b -> extra b = Fine.
Proof.
  unfold line_check. set (st1 := if Nat.eqb _ _ then st else _). intros E C. apply (fields_surplus x y st1 st'); [| exact C].
  destruct x as [|a x], y as [|b y]; try exact E. destruct strict; [discriminate | exact E].
Qed.

Lemma lines_surplus strict second : forall first st st', lines_check strict first second st = Some st' -> code st' = 0 ->
  forall k i y b, nth_error (nth k first []) i = None -> nth_error second k = Some y -> nth_error y i = Some b -> extra b = Fine.
Proof.
  induction second as [|y second IH]; intros first st st' E C k i y' b Hx Hy Hb; [destruct k; discriminate |].
  cbn [lines_check] in E. destruct (line_check strict (hd [] first) y st) as [st1|] eqn:L; [| discriminate].
  destruct (lines_code _ _ _ _ _ E C) as [C1 _]. destruct k as [|k].
  - cbn in Hy. inversion Hy; subst. apply (line_surplus _ _ _ _ _ L C1 i); [| exact Hb]. destruct first; exact Hx.
  - cbn in Hy. apply (IH _ _ _ E C k i y' b); [| exact Hy | exact Hb]. destruct first as [|z first]; [destruct k; destruct i; reflexivity | exact Hx].
Qed.

(** ** Splitting lines *)

Lemma blank_bool c : (Ascii.eqb c " " || Ascii.eqb c "009")%char = true <-> blank c.
Proof. unfold blank. rewrite orb_true_iff, !Ascii.eqb_eq. reflexivity. Qed.

Lemma split_blanks b rest : Forall blank b -> split (b ++ rest) [] = split rest [].
Proof.
  induction 1 as [|c b C B IH]; [reflexivity |]. cbn [app split]. apply blank_bool in C. rewrite C. exact IH.
Qed.

Lemma split_word w : forall acc rest, Forall (fun c => ~ blank c) w -> split (w ++ rest) acc = split rest (rev w ++ acc).
Proof.
  induction w as [|c w IH]; intros acc rest F; [reflexivity |]. inversion F as [|? ? N F']; subst. cbn [app split rev].
  destruct ((Ascii.eqb c " " || Ascii.eqb c "009")%char) eqn:E; [now apply blank_bool in E |].
  rewrite IH by exact F'. now rewrite <- app_assoc.
Qed.

Lemma split_end rest acc : acc <> [] -> (rest = [] \/ exists c r, rest = c :: r /\ blank c) -> split rest acc = rev acc :: split rest [].
Proof.
  intros A [-> | (c & r & -> & B)].
  - cbn. destruct acc; [now destruct A | reflexivity].
  - cbn [split]. apply blank_bool in B. rewrite B. destruct acc; [now destruct A | reflexivity].
Qed.

Lemma fields_line l ws : line_of l ws -> fields l = ws.
Proof.
  unfold fields. induction 1 as [b B | b w rest ws B N W R L IH].
  - rewrite <- (app_nil_r b). rewrite split_blanks by exact B. reflexivity.
  - rewrite split_blanks by exact B. rewrite split_word by exact W. rewrite app_nil_r.
    rewrite split_end; [rewrite rev_involutive, IH; reflexivity | | exact R].
    intros E. apply N. apply (f_equal (@rev _)) in E. now rewrite rev_involutive in E.
Qed.

(** ** Files *)

Lemma lookups f k i x : at_place f k i x -> exists h r, f = h :: r /\ exists ws, nth_error (map fields r) k = Some ws /\ nth_error ws i = Some x.
Proof.
  intros (h & r & l & ws & -> & L & W & X). exists h, r. split; [reflexivity |]. exists ws. split; [| exact X].
  rewrite nth_error_map, L. cbn. f_equal. now apply fields_line.
Qed.

Lemma noticed strict first second : passes strict first second -> first <> [] -> second <> [] ->
  (forall h ws, h = hd [] first \/ h = hd [] second -> line_of h ws ->
     List.length ws <> 1%nat \/ (exists w, In w ws /\ word w) -> hd [] first = hd [] second) /\
  (forall a b p q, line_of (hd [] first) [a] -> line_of (hd [] second) [b] -> is_number a p -> is_number b q -> p == q)%Q /\
  forall k i x y, at_place first k i x -> at_place second k i y ->
    (forall p q, is_number x p -> is_number y q -> close p q) /\ (word x -> x = y).
Proof.
  unfold passes, compare. intros P F S. destruct first as [|h1 r1]; [now destruct F |]. destruct second as [|h2 r2]; [now destruct S |].
  destruct (lines_check _ _ _ _) as [st'|] eqn:E; [| discriminate]. cbn in P. destruct (lines_code _ _ _ _ _ E P) as [C N].
  cbn [hd]. split; [| split].
  - intros h ws Hh L D. destruct (heading h1 h2) eqn:T; [| discriminate]. unfold heading in T.
    assert (Nu : numeric h = None).
    { unfold numeric. rewrite (fields_line _ _ L). destruct ws as [|a [|b ws]]; try reflexivity. destruct D as [D | (w & Iw & W)]; [now destruct D |].
      destruct Iw as [<- | []]. destruct (looks a) eqn:K; [| reflexivity]. apply looks_pattern in K. rewrite (word_pattern a W) in K. discriminate. }
    destruct Hh as [-> | ->]; rewrite Nu in T; [| destruct (numeric h1)]; now apply text_eqb_iff.
  - intros a b p q La Lb A B. destruct (heading h1 h2) eqn:T; [| discriminate]. unfold heading, numeric in T.
    rewrite (fields_line _ _ La), (fields_line _ _ Lb) in T. destruct (number_num a p A) as [Ea Ka]. destruct (number_num b q B) as [Eb Kb].
    rewrite Ka, Kb in T. apply Qeq_bool_iff in T. now rewrite <- Ea, <- Eb.
  - intros k i x y X Y. destruct (lookups _ _ _ _ X) as (h & r & E1 & u & U & Ux). destruct (lookups _ _ _ _ Y) as (h' & r' & E2 & v & V & Vy).
    inversion E1; inversion E2; subst. pose proof (N k i u v x y U V Ux Vy) as Q. split.
    + intros p q A B. destruct (field_number x y p q A B) as [[_ Cl] | [D _]]; [exact Cl | congruence].
    + intros W. destruct (field_word x y W) as [[_ Q'] | [D _]]; [exact Q' | congruence].
Qed.

(** Every line has words. *)
Lemma split_line s : forall acc, Forall (fun c => ~ blank c) acc ->
  (acc = [] -> line_of s (split s acc)) /\ (acc <> [] -> line_of (rev acc ++ s) (split s acc)).
Proof.
  induction s as [|c s IH]; intros acc F.
  - split.
    + intros ->. constructor. constructor.
    + intros N. cbn. destruct acc as [|a acc]; [now destruct N |].
      apply (word_first [] (rev (a :: acc)) [] []); [constructor | | apply Forall_rev; exact F | now left | constructor; constructor].
      intros E. apply (f_equal (@List.length _)) in E. rewrite rev_length in E. discriminate.
  - cbn [split]. destruct ((Ascii.eqb c " " || Ascii.eqb c "009")%char) eqn:B.
    + apply blank_bool in B. destruct (IH [] (Forall_nil _)) as [H _]. specialize (H eq_refl).
      assert (H' : line_of (c :: s) (split s [])).
      { inversion H as [b Bs E1 E2 | b w rest ws Bs W1 W2 R L E1 E2].
        - apply only_blanks. constructor; assumption.
        - apply (word_first (c :: b)); try assumption. constructor; assumption. }
      split.
      * intros ->. exact H'.
      * intros N. destruct acc as [|a acc]; [now destruct N |].
        apply (word_first [] (rev (a :: acc)) (c :: s)); [constructor | | apply Forall_rev; exact F | right; exists c, s; split; [reflexivity | exact B] | exact H'].
        intros E. apply (f_equal (@List.length _)) in E. rewrite rev_length in E. discriminate.
    + assert (Nb : ~ blank c) by (intros Q; apply blank_bool in Q; congruence).
      destruct (IH (c :: acc) ltac:(constructor; [exact Nb | exact F])) as [_ H]. specialize (H ltac:(discriminate)).
      cbn [rev] in H. rewrite <- app_assoc in H. split; [intros -> | intros _]; exact H.
Qed.

Lemma line_fields l : line_of l (fields l).
Proof. unfold fields. destruct (split_line l [] (Forall_nil _)) as [H _]. now apply H. Qed.

Lemma surplus strict first second k i y : passes strict first second -> first <> [] ->
  at_place second k i y -> (forall x, ~ at_place first k i x) ->
  (forall q, is_number y q -> q == 0)%Q /\ ~ word y.
Proof.
  unfold passes, compare. intros P F S N. destruct (lookups _ _ _ _ S) as (h2 & r2 & -> & v & V & Vy).
  destruct first as [|h1 r1]; [now destruct F |].
  destruct (lines_check _ _ _ _) as [st'|] eqn:E; [| discriminate]. cbn in P.
  assert (X : nth_error (nth k (map fields r1) []) i = None).
  { destruct (nth_error (nth k (map fields r1) []) i) as [x|] eqn:Z; [| reflexivity]. exfalso. apply (N x).
    destruct (nth_error r1 k) as [l|] eqn:L.
    - exists h1, r1, l, (fields l). split; [reflexivity |]. split; [exact L |]. split; [apply line_fields |].
      rewrite <- Z. f_equal. symmetry. apply nth_error_nth. rewrite nth_error_map, L. reflexivity.
    - apply nth_error_None in L. rewrite nth_overflow in Z by (rewrite map_length; exact L). destruct i; discriminate. }
  pose proof (lines_surplus _ _ _ _ _ E P k i v y X V Vy) as Q. unfold extra in Q. split.
  - intros q Y. destruct (number_num y q Y) as [Ey Ly]. rewrite Ly in Q. destruct (Qeq_bool (num y) 0) eqn:T; [| discriminate].
    apply Qeq_bool_iff in T. now rewrite <- Ey.
  - intros W. destruct (looks y) eqn:L; [| discriminate]. apply looks_pattern in L. rewrite (word_pattern y W) in L. discriminate.
Qed.

Lemma fields_same x y st : Forall2 same_field x y -> fields_check x y st = Some st.
Proof.
  intros F. revert st. induction F as [|a b x y A F IH]; intros st; [reflexivity |]. cbn [fields_check tl]. rewrite (same_field_fine a b A). apply IH.
Qed.

Lemma line_same strict x y st : Forall2 same_field x y -> line_check strict x y st = Some st.
Proof.
  intros F. unfold line_check. rewrite (Forall2_len _ _ _ _ _ F), Nat.eqb_refl. destruct F as [|a b x y A F]; [reflexivity |].
  apply fields_same. now constructor.
Qed.

Lemma unnoticed strict first second : same_file first second -> compare strict first second = (0, 0%nat).
Proof.
  intros [h r1 r2 F]. unfold compare. replace (heading h h) with true.
  2: { unfold heading. symmetry. destruct (numeric h); [apply Qeq_bool_iff; reflexivity | now apply text_eqb_iff]. }
  assert (L : forall st, lines_check strict (map fields r1) (map fields r2) st = Some st).
  { induction F as [|a b r1 r2 (x & y & A & B & C) F IH]; intros st; [reflexivity |]. cbn [map lines_check hd tl].
    rewrite (fields_line a x A), (fields_line b y B), (line_same strict x y st C). apply IH. }
  rewrite L. reflexivity.
Qed.

(** ** Directories *)

Lemma lookup_in n d f : lookup n d = Some f -> In (n, f) d.
Proof.
  induction d as [|[m g] d IH]; [discriminate |]. cbn. destruct (text_eqb n m) eqn:E; [| intros H; right; now apply IH].
  intros H. inversion H; subst. left. apply text_eqb_iff in E. now subst.
Qed.
Lemma lookup_unique n d f : NoDup (map fst d) -> In (n, f) d -> lookup n d = Some f.
Proof.
  induction d as [|[m g] d IH]; intros N I; [destruct I |]. cbn. inversion N as [|? ? A B]; subst. destruct I as [E | I].
  - inversion E; subst. now replace (text_eqb n n) with true by (symmetry; now apply text_eqb_iff).
  - destruct (text_eqb n m) eqn:T; [| now apply IH]. apply text_eqb_iff in T. subst. exfalso. apply A. apply (in_map fst _ _ I).
Qed.

Lemma check_all strict results expected : NoDup (map fst results) -> NoDup (map fst expected) ->
  (check strict results expected = true <->
   results <> [] /\
   (forall n, (exists f, In (n, f) results) <-> (exists g, In (n, g) expected)) /\
   forall n f g, In (n, f) results -> In (n, g) expected -> passes strict f g).
Proof.
  intros N1 N2.
  assert (K : check strict results expected = true <-> results <> [] /\ expected <> [] /\
    forallb (one_check strict expected) results = true /\
    forallb (fun e => match lookup (fst e) results with Some _ => true | None => false end) expected = true).
  { unfold check. destruct results as [|a l], expected as [|b r]; try (split; [discriminate | intros (A & B & _); (now destruct A) || (now destruct B)]).
    rewrite andb_true_iff. split; [intros [A B]; repeat split; try discriminate; assumption | intros (_ & _ & A & B); split; assumption]. }
  rewrite K. rewrite !forallb_forall. split.
  - intros (R & X & A & B). split; [exact R |]. split.
    + intros n. split.
      * intros (f & I). specialize (A _ I). unfold one_check in A. cbn in A. destruct (lookup n expected) as [g|] eqn:L; [| discriminate].
        exists g. now apply lookup_in.
      * intros (g & I). specialize (B _ I). cbn in B. destruct (lookup n results) as [f|] eqn:L; [| discriminate]. exists f. now apply lookup_in.
    + intros n f g I J. specialize (A _ I). unfold one_check in A. cbn in A. rewrite (lookup_unique n expected g N2 J) in A. now apply Z.eqb_eq.
  - intros (R & S & P). split; [exact R |]. split.
    { destruct results as [|[n f] l]; [now destruct R |]. destruct (proj1 (S n)) as (g & J); [exists f; now left |]. intros ->. destruct J. }
    split.
    + intros [n f] I. unfold one_check. cbn. destruct (proj1 (S n)) as (g & J); [now exists f |].
      rewrite (lookup_unique n expected g N2 J). apply Z.eqb_eq. exact (P n f g I J).
    + intros [n g] J. cbn. destruct (proj2 (S n)) as (f & I); [now exists g |]. now rewrite (lookup_unique n results f N1 I).
Qed.

(** ** Counterexamples *)

Lemma at_fields h r k i x ws : nth_error (map fields r) k = Some ws -> nth_error ws i = Some x -> at_place (h :: r) k i x.
Proof.
  intros W X. rewrite nth_error_map in W. destruct (nth_error r k) as [l|] eqn:L; [| discriminate]. cbn in W. inversion W; subst.
  exists h, r, l, (fields l). repeat split; [exact L | apply line_fields | exact X].
Qed.
Lemma not_at h r k i x : (forall ws, nth_error (map fields r) k = Some ws -> nth_error ws i = None) -> ~ at_place (h :: r) k i x.
Proof.
  intros N A. destruct (lookups _ _ _ _ A) as (h' & r' & E & ws & W & X). inversion E; subst. rewrite (N ws W) in X. discriminate.
Qed.

Lemma number_two : is_number (txt "2") 2.
Proof.
  apply (number [] 1 (txt "2") [] [] [] 0 2); [constructor | constructor | | | discriminate | constructor].
  - exact (one_more [] "2" 0 2 no_digits D2).
  - exists 2. exact (one_more [] "2" 0 2 no_digits D2).
Qed.

Lemma refute_lines strict : exists first second k i x,
  passes strict first second /\ first <> [] /\ second <> [] /\ at_place first k i x /\ is_number x 2 /\ (forall y, ~ at_place second k i y).
Proof.
  exists [txt "m"; txt "1"; txt "2"], [txt "m"; txt "1"], 1%nat, 0%nat, (txt "2").
  split; [destruct strict; reflexivity |]. split; [discriminate |]. split; [discriminate |].
  split; [apply (at_fields _ _ 1 0 _ [txt "2"]); reflexivity |]. split; [exact number_two |].
  intros y. apply not_at. intros ws E. discriminate.
Qed.

Lemma refute_fields strict : exists first second k i x y,
  passes strict first second /\ first <> [] /\ second <> [] /\ at_place first k (S i) x /\ is_number x 2 /\
  at_place second k i y /\ (forall y, ~ at_place second k (S i) y).
Proof.
  exists [txt "m"; txt "1 2"], [txt "m"; txt "1"], 0%nat, 0%nat, (txt "2"), (txt "1").
  split; [destruct strict; reflexivity |]. split; [discriminate |]. split; [discriminate |].
  split; [apply (at_fields _ _ 0 1 _ [txt "1"; txt "2"]); reflexivity |]. split; [exact number_two |].
  split; [apply (at_fields _ _ 0 0 _ [txt "1"]); reflexivity |].
  intros y. apply not_at. intros ws E. cbn in E. inversion E. reflexivity.
Qed.

Lemma refute_empty strict first second : first = [] \/ second = [] -> passes strict first second.
Proof. unfold passes, compare. intros [-> | ->]; [reflexivity | destruct first; reflexivity]. Qed.

Lemma number_zero : is_number (txt "0") 0.
Proof.
  apply (number [] 1 (txt "0") [] [] [] 0 0); [constructor | constructor | | | discriminate | constructor].
  - exact (one_more [] "0" 0 0 no_digits D0).
  - exists 0. exact (one_more [] "0" 0 0 no_digits D0).
Qed.

Lemma refute_word strict : exists first second k i x y,
  passes strict first second /\ at_place first k i x /\ at_place second k i y /\ is_number x 0 /\ word y.
Proof.
  exists [txt "m"; txt "0"], [txt "m"; txt "lost"], 0%nat, 0%nat, (txt "0"), (txt "lost").
  split; [destruct strict; reflexivity |]. split; [apply (at_fields _ _ 0 0 _ [txt "0"]); reflexivity |].
  split; [apply (at_fields _ _ 0 0 _ [txt "lost"]); reflexivity |]. split; [exact number_zero |].
  exists "l"%char. split; [left; reflexivity |]. cbn. intuition discriminate.
Qed.

Lemma refute_same strict : exists f, f <> [] /\ ~ passes strict f f.
Proof. exists [txt "m"; txt "-"]. split; [discriminate |]. destruct strict; discriminate. Qed.
