(** Reading tables back. *)

Require Import String Ascii ZArith List Bool Lia Arith.
From Verif Require Import Recorder Recorder_spec Recorder_proofs Recorder_proofs2.
Import ListNotations.
Open Scope string_scope.
Open Scope list_scope.

Lemma scan_word : forall t s, no_blank t -> scan (append t s) = (append t (fst (scan s)), snd (scan s)).
Proof.
  induction t as [|c t IH]; intros s H; cbn; [now destruct (scan s)|].
  destruct H as [Hc H]. rewrite (IH s H).
  destruct (Ascii.eqb_spec c " "%char); [contradiction|reflexivity].
Qed.

Lemma words_blank : forall p s, all_blank p -> words (append p s) = words s.
Proof.
  unfold words. induction p as [|c p IH]; intros s H; cbn; [reflexivity|].
  destruct H as [-> H]. specialize (IH s H). rewrite Ascii.eqb_refl.
  destruct (scan (append p s)) as [w ws]. exact IH.
Qed.

Lemma scan_blank : forall p s, all_blank p -> p <> "" -> scan (append p s) = ("", words s).
Proof.
  intros [|c p] s H Hne; [contradiction|]. destruct H as [-> H]. cbn. rewrite <- (words_blank p s H). unfold words.
  destruct (scan (append p s)). reflexivity.
Qed.

Lemma words_word : forall t s, word t -> words (append t s) = append t (fst (scan s)) :: snd (scan s).
Proof.
  intros t s [Hne Hb]. unfold words. rewrite (scan_word t s Hb).
  destruct t as [|c t]; [contradiction|reflexivity].
Qed.

Lemma words_count : forall cells line, shows cells line -> Forall (fun c => word (snd c)) cells ->
  List.length (words line) <= List.length cells.
Proof.
  induction 1 as [|w t rest pad line Hp Hl Hs IH]; intros F; [cbn; lia|].
  inversion F as [|? ? Ht F']; subst. cbn in Ht. rewrite (words_blank _ _ Hp), (words_word _ _ Ht).
  specialize (IH F'). cbn [List.length]. unfold words in IH. destruct (scan line) as [x xs]. cbn [snd].
  destruct x; cbn [List.length] in IH; lia.
Qed.

Lemma pad_empty : forall pad w t, String.length pad + String.length t = Nat.max w (String.length t) ->
  pad <> "" <-> String.length t < w.
Proof.
  intros pad w t H. destruct pad as [|c pad]; cbn in H; split; intros; try congruence; try lia; try discriminate.
Qed.

(** A line can be read back if and only if its cells fit. *)
Lemma words_iff : forall cells line, shows cells line -> Forall (fun c => word (snd c)) cells ->
  (words line = map snd cells <-> fits cells).
Proof.
  induction 1 as [|w t rest pad line Hp Hl Hs IH]; intros F; [cbn; split; [constructor|reflexivity]|].
  inversion F as [|? ? Ht F']; subst. cbn in Ht. specialize (IH F').
  rewrite (words_blank _ _ Hp), (words_word _ _ Ht). unfold fits. cbn [tl map snd].
  inversion Hs as [Hn En|w2 t2 rest2 pad2 line2 Hp2 Hl2 Hs2 Ec El]; subst.
  - cbn. rewrite append_nil. split; [constructor|reflexivity].
  - pose proof (pad_empty pad2 w2 t2 Hl2) as Hpad.
    inversion F' as [|? ? Ht2 F2]; subst. cbn in Ht2.
    split.
    + intros E.
      destruct pad2 as [|c pad2].
      * exfalso.
        assert (Ew : words (append t (append "" (append t2 line2))) = append t (append t2 (fst (scan line2))) :: snd (scan line2)).
        { rewrite (words_word _ _ Ht). cbn [append]. rewrite (scan_word t2 line2) by apply Ht2. reflexivity. }
        rewrite (words_word _ _ Ht) in Ew. rewrite Ew in E. injection E as _ E2.
        pose proof (words_count _ _ Hs2 F2) as Hcount. unfold words in Hcount.
        destruct (scan line2) as [x xs]. cbn [snd] in E2. subst xs.
        destruct x; cbn [List.length] in Hcount; rewrite ?map_length in Hcount; cbn in Hcount; rewrite ?map_length in Hcount; lia.
      * rewrite (scan_blank _ _ Hp2) in E by discriminate. cbn [fst snd] in E. rewrite append_nil in E.
        injection E as E. constructor; [apply Hpad; discriminate|].
        apply IH. rewrite (words_blank _ _ Hp2). exact E.
    + intros Hf. inversion Hf as [|? ? H1 H2]; subst. cbn [fst snd] in H1.
      apply Hpad in H1. rewrite (scan_blank _ _ Hp2 H1). cbn [fst snd]. rewrite append_nil. f_equal.
      rewrite <- (words_blank pad2 (append t2 line2) Hp2). now apply IH.
Qed.

(** The rows of any table. *)
Lemma Forall_crossed : forall A B C (P : C -> Prop) (f : A -> B -> C) l m,
  (forall a b, P (f a b)) -> Forall P (crossed f l m).
Proof.
  intros A B C P f l m H. unfold crossed. rewrite Forall_forall. intros c Hc.
  apply in_flat_map in Hc. destruct Hc as [a [_ Hc]]. apply in_map_iff in Hc. destruct Hc as [b [<- _]]. apply H.
Qed.

Lemma Forall_mapped : forall A B (P : B -> Prop) (f : A -> B) l, (forall a, P (f a)) -> Forall P (map f l).
Proof. intros. rewrite Forall_forall. intros b Hb. apply in_map_iff in Hb. destruct Hb as [a [<- _]]. auto. Qed.

Definition good (c : nat * string) : Prop := word (snd c) /\ String.length (snd c) < fst c.

Lemma good_row : forall first rest, word (snd first) -> Forall good rest -> Forall (fun c => word (snd c)) (first :: rest) /\ fits (first :: rest).
Proof.
  intros first rest H F. split.
  - constructor; auto. eapply Forall_impl; [|exact F]. intros c Hc. apply Hc.
  - unfold fits. cbn. eapply Forall_impl; [|exact F]. intros c Hc. apply Hc.
Qed.

Lemma good_all : forall row, Forall good row -> Forall (fun c => word (snd c)) row /\ fits row.
Proof.
  intros [|c row] H; [split; constructor|]. inversion H; subst. apply good_row; auto. now destruct H2.
Qed.

Lemma dec_word : forall z, word (dec z).
Proof.
  intros z. unfold dec.
  assert (Hu : forall d, no_blank (DecimalString.NilEmpty.string_of_uint d))
    by (induction d; cbn; repeat split; auto; discriminate).
  assert (H0 : word (DecimalString.NilZero.string_of_uint (Decimal.Nil))) by (repeat split; discriminate).
  destruct (Z.to_int z) as [d|d]; cbn.
  - destruct d; split; try discriminate; try apply H0; exact (Hu _) || (cbn; split; [discriminate|apply Hu]).
  - split; [discriminate|]. cbn. split; [discriminate|].
    destruct d; exact (Hu _) || apply H0 || (cbn; split; [discriminate|apply Hu]).
Qed.

Lemma rows_good : forall L t fn cols at_ d n heading rows, short_numbers L ->
  match fn with OIm _ i => word i | _ => True end ->
  @table L t fn cols at_ d n heading rows ->
  Forall (fun row => Forall (fun c => word (snd c)) row /\ fits row) rows.
Proof.
  intros L t fn cols at_ d n heading rows [H6 Hr] Hid T.
  assert (Hd : forall x, good (@datum L x)) by (intros x; exact (H6 x)).
  assert (Hw : forall x, word (snd (@datum L x))) by (intros x; apply H6).
  destruct T; try (apply Forall_mapped; intros x; apply good_row; [apply Hw|]); try (repeat (apply Forall_cons || apply Forall_nil); apply Hd).
  - apply Forall_mapped. intros c. apply Hd.
  - apply Forall_mapped. intros c. apply Hd.
  - apply Forall_mapped. intros c. apply Hd.
  - apply Forall_mapped. intros c. apply Hd.
  - apply Forall_mapped. intros c. apply Hd.
  - constructor; [|constructor]. apply good_all. apply Forall_mapped. intros v. split; [apply H6|]. cbn [fst snd].
    pose proof (proj2 (H6 v)). lia.
  - constructor; [|constructor]. apply good_row; [exact Hid|]. repeat (apply Forall_cons || apply Forall_nil); apply Hr.
  - constructor; [|constructor]. apply good_all. apply Forall_mapped. intros v. apply Hd.
  - apply Forall_crossed. intros. apply Hd.
  - apply Forall_crossed. intros c s. split; [apply H6|]. cbn [fst snd]. pose proof (proj2 (H6 (stat_of L s (joint (snd c) x)))). lia.
  - apply Forall_crossed. intros. apply Hd.
  - apply Forall_mapped. intros z. apply good_row; [apply dec_word|]. repeat (apply Forall_cons || apply Forall_nil); apply Hd.
Qed.

(** So every row that is printed can be read back. *)
Lemma rows_read : forall L t fn cols at_ d n heading rows ls, short_numbers L ->
  match fn with OIm _ i => word i | _ => True end ->
  @table L t fn cols at_ d n heading rows -> Forall2 shows rows ls ->
  map words ls = map (map snd) rows.
Proof.
  intros L t fn cols at_ d n heading rows ls Hs Hid T F.
  pose proof (rows_good _ _ _ _ _ _ _ _ _ Hs Hid T) as G. clear T.
  induction F as [|row l rows ls H F IH]; [reflexivity|].
  inversion G as [|? ? [G1 G2] G3]; subst. cbn. f_equal; [|now apply IH].
  now apply (words_iff row l H G1).
Qed.

Lemma append_length : forall a b, String.length (append a b) = String.length a + String.length b.
Proof. induction a; cbn; intros; auto. Qed.

Lemma no_blank_append : forall a b, no_blank a -> no_blank b -> no_blank (append a b).
Proof. induction a; cbn; intros; intuition. Qed.

(** The heading of a table by demand parameter. *)
Lemma by_edp_heading : forall L b id ss (cats : list (string * list nat)) (xs : list (num L)) d n heading rows line,
  heading = label id :: crossed (fun c s => label (append (fst c) (append "." (spell s)))) cats ss ->
  @table L by_edp_t (OStr b (Some id)) (Some (map (fun s => PStr (spell s)) ss)) (Some (map PNum xs)) d n heading rows ->
  word id -> Forall (fun c => word (fst c)) cats -> shows heading line ->
  (words line = map snd heading <->
   Forall (fun c => Forall (fun s => String.length (fst c) + String.length (spell s) < 14) ss) cats).
Proof.
  intros L b id ss cats xs d n heading rows line -> _ Hid Hc Hs.
  rewrite (words_iff _ _ Hs).
  - unfold fits, crossed. cbn [tl]. rewrite !Forall_forall. split.
    + intros H c Hin. rewrite Forall_forall. intros s Hss.
      specialize (H (label (append (fst c) (append "." (spell s))))).
      assert (Hl : In (label (append (fst c) (append "." (spell s))))
                      (flat_map (fun c => map (fun s => label (append (fst c) (append "." (spell s)))) ss) cats)).
      { apply in_flat_map. exists c. split; auto. apply in_map_iff. eauto. }
      specialize (H Hl). cbn in H. rewrite !append_length in H. cbn in H. lia.
    + intros H x Hx. apply in_flat_map in Hx. destruct Hx as [c [Hin Hx]]. apply in_map_iff in Hx. destruct Hx as [s [<- Hss]].
      specialize (H c Hin). rewrite Forall_forall in H. specialize (H s Hss). cbn. rewrite !append_length. cbn. lia.
  - constructor; [exact Hid|]. unfold crossed. rewrite Forall_forall in *. intros x Hx.
    apply in_flat_map in Hx. destruct Hx as [c [Hin Hx]]. apply in_map_iff in Hx. destruct Hx as [s [<- Hss]]. cbn.
    destruct (Hc c Hin) as [H1 H2]. split.
    + destruct (fst c); [contradiction|discriminate].
    + apply no_blank_append; auto. destruct s; cbn; repeat split; discriminate.
Qed.

(** Of what is printed. *)
Lemma printed_rows : forall L t fn cols at_ d n heading rows, short_numbers L ->
  match fn with OIm _ i => word i | _ => True end ->
  @table L t fn cols at_ d n heading rows -> sound L t fn cols at_ n ->
  exists r first rest, make t fn cols at_ d n = Ok r /\ generate r = (first :: rest, None) /\
    map words rest = map (map snd) rows.
Proof.
  intros L t fn cols at_ d n heading rows Hs Hid T S.
  destruct (tables_ok L _ _ _ _ _ _ _ _ T S) as [r [a [b [Hm [Hg [_ F]]]]]].
  exists r, a, b. refine (conj Hm (conj Hg _)). now apply (rows_read L t fn cols at_ d n heading rows b).
Qed.

Lemma printed_by_edp : forall L b id ss (cats : list (string * list nat)) (xs : list (num L)) d n heading rows,
  heading = label id :: crossed (fun c s => label (append (fst c) (append "." (spell s)))) cats ss ->
  @table L by_edp_t (OStr b (Some id)) (Some (map (fun s => PStr (spell s)) ss)) (Some (map PNum xs)) d n heading rows ->
  Forall (fun s => s <> mean_ln_x /\ s <> median_x) ss ->
  word id -> Forall (fun c => word (fst c)) cats ->
  exists r first rest,
    make by_edp_t (OStr b (Some id)) (Some (map (fun s => PStr (spell s)) ss)) (Some (map PNum xs)) d n = Ok r /\
    generate r = (first :: rest, None) /\
    (words first = map snd heading <->
     Forall (fun c => Forall (fun s => String.length (fst c) + String.length (spell s) < 14) ss) cats).
Proof.
  intros L b id ss cats xs d n heading rows Eh T Hss Hid Hc.
  destruct (tables_ok L _ _ _ _ _ _ _ _ T) as [r [a [l [Hm [Hg [Hh _]]]]]].
  { cbn. exists ss. auto. }
  exists r, a, l. refine (conj Hm (conj Hg _)). exact (by_edp_heading L b id ss cats xs d n heading rows a Eh T Hid Hc Hh).
Qed.

(** A library whose numbers are short. *)
Definition tiny_text (z : Z) : string := match z with Z0 => "0" | Zpos xH => "1" | Zpos _ => "inf" | Zneg _ => "-inf" end.

Definition tiny : lib := {|
  num := Z; dist := Z; g6 := tiny_text; repr := tiny_text; ofZ := fun z => z; gtb := Z.gtb; plus := Z.add; quot := Z.div;
  value := fun _ => 1%Z; values := fun _ => [1%Z]; costs := fun _ => 1%Z; lognormal := fun m _ => m;
  add_dists := fun l => fold_left Z.add l 0%Z; stat_of := fun _ d => d; frag_of := fun g => g;
  by_edp := fun _ => [(Some "interstorey", [0])]; by_frag := fun _ => []
|}.

Lemma tiny_short : short_numbers tiny.
Proof.
  split; intros [|[p|p|]|p]; cbn; (split; [split; [discriminate|cbn; repeat split; discriminate]|lia]).
Qed.

(** A parameter with a name of some length. *)
Lemma refute_heading : exists L t fn cols at_ d n heading rows r first rest,
  @table L t fn cols at_ d n heading rows /\ sound L t fn cols at_ n /\ Forall (fun c => word (snd c)) heading /\
  make t fn cols at_ d n = Ok r /\ generate r = (first :: rest, None) /\ words first <> map snd heading.
Proof.
  set (ss := [mean_x; sd_ln_x]). set (cats := [("interstorey", [0])]).
  assert (T : @table tiny by_edp_t (OStr 0 (Some "im")) (Some (map (fun s => PStr (spell s)) ss)) (Some (map (@PNum tiny) [1%Z])) (0%Z : num tiny) false
      (label "im" :: crossed (fun c s => label (append (fst c) (append "." (spell s)))) cats ss)
      (map (fun x => @datum tiny x :: crossed (fun c s => datum (stat_of tiny s (joint (snd c) x))) cats ss) [1%Z])).
  { apply (T_by_edp tiny 0 "im" ss cats [1%Z] 0%Z false); [discriminate|]. split; cbn; [constructor; constructor|].
    repeat constructor. }
  assert (Hss : Forall (fun s => s <> mean_ln_x /\ s <> median_x) ss)
    by (repeat (apply Forall_cons || apply Forall_nil); split; discriminate).
  assert (Hid : word "im") by (split; [discriminate|cbn; repeat split; discriminate]).
  assert (Hc : Forall (fun c => word (fst c)) cats)
    by (constructor; [split; [discriminate|cbn; repeat split; discriminate]|constructor]).
  destruct (printed_by_edp tiny 0 "im" ss cats [1%Z] 0%Z false _ _ eq_refl T Hss Hid Hc) as [r [a [l [Hm [Hg Hw]]]]].
  exists tiny, by_edp_t, (OStr 0 (Some "im")), (Some (map (fun s => PStr (spell s)) ss)), (Some (map (@PNum tiny) [1%Z])), (0%Z : num tiny), false.
  eexists. eexists. exists r, a, l. refine (conj T (conj _ (conj _ (conj Hm (conj Hg _))))).
  - cbn. exists ss. auto.
  - cbn. repeat (apply Forall_cons || apply Forall_nil); (split; [discriminate|cbn; repeat split; discriminate]).
  - intros E. apply Hw in E. inversion E as [|? ? H _]; subst. inversion H as [|? ? H1 _]; subst. cbn in H1. lia.
Qed.
