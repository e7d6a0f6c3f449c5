(** * Proofs about what the library writes of its objects (C97): what stands where *)
From Coq Require Import ZArith Bool Ascii String List Reals Floats.SpecFloat Lia Lra.
From Flocq Require Import Core BinarySingleNaN.
From Verif Require Import Num Maq Report Damage Spread Double_spec Report_spec Report_proofs Report_proofs2 Report_proofs3
  Shown Shown_spec Shown_proofs Shown_proofs2.
Import ListNotations.
Local Open Scope list_scope.
Local Open Scope Z_scope.

Lemma curve_shown c : curve_doubles c -> curve_read (curve_text c) c.
Proof.
  destruct c; cbn [curve_doubles curve_text]; unfold said; intros C; decompose [and] C; constructor; now apply double_read.
Qed.

Lemma demand_shown d : demand_doubles d -> demand_read (demand_text d) d.
Proof.
  intros (M & A & B). exists (curve_text (me_curve (de_measure d))), (curve_text (re_mu (de_first d))), (curve_text (re_sigma (de_first d))).
  split; [now apply curve_shown |]. split; [now apply curve_shown |]. split; [now apply curve_shown |].
  unfold demand_text, measure_text, response_text, said. cbn [list_ascii_of_string]. rewrite <- !app_assoc. reflexivity.
Qed.

Lemma int_shown n : whole (int_text n) n.
Proof.
  unfold whole, int_text. destruct (Z.ltb_spec n 0).
  - exists (unsigned (- n)). split; [rewrite Z.abs_neq by lia; apply unsigned_number; lia | reflexivity].
  - exists (unsigned n). split; [rewrite Z.abs_eq by lia; apply unsigned_number; lia | reflexivity].
Qed.

Section Dists.
Variable exp : F64 -> F64.
Hypothesis exp_double : forall x, double (exp x).

Lemma dists_shown l : Forall (fun d => double (snd d)) l -> dists_read (mean_of exp) (dists_text exp l) l.
Proof.
  induction 1 as [|d l D L IH]; [constructor |]. cbn [dists_text]. unfold dist_text, said.
  match goal with |- dists_read _ ?t _ =>
    replace t with (txt "(lognormal mean=" ++ double_text (mean_of exp d) ++ txt ", sd_ln=" ++ double_text (snd d) ++ txt "); " ++ dists_text exp l)
      by (cbn [list_ascii_of_string]; rewrite <- !app_assoc; reflexivity) end.
  constructor; [apply double_read; now apply mean_double | now apply double_read | exact IH].
Qed.

Lemma fragility_shown l : Forall (fun d => double (snd d)) l ->
  exists t, dists_read (mean_of exp) t l /\ fragility_text exp l = txt "FragilityFn: " ++ t ++ [ascii_of_nat 10].
Proof. intros L. exists (dists_text exp l). split; [now apply dists_shown | reflexivity]. Qed.

Lemma loss_shown l : loss_doubles l -> loss_read (mean_of exp) (loss_text exp l) l.
Proof. destruct l; cbn [loss_doubles]; intros L; constructor. now apply dists_shown. Qed.

Lemma group_shown g c d : gr_cost g = Some c -> gr_delay g = Some d -> demand_doubles (gr_demand g) ->
  Forall (fun d => double (snd d)) (gr_states g) -> loss_doubles c -> loss_doubles d ->
  exists t, group_text exp g = Returns t /\ group_read (mean_of exp) t g c d.
Proof.
  intros C D M S LC LD. unfold group_text. rewrite C, D. eexists. split; [reflexivity |].
  destruct (fragility_shown (gr_states g) S) as (f & F & E).
  exists (int_text (gr_count g)), (demand_text (gr_demand g)), f, (loss_text exp c), (loss_text exp d).
  split; [apply int_shown |]. split; [now apply demand_shown |]. split; [exact F |].
  split; [now apply loss_shown |]. split; [now apply loss_shown |].
  rewrite E. unfold said. cbn [list_ascii_of_string]. rewrite <- !app_assoc. reflexivity.
Qed.

End Dists.
