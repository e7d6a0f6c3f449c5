(** Some recorders. *)

Require Import String Ascii ZArith List Bool Lia.
From Verif Require Import Recorder Recorder_spec Recorder_proofs3 Paths Paths_spec Paths_proofs Analyze Analyze_spec Analyze_proofs.
Import ListNotations.

Definition rates : recorder toy := toy_r imrate (OIm 0 "im") None (Some (map (@PNum toy) [1; 2]%Z)).
Definition rate : recorder toy := toy_r imrate (OIm 0 "im2") None (Some [@PNum toy 1%Z]).
Definition fn : recorder toy := toy_r detfn (ODet 0) None (Some [@PNum toy 1%Z]).

(** Two into one file, the second appending; one between them. *)
Definition demo : defs toy :=
  [("a", Entry fn (Some (lit "both.txt")) false); ("b", Entry rates (Some (lit "rates")) false);
   ("c", Entry rate (Some (lit "both.txt")) true)]%string.

Lemma demo_ok : Forall (fun e => e_file (snd e) <> None /\ exists lines, output (snd e) lines) demo.
Proof. repeat (apply Forall_cons || apply Forall_nil); (split; [discriminate|eexists; reflexivity]). Qed.

Lemma demo_files :
  Forall (fun e => e_file (snd e) <> None /\ exists lines, output (snd e) lines) demo /\
  (exists f', analyze (Some (lit "out")) (fun _ => []) demo = (f', None) /\
     f' (lit "out/rates.csv") = ["             im         lambda"; "              1              9"; "              2              8"]%string /\
     List.length (f' (lit "out/both.txt")) = 4).
Proof.
  split; [exact demo_ok|].
  eexists. refine (conj eq_refl (conj _ _)); vm_compute; reflexivity.
Qed.

Lemma not_written : forall dir (e : entry toy) n p, e_file e = Some n -> p <> full_path dir n -> ~ writes_to dir e p.
Proof. intros dir e n p E Hn H. apply Hn. now apply (writes_to_iff toy dir e n p E). Qed.

Lemma demo_alone : exists a e b, map snd demo = a ++ e :: b /\ a <> [] /\ b <> [] /\
  writes_to (Some (lit "out")) e (lit "out/rates.csv") /\
  (forall e', In e' (a ++ b) -> ~ writes_to (Some (lit "out")) e' (lit "out/rates.csv")).
Proof.
  eexists [_], _, [_]. refine (conj eq_refl (conj _ (conj _ (conj _ _)))); try discriminate.
  - eapply (writes_to_iff toy); reflexivity.
  - intros e' [<-|[<-|[]]]; (eapply not_written; [reflexivity|discriminate]).
Qed.

Lemma demo_again : forall e, In e (map snd demo) -> writes_to (Some (lit "out")) e (lit "out/rates.csv") -> e_append e = false.
Proof.
  intros e [<-|[<-|[<-|[]]]] Hw; try reflexivity.
  exfalso. revert Hw. eapply not_written; [reflexivity|discriminate].
Qed.

(** Two recorders, one file. *)
Lemma refute_shared : exists L dir (d : defs L) f f' id e p lines,
  analyze dir f d = (f', None) /\ In (id, e) d /\ writes_to dir e p /\ output e lines /\
  ~ exists a b, f' p = a ++ lines ++ b.
Proof.
  exists toy, None, [("a", Entry rates (Some (lit "r")) false); ("b", Entry rate (Some (lit "r")) false)]%string, (fun _ => []).
  eexists. exists "a"%string. eexists. exists (lit "./r.csv"). eexists.
  refine (conj eq_refl (conj (or_introl eq_refl) (conj _ (conj eq_refl _)))).
  - eapply (writes_to_iff toy); reflexivity.
  - intros [a [b E]]. apply (f_equal (@List.length string)) in E. rewrite !app_length in E.
    assert (Hl : 2 = List.length a + (3 + List.length b)) by exact E. lia.
Qed.
