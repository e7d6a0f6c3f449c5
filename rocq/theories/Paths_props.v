(** Property C63: where files are read and written. *)

Require Import Ascii String List.
From Verif Require Import Paths Paths_spec Paths_proofs.
Import ListNotations.

(** Whatever directory is set and whatever the name, the file used is the one
    meant: the name as it is if it has a directory, else within the directory set
    ("." if none or an empty one is); ".csv" is added to names without extension. *)
Theorem C63_file : forall set p, meant (in_use set) p (full_path set p).
Proof. exact path_meant. Qed.
Print Assumptions C63_file.

Example C63_file_case :
  full_path (Some (lit "out")) (lit "im_rate") = lit "out/im_rate.csv" /\
  full_path (Some (lit "out/")) (lit "im_rate.txt") = lit "out/im_rate.txt" /\
  full_path (Some (lit "out")) (lit "a.b/im_rate") = lit "a.b/im_rate.csv" /\
  full_path None (lit ".rc") = lit "./.rc.csv" /\ has_extension (lit "im_rate.") /\ ~ has_extension (lit ".rc").
Proof.
  repeat split; try reflexivity.
  - exists (lit "im_rate"), []. split; [reflexivity|]. split; [auto|]. exists "i"%char. split; [left; auto|discriminate].
  - intros H. apply (extension_spec (lit ".rc") [] (lit ".rc")) in H; auto.
    cbn. intros [E|[E|[E|[]]]]; discriminate.
Qed.

(** Full statement: a full path stands for itself, so that it makes no difference
    whether a path has been completed before.  False of names made of dots only: *)
Theorem C63_again_refuted : exists set p, full_path set (full_path set p) <> full_path set p.
Proof. exact refute_path_twice. Qed.
Print Assumptions C63_again_refuted.

(** It holds whenever the last component has a character other than a dot. *)
Theorem C63_again_partial : forall set p,
  (exists h n c, p = h ++ n /\ ~ In slash n /\ (h = [] \/ exists h', h = h' ++ [slash]) /\ In c n /\ c <> dot) ->
  full_path set (full_path set p) = full_path set p.
Proof. exact path_twice. Qed.
Print Assumptions C63_again_partial.

Example C63_again_case : exists h n c, lit "data/rates" = h ++ n /\ ~ In slash n /\
  (h = [] \/ exists h', h = h' ++ [slash]) /\ In c n /\ c <> dot.
Proof.
  exists (lit "data/"), (lit "rates"), "r"%char. repeat split; auto.
  - cbn. intros [H|[H|[H|[H|[H|[]]]]]]; discriminate.
  - right. exists (lit "data"). reflexivity.
  - left. auto.
  - discriminate.
Qed.
