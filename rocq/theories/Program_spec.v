(** * What scripts are to do, from their text *)
From Coq Require Import Ascii String List.
From Verif Require Import Interp Interp_spec Lexer Lexer_spec Program.
Import ListNotations.
Local Open Scope list_scope.

(** The words of a script, in their order. *)
Fixpoint words (t : tree) : list (tkind * list ascii) :=
  match t with
  | Leaf k s => [(Of k, text s)]
  | Node _ l => flat_map words l
  end.

(** A text spells a script: some layout of its words. *)
Definition spells (s : list ascii) (l : list item) : Prop := laid_out true (words (t_items l)) s.

(** Several scripts, one after the other: each begins without variables and titles, and an
    exception puts an end to all. *)
Fixpoint all_scripts (world : Type) (ask : string -> list value -> world -> (value + exn) * world)
    (ls : list (list item)) (w : world) : world * option exn :=
  match ls with
  | [] => (w, None)
  | l :: ls =>
      match script_meaning world ask l (Core world [] [] w) with
      | Returned _ c => all_scripts world ask ls (outside world c)
      | Raised e c => (outside world c, Some e)
      end
  end.

(** How the run is to end. *)
Definition ends {world} (r : world * option exn) : finish world :=
  match r with (w, None) => Finished w | (w, Some e) => Stopped e w end.
