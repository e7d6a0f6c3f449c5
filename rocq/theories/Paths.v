(** File names: where input is read and output written.

    Sources: /repo/src/pyslat.py 34-68, and the functions of Python's os.path it
    uses (posixpath.dirname, join and splitext), transcribed from CPython's
    posixpath.py and genericpath.py.

    Simplifications: a path is a list of characters; the Windows rules are left
    out; [set_output_directory] creating the directory (54-58) is left out. *)

Require Import Ascii String List Bool.
Import ListNotations.

(** A path (pyslat.py 34-68). *)
Definition path := list ascii.

(** The separator and the dot, as in os.path ([sep], [extsep]); pyslat.py 43-46. *)
Definition slash : ascii := "/"%char.
(** See above; pyslat.py 43-46. *)
Definition dot : ascii := "."%char.

(** A string literal, such as those of pyslat.py 36-39. *)
Definition lit (s : string) : path := list_ascii_of_string s.

(** [p[:i]] and [p[i:]] with [i = p.rfind('/') + 1] (as in os.path, used at
    pyslat.py 43, 46, 62, 65). *)
Fixpoint head_tail (p : path) : path * path :=
  match p with
  | [] => ([], [])
  | c :: r =>
      let (h, t) := head_tail r in
      match h with
      | [] => if Ascii.eqb c slash then ([c], t) else ([], c :: t)
      | _ => (c :: h, t)
      end
  end.

(** [s.rstrip('/')] (in posixpath.dirname; pyslat.py 43, 62). *)
Fixpoint rstrip (p : path) : path :=
  match p with
  | [] => []
  | c :: r => match rstrip r with [] => if Ascii.eqb c slash then [] else [c] | r' => c :: r' end
  end.

(** [os.path.dirname] (used at pyslat.py 43, 62): trailing slashes go, unless
    there is nothing else. *)
Definition dirname (p : path) : path :=
  let h := fst (head_tail p) in
  match rstrip h with [] => h | h' => h' end.

(** [s.endswith('/')] (in posixpath.join; pyslat.py 44, 63). *)
Definition ends_slash (p : path) : bool :=
  match rev p with c :: _ => Ascii.eqb c slash | [] => false end.

(** [os.path.join] of two paths (used at pyslat.py 44, 63). *)
Definition join (a b : path) : path :=
  match b with
  | c :: _ => if Ascii.eqb c slash then b
              else match a with [] => b | _ => if ends_slash a then a ++ b else a ++ slash :: b end
  | [] => match a with [] => b | _ => if ends_slash a then a ++ b else a ++ slash :: b end
  end.

(** [p[p.rfind('.'):]], with what precedes it, or nothing (genericpath._splitext;
    pyslat.py 46, 65). *)
Fixpoint last_dot (p : path) : option (path * path) :=
  match p with
  | [] => None
  | c :: r =>
      match last_dot r with
      | Some (b, e) => Some (c :: b, e)
      | None => if Ascii.eqb c dot then Some ([], c :: r) else None
      end
  end.

(** [os.path.splitext(p)[1]] (used at pyslat.py 46, 65): what follows the last
    dot of the last component, with the dot; nothing if only dots precede it. *)
Definition extension (p : path) : path :=
  match last_dot (snd (head_tail p)) with
  | None => []
  | Some (b, e) => if forallb (fun c => Ascii.eqb c dot) b then [] else e
  end.

(** [full_input_path] (pyslat.py 42-49) and [full_output_path] (61-68), which are
    alike; [set] is the directory set so far ([_Input_directory], 36-40;
    [_Output_directory], 53-56). *)
Definition full_path (set : option path) (p : path) : path :=
  let p := match dirname p with
           | [] => join (match set with Some (c :: r) => c :: r | _ => lit "." end) p
           | _ => p
           end in
  match extension p with [] => p ++ lit ".csv" | _ => p end.
