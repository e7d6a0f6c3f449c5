(** * Definitions made from Python and what becomes of mistakes in them

    Source: the classes [fragfn_user], [simplelossfn], [bilevellossfn], [compgroup] and
    [structure] of /repo/src/pyslat.py, the wrappers they call in pyslatcore.cpp, and
    the bindings made from pyslatcore.i.  Exact arithmetic as in [Lognormal.v].  Names,
    redefinition and the interpreter's stacks are left out (see [Script.v],
    [Interp.v]), and arguments are numbers. *)
From Coq Require Import Reals List Bool ZArith.
From Verif Require Import Num ER ERmath Maq Lognormal Damage Group.
Import ListNotations.

(** What a call from Python does: it returns, it raises a Python exception, which a
    script can handle, it ends the process, or its behaviour is undefined.
    pyslatcore.i declares no exception handling (pyslatcore.i 1-203, Makefile.common
    93-107), so that a C++ exception that reaches a binding is not caught anywhere. *)
Inductive pyres (A : Type) := Fine (a : A) | Raises | Ends | Wild.
Arguments Fine {A} a. Arguments Raises {A}. Arguments Ends {A}. Arguments Wild {A}.

(** Sequencing: pyslat.py has no [try] statement (pyslat.py 1-2007). *)
Definition pbind {A B : Type} (o : pyres A) (k : A -> pyres B) : pyres B :=
  match o with Fine a => k a | Raises => Raises | Ends => Ends | Wild => Wild end.

(** A call of the library through the bindings (pyslatcore.i 1-203). *)
Definition lib {A : Type} (o : Damage.outcome A) : pyres A :=
  match o with Returns a => Fine a | Throws => Ends | Undefined => Wild end.

(** A [for] loop that appends to a list (pyslat.py 935-936, 1018-1022). *)
Fixpoint map_py {A B : Type} (f : A -> pyres B) (l : list A) : pyres (list B) :=
  match l with
  | [] => Fine []
  | a :: r => pbind (f a) (fun b => pbind (map_py f r) (fun bs => Fine (b :: bs)))
  end.

(** The dictionary of options (SlatInterpreter.py 266-298): an option not given is
    [None]. *)
Record options := Options { o_mu : option mu_type; o_sd : option sigma_type }.

(** [MakeLogNormalDist] (pyslat.py 251-252): [None] is not a number, so that the
    binding raises an exception. *)
Definition py_make (o : options) (d : er * er) : pyres lnd :=
  match o_mu o, o_sd o with
  | Some mt, Some st => Fine (make (fst d) mt (snd d) st)
  | _, _ => Raises
  end.

(** [fragfn_user] (pyslat.py 931-938). *)
Definition fragfn_user (o : options) (scalars : list (er * er)) : pyres (list lnd) :=
  pbind (map_py (py_make o) scalars) (fun params => lib (new_fragility params)).

(** One element of the loop of [simplelossfn] (pyslat.py 1018-1022): a location of
    zero counts as false. *)
Definition loss_state (o : options) (d : er * er) : pyres lnd :=
  if er_eqb (fst d) (Fin 0) then Fine nodist else py_make o d.

(** [simplelossfn] (pyslat.py 1013-1024). *)
Definition simplelossfn (o : options) (data : list (er * er)) : pyres lossfn :=
  pbind (map_py (loss_state o) data) (fun params => lib (new_simple params)).

(** [MakeBiLevelLoss] (pyslat.py 1033-1036): a limit outside of [int] makes the
    binding raise an exception. *)
Definition py_bilevel (b : bilevel) : pyres bilevel :=
  if is_int (count_min b) && is_int (count_max b) then Fine b else Raises.

(** The loop of [bilevellossfn] (pyslat.py 1053-1060), which makes the function anew
    in each round; [func] is the one of the round before. *)
Fixpoint bilevel_loop (data params : list bilevel) (func : pyres lossfn) : pyres lossfn :=
  match data with
  | [] => func
  | d :: r => pbind (py_bilevel d) (fun b =>
              pbind (lib (new_bilevel (params ++ [b]))) (fun f => bilevel_loop r (params ++ [b]) (Fine f)))
  end.

(** [bilevellossfn] (pyslat.py 1046-1062): without data [data[0]] raises. *)
Definition bilevellossfn (data : list bilevel) : pyres lossfn :=
  match data with [] => Raises | _ => bilevel_loop data [] Raises end.

(** The delay function of a group that was given none (pyslat.py 232-233). *)
Definition default_delay : lossfn := SimpleLoss [nodist].

(** [compgroup] (pyslat.py 1107-1126, 231-237): the demand parameter (its probability
    of exceedence and the slope of its hazard curve), the fragility and the cost
    function are [None] where the script names one that does not exist; then
    [.function()], or the binding, raises. *)
Definition compgroup (edp : option ((er -> er -> er) * (er -> er))) (frag : option (list lnd))
    (cost delay : option lossfn) (count : Z) (cost_adj delay_adj : er) : pyres group :=
  match edp, frag, cost with
  | Some (p, slope), Some frag, Some cost =>
      if is_int count then
        let delay := match delay with Some f => f | None => default_delay end in
        Fine (Group p slope frag (Some cost) (Some delay) count cost_adj delay_adj)
      else Raises
  | _, _, _ => Raises
  end.

(** ** Figures *)

(** [cost_EDP_dist] (comp_group.cpp 52-60), with the exceptions. *)
Definition cost_call (N : normal) (g : group) (edp : er) : Damage.outcome lnd :=
  loss_given N (fragility g) (cost_fn g) (count g) (cost_factor g) edp.
(** [delay_EDP_dist] (comp_group.cpp 61-69), with the exceptions. *)
Definition delay_call (N : normal) (g : group) (edp : er) : Damage.outcome lnd :=
  loss_given N (fragility g) (delay_fn g) (count g) (delay_factor g) edp.

(** [E_Cost_EDP] (pyslat.py 1159-1160, comp_group.cpp 217-220). *)
Definition E_Cost_EDP (N : normal) (g : group) (edp : er) : pyres er :=
  lib (bind (cost_call N g edp) (fun d => Returns (get_mean_X d))).
(** [SD_ln_Cost_EDP] (pyslat.py 1164-1165, comp_group.cpp 227-230). *)
Definition SD_ln_Cost_EDP (N : normal) (g : group) (edp : er) : pyres er :=
  lib (bind (cost_call N g edp) (fun d => Returns (get_sigma_lnX d))).
(** [E_Delay_EDP] (pyslat.py 1206-1207, comp_group.cpp 237-240). *)
Definition E_Delay_EDP (N : normal) (g : group) (edp : er) : pyres er :=
  lib (bind (delay_call N g edp) (fun d => Returns (get_mean_X d))).
(** [SD_ln_Delay_EDP] (pyslat.py 1216-1217, comp_group.cpp 242-245). *)
Definition SD_ln_Delay_EDP (N : normal) (g : group) (edp : er) : pyres er :=
  lib (bind (delay_call N g edp) (fun d => Returns (get_sigma_lnX d))).

(** The calls an integration makes, in order, up to the first that does not return
    (comp_group.cpp 292-312, 334-366, 446-468, 487-519: no call at zero). *)
Fixpoint calls (call : er -> Damage.outcome lnd) (points : list er) : Damage.outcome unit :=
  match points with
  | [] => Returns tt
  | x :: r => if er_eqb x (Fin 0) then calls call r else bind (call x) (fun _ => calls call r)
  end.

(** An integration whose integrand may throw (comp_group.cpp 291, 333, 445, 486): up
    to the first exception the integrand is that of [Group.v], and so are the points. *)
Definition integration (call : er -> Damage.outcome lnd) (o : Maq.outcome (maq_result ER)) : pyres (maq_result ER) :=
  match o with
  | Done r => pbind (lib (calls call (rev (mr_trace r)))) (fun _ => Fine r)
  | _ => Wild
  end.

(** [E_Cost_IM] (pyslat.py 1169-1170, comp_group.cpp 282-324). *)
Definition E_Cost_IM (N : normal) (D : derivs) (s : settings ER) (g : group) (im : er) : pyres er :=
  if (0 <? count g)%Z then
    pbind (integration (cost_call N g) (integrate s (cost_integrand N D g im))) (fun r => Fine (integral_or (Fin 0) r))
  else Fine (Fin 0).

(** [SD_ln_Cost_IM] (pyslat.py 1174-1175, comp_group.cpp 326-384). *)
Definition SD_ln_Cost_IM (N : normal) (D : derivs) (s : settings ER) (g : group) (im : er) : pyres er :=
  if (0 <? count g)%Z then
    pbind (integration (cost_call N g) (integrate s (cost_sq_integrand N D g im))) (fun r =>
      if mr_successful r
      then pbind (E_Cost_IM N D s g im) (fun mean_x => Fine (sd_ln_from (mr_integral r) mean_x))
      else Fine (Fin 0))
  else Fine (Fin 0).

(** [E_Delay_IM] (pyslat.py 1201-1202, comp_group.cpp 437-477). *)
Definition E_Delay_IM (N : normal) (D : derivs) (s : settings ER) (g : group) (im : er) : pyres er :=
  if (0 <? count g)%Z then
    pbind (integration (delay_call N g) (integrate s (delay_integrand N D g im))) (fun r => Fine (integral_or (Fin 0) r))
  else Fine (Fin 0).

(** [SD_ln_Delay_IM] (pyslat.py 1211-1212, comp_group.cpp 479-537). *)
Definition SD_ln_Delay_IM (N : normal) (D : derivs) (s : settings ER) (g : group) (im : er) : pyres er :=
  if (0 <? count g)%Z then
    pbind (integration (delay_call N g) (integrate s (delay_sq_integrand N D g im))) (fun r =>
      if mr_successful r
      then pbind (E_Delay_IM N D s g im) (fun mean =>
             Fine (sd_ln_from (mr_integral r) (er_div mean (Fin (IZR (count g))))))
      else Fine (Fin 0))
  else Fine (Fin 0).

(** ** Structures *)

(** [AddCompGroup] (pyslat.py 1298-1306, structure.cpp 44-71), of which only the
    intensity measures matter here: those of the groups the structure has, and that of
    the new one; [None] is a group that does not exist. *)
Definition AddCompGroup (ims : list nat) (im : option nat) : pyres (list nat) :=
  match im with
  | None => Raises
  | Some im =>
      match ims with
      | [] => Fine [im]
      | i :: _ => if Nat.eqb im i then Fine (ims ++ [im]) else Ends
      end
  end.
