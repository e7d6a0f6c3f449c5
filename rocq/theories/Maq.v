(** * Integration: model of /repo/src/maq.cpp and /repo/src/maq.h

    The integrand (a [std::function<double (double)>]) is a total function
    [num -> num]; exceptions thrown by it, and side effects it has on caches, are not
    modelled here.  Logging is not modelled.  [unsigned int] counters wrap modulo 2^32
    explicitly; signed overflow and the like is the outcome [Ub]. *)
From Coq Require Import ZArith List Bool.
From Verif Require Import Num.
Import ListNotations.
Local Open Scope Z_scope.

(** Result of a fuelled loop: [OutOfFuel] is never confused with a normal result and is
    excluded by the theorems; [Ub] is C++ undefined behaviour (signed overflow).
    No counterpart in /repo (maq.cpp 203-759 are the loops it is used for). *)
Inductive outcome (A : Type) : Type :=
| Done (a : A)
| Ub
| OutOfFuel.
Arguments Done {A} a.
Arguments Ub {A}.
Arguments OutOfFuel {A}.

(** Sequencing of statements (maq.cpp 203-220); no counterpart of its own in /repo. *)
Definition obind {A B} (o : outcome A) (k : A -> outcome B) : outcome B :=
  match o with Done a => k a | Ub => Ub | OutOfFuel => OutOfFuel end.

(** [unsigned int] and [unsigned long long int] arithmetic. maq.h 46-69, maq.cpp 199. *)
Definition u32 (z : Z) : Z := z mod 4294967296.
(** [unsigned long] totals (maq.h 92-107). *)
Definition u64 (z : Z) : Z := z mod 18446744073709551616.
(** Largest [int] and [long int]. maq.cpp 204. *)
Definition int_max : Z := 2147483647.
(** As above ([long int intervals], maq.cpp 202). *)
Definition long_max : Z := 9223372036854775807.

(** ** Settings (maq.h:32-70, maq.cpp:95-172) *)

(** maq.h:35-40 [METHOD_TYPE]. *)
Inductive method : Type :=
| BINARY_SUBDIVISION
| REVERSE_BINARY_SUBDIVISION
| LOW_FIRST_REVERSE_BINARY_SUBDIVISION
| SCATTERED
| DIRECTED.

Section Settings.
  Context (N : Num).

  (** maq.h:65-69: the four static members. *)
  Record settings : Type := mkSettings {
    set_eval_limit : Z;      (* unsigned int *)
    set_search_limit : Z;    (* unsigned int *)
    set_tolerance : N;
    set_method : method
  }.

  (** maq.h:60-63 and maq.cpp:95-98.  [1E-3] is written 1/1000, whose correctly rounded
      value is the literal's. *)
  Definition tolerance_default : N := ndiv N (nofZ N 1) (nofZ N 1000).
  (** maq.cpp 95-98. *)
  Definition default_settings : settings :=
    mkSettings 2048 2048 tolerance_default DIRECTED.

  (** One call of the settings API.  Integer arguments have been converted to
      [unsigned int] by the caller ([u32]). *)
  Inductive settings_op : Type :=
  | OpSetTolerance (tol : N)              (* maq.cpp:139-147 *)
  | OpSetEvalLimit (evals : Z)            (* maq.cpp:149-157 *)
  | OpSetSearchLimit (evals : Z)          (* maq.cpp:159-167 *)
  | OpSetMethod (m : method)              (* maq.cpp:169-172 *)
  | OpUseDefaultTolerance                 (* maq.cpp:129-132 *)
  | OpUseDefaultEvalLimit                 (* maq.cpp:134-137 *)
  | OpReset.                              (* maq.cpp:100-107 *)

  (** maq.cpp:100-172. *)
  Definition settings_step (s : settings) (op : settings_op) : settings :=
    match op with
    | OpSetTolerance tol =>
        if nltb N (nofZ N 0) tol
        then mkSettings (set_eval_limit s) (set_search_limit s) tol (set_method s)
        else s
    | OpSetEvalLimit evals =>
        if 0 <? u32 evals
        then mkSettings (u32 evals) (set_search_limit s) (set_tolerance s) (set_method s)
        else s
    | OpSetSearchLimit evals =>
        if 0 <? u32 evals
        then mkSettings (set_eval_limit s) (u32 evals) (set_tolerance s) (set_method s)
        else s
    | OpSetMethod m =>
        mkSettings (set_eval_limit s) (set_search_limit s) (set_tolerance s) m
    | OpUseDefaultTolerance =>
        mkSettings (set_eval_limit s) (set_search_limit s) tolerance_default (set_method s)
    | OpUseDefaultEvalLimit =>
        mkSettings 2048 (set_search_limit s) (set_tolerance s) (set_method s)
    | OpReset => default_settings
    end.

  (** pyslatcore.cpp [IntegrationSettings(tolerance, limit)] and the four other wrappers
      call the setters above one after the other; a history is a list of calls. *)
  Definition settings_run (ops : list settings_op) : settings :=
    fold_left settings_step ops default_settings.
End Settings.

Arguments set_eval_limit {N} s.
Arguments set_search_limit {N} s.
Arguments set_tolerance {N} s.
Arguments set_method {N} s.

(** ** Searches (maq.cpp:176-526) *)
Section Search.
  Context (N : Num).
  Variable f : N -> N.   (* the integrand *)

  (** The literal [0.5] (maq.cpp 385, 464, 517). *)
  Definition half : N := ndiv N (nofZ N 1) (nofZ N 2).

  (** maq.cpp:176 [x_from_t]. *)
  Definition x_from_t (t : N) : N :=
    if neqb N t (nofZ N 0) then ninf N
    else nsub N (ndiv N (nofZ N 1) t) (nofZ N 1).

  (** maq.cpp:177 [t_from_x] (not used by the code). *)
  Definition t_from_x (x : N) : N := ndiv N (nofZ N 1) (nadd N x (nofZ N 1)).

  (** [v <= std::numeric_limits<double>::epsilon()] (maq.cpp 199). *)
  Definition le_eps (v : N) : bool := nleb N v (neps N).
  (** [v > std::numeric_limits<double>::epsilon()] (maq.cpp 210). *)
  Definition gt_eps (v : N) : bool := nltb N (neps N) v.
  (** [v == 0] (maq.cpp 418). *)
  Definition is_zero (v : N) : bool := neqb N v (nofZ N 0).
  (** [v > 0] (maq.cpp 429). *)
  Definition gt_zero (v : N) : bool := nltb N (nofZ N 0) v.

  (** maq.cpp:182 [search_result_t]; [sr_range = None] stands for [{NAN, NAN, ...}].
      [sr_trace] is a ghost: the arguments of all calls of the integrand, newest first. *)
  Record search_result : Type := mkSR {
    sr_range : option (N * N);
    sr_evals : Z;
    sr_trace : list N
  }.

  (** Locals of a search: the range [a], [b], the last probe [c], its value [fc], the
      counter [evaluations], and the ghost trace. maq.cpp 190-197. *)
  Record sstate : Type := mkSS {
    ss_a : N; ss_b : N; ss_c : N; ss_fc : N; ss_ev : Z; ss_tr : list N
  }.

  (** One probe: [c = ...; fc = f(x_from_t(c)); evaluations++]. maq.cpp 205-208. *)
  Definition probe (s : sstate) (c : N) : sstate :=
    mkSS (ss_a s) (ss_b s) c (f (x_from_t c)) (u32 (ss_ev s + 1)) (x_from_t c :: ss_tr s).

  (** [a = ...; b = ...] (maq.cpp 211-212). *)
  Definition set_range (s : sstate) (a b : N) : sstate :=
    mkSS a b (ss_c s) (ss_fc s) (ss_ev s) (ss_tr s).

  (** The common start of all five searches (e.g. maq.cpp:190-197): [a=0], [b=1],
      [c = c0], [fb = f(x_from_t(b))], [fc = f(x_from_t(c))], [evaluations = 2]. *)
  Definition search_start (c0 : N) : N * sstate :=
    let b := nofZ N 1 in
    let fb := f (x_from_t b) in
    let fc := f (x_from_t c0) in
    (fb, mkSS (nofZ N 0) b c0 fc 2 [x_from_t c0; x_from_t b]).

  (** maq.cpp:192 [c = (a + b)/2.0]. *)
  Definition c0_mid : N := ndiv N (nadd N (nofZ N 0) (nofZ N 1)) (nofZ N 2).
  (** maq.cpp:234 and 277 [c = 1.0 - (a + b)/2.0]. *)
  Definition c0_rev : N := nsub N (nofZ N 1) c0_mid.

  (** maq.cpp:205 [c = float(i)/intervals]; 211, 212: the range around it. *)
  Definition bin_c (i n : Z) : N := nfdiv N i n.
  Definition bin_a (i n : Z) : N := ndiv N (nsub N (nfloat N i) (nofZ N 1)) (nofZ N n).
  Definition bin_b (i n : Z) : N := ndiv N (nadd N (nfloat N i) (nofZ N 1)) (nofZ N n).
  (** maq.cpp:247, 290, 307, 352, 363: [c = 1.0 - float(i)/intervals]; 253, 254: range. *)
  Definition rev_c (i n : Z) : N := nsub N (nofZ N 1) (nfdiv N i n).
  (** maq.cpp 253. *)
  Definition rev_a (i n : Z) : N :=
    nsub N (nofZ N 1) (ndiv N (nadd N (nfloat N i) (nofZ N 1)) (nofZ N n)).
  (** maq.cpp 254. *)
  Definition rev_b (i n : Z) : N :=
    nsub N (nofZ N 1) (ndiv N (nsub N (nfloat N i) (nofZ N 1)) (nofZ N n)).

  Section Subdivision.
    (** The point and range formulas, [bin_*] or [rev_*]. *)
    Variables cpt apt bpt : Z -> Z -> N.

    (** The inner loop [for (int i = lo; i < hi; i += 2)] of maq.cpp:204-215, 246-257,
        289-300, 306-317. [i] is an [int]: exceeding [int_max] is undefined. *)
    Fixpoint sub_for (fuel : nat) (i hi n : Z) (s : sstate) : outcome sstate :=
      match fuel with
      | O => OutOfFuel
      | S k =>
          if i <? hi then
            let s' := probe s (cpt i n) in
            if gt_eps (ss_fc s')
            then Done (set_range s' (apt i n) (bpt i n))     (* break *)
            else if int_max <? i + 2 then Ub
            else sub_for k (i + 2) hi n s'
          else Done s
      end.

    (** The outer loop [while (evaluations < limit && fc <= eps) { for ...; intervals *= 2; }]
        of maq.cpp:203-217, 245-259, 288-302, 305-319. [lo] and [hi] give the bounds of
        the inner loop from [intervals]. *)
    Fixpoint sub_while (fuel : nat) (lo hi : Z -> Z) (limit n : Z) (s : sstate)
      : outcome sstate :=
      match fuel with
      | O => OutOfFuel
      | S k =>
          if (ss_ev s <? limit) && le_eps (ss_fc s) then
            obind (sub_for (Z.to_nat n) (lo n) (hi n) n s)
                  (fun s' => sub_while k lo hi limit (n * 2) s')
          else Done s
      end.
  End Subdivision.

  (** The common end: [if (fc <= eps) return {NAN, NAN, evaluations}; ... return {a, b, evaluations}].
      maq.cpp 219-224. *)
  Definition search_finish (s : sstate) : search_result :=
    if le_eps (ss_fc s) then mkSR None (ss_ev s) (ss_tr s)
    else mkSR (Some (ss_a s, ss_b s)) (ss_ev s) (ss_tr s).

  (** [return {a, b, evaluations}] (maq.cpp 224). *)
  Definition search_whole (s : sstate) : search_result :=
    mkSR (Some (ss_a s, ss_b s)) (ss_ev s) (ss_tr s).

  (** maq.cpp:188-225. *)
  Definition binary_subdivision (fuel : nat) (limit : Z) : outcome search_result :=
    let '(fb, s) := search_start c0_mid in
    if le_eps fb && le_eps (ss_fc s) then
      obind (sub_while bin_c bin_a bin_b fuel (fun _ => 1) (fun n => n) limit 4 s)
            (fun s' => Done (search_finish s'))
    else Done (search_whole s).

  (** maq.cpp:230-268. *)
  Definition reverse_binary_subdivision (fuel : nat) (limit : Z) : outcome search_result :=
    let '(fb, s) := search_start c0_rev in
    if le_eps fb && le_eps (ss_fc s) then
      obind (sub_while rev_c rev_a rev_b fuel (fun _ => 1) (fun n => n) limit 4 s)
            (fun s' => Done (search_finish s'))
    else Done (search_whole s).

  (** maq.cpp:273-327. *)
  Definition low_first_reverse_binary_subdivision (fuel : nat) (limit : Z)
    : outcome search_result :=
    let '(fb, s) := search_start c0_rev in
    if le_eps fb && le_eps (ss_fc s) then
      obind (sub_while rev_c rev_a rev_b fuel (fun _ => 1) (fun n => n / 2) (limit / 2) 4 s)
        (fun s1 =>
           obind (sub_while rev_c rev_a rev_b fuel (fun n => 1 + n / 2) (fun n => n) limit 4 s1)
             (fun s2 => Done (search_finish s2)))
    else Done (search_whole s).

  Section Scatter.
    (** [stop v]: the test that ends the probing ([fc > eps] in the scattered search,
        [fc > 0.0] in the directed one); [go v]: the test under which the loop goes on
        ([fc <= eps], resp. [fc == 0.0]). *)
    Variables stop go : N -> bool.

    (** maq.cpp:362-372 and 435-445: the inner [while]. [i] is [unsigned long long],
        [p] is [long int]. *)
    Fixpoint scat_inner (fuel : nat) (limit n i p : Z) (s : sstate) : outcome sstate :=
      match fuel with
      | O => OutOfFuel
      | S k =>
          if (i <? n) && (ss_ev s <? limit) then
            let s' := probe s (rev_c i n) in
            if stop (ss_fc s') then Done s'                   (* break *)
            else if long_max <? p * 2 then Ub
            else scat_inner k limit n (u64 (i + p * 2)) (p * 2) s'
          else Done s
      end.

    (** maq.cpp:350-384 and 423-457: the outer [while].  [kk] is the variable [k];
        [init_i] stays 1 and [init_intervals] stays 4, because line 376 (449) tests
        [init_i == 0]; both are therefore constants here. *)
    Fixpoint scat_outer (fuel : nat) (limit n kk : Z) (s : sstate) : outcome sstate :=
      match fuel with
      | O => OutOfFuel
      | S k =>
          if (ss_ev s <? limit) && go (ss_fc s) then
            let s' := probe s (rev_c 1 n) in
            if stop (ss_fc s') then Done s'                   (* break *)
            else
              let p := 2 + 2 * kk in
              if (long_max <? p) || (long_max <? kk + 2) then Ub
              else
                obind (scat_inner k limit n (u64 (1 + p)) p s')
                  (fun s2 =>
                     let n2 := u64 (n * 2) in
                     let n3 := if u64 (n2 * 2) =? 0 then 4 else n2 in
                     scat_outer k limit n3 (kk + 2) s2)
          else Done s
      end.
  End Scatter.

  (** maq.cpp:385-391, 464-470, 517-523: [if (c < 0.5) {a = 0; b = 2c} else {b = 1; a = 2c - 1}]. *)
  Definition around (c : N) : N * N :=
    if nltb N c half then (nofZ N 0, nmul N (nofZ N 2) c)
    else (nsub N (nmul N (nofZ N 2) c) (nofZ N 1), nofZ N 1).

  (** The assignment itself (maq.cpp 385-391). *)
  Definition set_around (s : sstate) : sstate :=
    let '(a, b) := around (ss_c s) in set_range s a b.

  (** maq.cpp:332-399. *)
  Definition scattered_search (fuel : nat) (limit : Z) : outcome search_result :=
    let '(fb, s) := search_start c0_mid in
    if le_eps fb && le_eps (ss_fc s) then
      obind (scat_outer gt_eps le_eps fuel limit 4 0 s)
            (fun s' => Done (search_finish (set_around s')))
    else Done (search_whole s).

  (** maq.cpp:418-458: the outermost [while (fc == 0.0 && evaluations < limit)] of the
      directed search, which restarts the scattered probing. *)
  Fixpoint dir_outer (fuel : nat) (limit : Z) (s : sstate) : outcome sstate :=
    match fuel with
    | O => OutOfFuel
    | S k =>
        if is_zero (ss_fc s) && (ss_ev s <? limit) then
          obind (scat_outer gt_zero is_zero k limit 4 0 s) (fun s' => dir_outer k limit s')
        else Done s
    end.

  (** maq.cpp:473-510: the refinement loop. *)
  Fixpoint dir_refine (fuel : nat) (limit : Z) (s : sstate) : outcome sstate :=
    match fuel with
    | O => OutOfFuel
    | S k =>
        if le_eps (ss_fc s) && (ss_ev s <? limit)
           && nltb N (neps N) (nsub N (ss_b s) (ss_a s)) then
          let d := ndiv N (nadd N (ss_a s) (ss_c s)) (nofZ N 2) in
          let sd := probe s d in
          let fd := ss_fc sd in
          if gt_eps fd then Done sd                                       (* 481-484 *)
          else
            let s1 :=
              if nleb N fd (ss_fc s)
              then mkSS d (ss_b s) (ss_c s) (ss_fc s) (ss_ev sd) (ss_tr sd)  (* a = d *)
              else mkSS (ss_a s) (ss_c s) d fd (ss_ev sd) (ss_tr sd) in      (* b = c; c = d *)
            let e := ndiv N (nadd N (ss_c s1) (ss_b s1)) (nofZ N 2) in
            let se := probe s1 e in
            let fe := ss_fc se in
            if gt_eps fe then Done se                                     (* 498-501 *)
            else
              let s2 :=
                if nltb N fe (ss_fc s1)
                then mkSS (ss_a s1) e (ss_c s1) (ss_fc s1) (ss_ev se) (ss_tr se) (* b = e *)
                else mkSS (ss_c s1) (ss_b s1) e fe (ss_ev se) (ss_tr se) in      (* a = c; c = e *)
              dir_refine k limit s2
        else Done s
    end.

  (** maq.cpp:404-526.  Note that the range is always recomputed from [c] at the end. *)
  Definition directed_search (fuel : nat) (limit : Z) : outcome search_result :=
    let '(fb, s) := search_start c0_mid in
    if le_eps fb && le_eps (ss_fc s) then
      obind (dir_outer fuel limit s)
        (fun s1 =>
           if is_zero (ss_fc s1) then Done (mkSR None (ss_ev s1) (ss_tr s1))
           else obind (dir_refine fuel limit (set_around s1))
                      (fun s2 => Done (search_whole (set_around s2))))
    else Done (search_whole (set_around s)).

  (** maq.cpp:585-601: the [switch]. *)
  Definition search (m : method) (fuel : nat) (limit : Z) : outcome search_result :=
    match m with
    | BINARY_SUBDIVISION => binary_subdivision fuel limit
    | REVERSE_BINARY_SUBDIVISION => reverse_binary_subdivision fuel limit
    | LOW_FIRST_REVERSE_BINARY_SUBDIVISION => low_first_reverse_binary_subdivision fuel limit
    | SCATTERED => scattered_search fuel limit
    | DIRECTED => directed_search fuel limit
    end.
End Search.

Arguments sr_range {N} s.
Arguments sr_evals {N} s.
Arguments sr_trace {N} s.
Arguments ss_a {N} s.
Arguments ss_b {N} s.
Arguments ss_c {N} s.
Arguments ss_fc {N} s.
Arguments ss_ev {N} s.
Arguments ss_tr {N} s.

(** ** The integrator (maq.cpp:531-762) *)
Section Integrate.
  Context (N : Num).
  Variable f : N -> N.

  (** maq.cpp:531-535 [quad]. *)
  Definition quad (a b c fa fb fc : N) : N :=
    nmul N (ndiv N (nsub N b a) (nofZ N 6))
           (nadd N (nadd N fa (nmul N (nofZ N 4) fc)) fb).

  (** maq.cpp:571-575 [maq_todo]. *)
  Record region : Type := mkRegion {
    rg_a : N; rg_b : N; rg_c : N;
    rg_fa : N; rg_fb : N; rg_fc : N;
    rg_r : N
  }.

  (** maq.cpp:620: [integrand(x_from_t(a))/(a == 0 ? 1 : a*a)]. *)
  Definition eval_left (a : N) : N :=
    ndiv N (f (x_from_t N a)) (if neqb N a (nofZ N 0) then nofZ N 1 else nmul N a a).
  (** maq.cpp:621, 643, 709, 710: [integrand(x_from_t(t))/(t*t)]. *)
  Definition eval_at (t : N) : N := ndiv N (f (x_from_t N t)) (nmul N t t).

  (** Ghost: an accepted region, the value of [integral] before it was added, and the two
      terms added by maq.cpp:738. *)
  Record accepted : Type := mkAcc {
    ac_region : region; ac_before : N; ac_q2 : N; ac_corr : N
  }.

  (** How an integration ends: the search found nothing (608-612), a NaN was met
      (623-651, 712-728), the evaluation limit was exceeded (661-680), or the stack
      became empty. maq.cpp 608-759. *)
  Inductive exit_kind : Type := ExSearchFail | ExNan | ExLimit | ExOk.

  (** maq.h:75-79 [MAQ_RESULT] plus ghosts: how it ended, the number of evaluations the
      search reported, all arguments the integrand was called with (newest first), the
      regions accepted (newest first), and the range [a], [b] found by the search. *)
  Record maq_result : Type := mkMR {
    mr_integral : N;
    mr_successful : bool;
    mr_evaluations : Z;
    mr_exit : exit_kind;
    mr_search_evals : Z;
    mr_trace : list N;
    mr_accepted : list accepted;
    mr_range : option (N * N)
  }.

  (** The while loop of maq.cpp:659-746.  [counter], [integral] and the stack are the
      C++ locals; [tr] and [acc] are ghosts. *)
  Fixpoint maq_loop (fuel : nat) (tol : N) (maxeval : Z)
           (counter : Z) (integral : N) (stack : list region)
           (tr : list N) (acc : list accepted)
    : outcome (exit_kind * N * Z * list N * list accepted) :=
    match fuel with
    | O => OutOfFuel
    | S k =>
        match stack with
        | [] => Done (ExOk, integral, counter, tr, acc)
        | todo :: rest =>
            let counter := u32 (counter + 1) in                              (* 660 *)
            if maxeval <? counter then Done (ExLimit, nnan N, counter, tr, acc) (* 661-679 *)
            else
              let a := rg_a todo in let b := rg_b todo in let c := rg_c todo in
              let fa := rg_fa todo in let fb := rg_fb todo in let fc := rg_fc todo in
              let r1 := rg_r todo in
              let d := ndiv N (nadd N a c) (nofZ N 2) in                     (* 706 *)
              let e := ndiv N (nadd N b c) (nofZ N 2) in                     (* 707 *)
              let fd := eval_at d in
              let fe := eval_at e in
              let tr := x_from_t N e :: x_from_t N d :: tr in
              if nisnan N fd then Done (ExNan, nnan N, counter, tr, acc)     (* 712-719 *)
              else if nisnan N fe then Done (ExNan, nnan N, counter, tr, acc) (* 721-728 *)
              else
                let r2 := quad a c d fa fc fd in                             (* 730 *)
                let r3 := quad c b e fc fb fe in                             (* 731 *)
                let q1 := r1 in
                let q2 := nadd N r2 r3 in
                let abserr := nabs N (nsub N q2 q1) in
                if nleb N abserr (nabs N (nmul N tol q2))
                   || nleb N abserr (nabs N (nmul N tol integral))           (* 737 *)
                then
                  let corr := ndiv N (nsub N q2 q1) (nofZ N 15) in
                  maq_loop k tol maxeval counter
                           (nadd N (nadd N integral q2) corr)                (* 738 *)
                           rest tr (mkAcc todo integral q2 corr :: acc)
                else
                  let lo := mkRegion a c d fa fc fd r2 in
                  let hi := mkRegion c b e fc fb fe r3 in
                  if nltb N (nabs N r3) (nabs N r2)                          (* 739 *)
                  then maq_loop k tol maxeval counter integral (lo :: hi :: rest) tr acc
                  else maq_loop k tol maxeval counter integral (hi :: lo :: rest) tr acc
        end
    end.

  (** maq.cpp:620-761, from the range found by the search on. [counter0] is the number
      of evaluations reported by the search. *)
  Definition integrate_range (fuel : nat) (tol : N) (maxeval counter0 : Z)
             (a b : N) (tr : list N) : outcome maq_result :=
    let fa := eval_left a in
    let fb := eval_at b in
    let tr := x_from_t N b :: x_from_t N a :: tr in
    let nan_result tr :=
      mkMR (nnan N) false counter0 ExNan counter0 tr [] (Some (a, b)) in
    if nisnan N fa then Done (nan_result tr)                                  (* 623-631 *)
    else if nisnan N fb then Done (nan_result tr)                             (* 633-640 *)
    else
      let c := ndiv N (nadd N a b) (nofZ N 2) in                              (* 642 *)
      let fc := eval_at c in
      let tr := x_from_t N c :: tr in
      if nisnan N fc then Done (nan_result tr)                                (* 644-651 *)
      else
        let counter := u32 (counter0 + 3) in                                  (* 653 *)
        let r1 := quad a b c fa fb fc in
        obind (maq_loop fuel tol maxeval counter (nofZ N 0)
                        [mkRegion a b c fa fb fc r1] tr [])
          (fun '(ex, integral, counter, tr, acc) =>
             Done (mkMR integral
                        (match ex with ExOk => true | _ => false end)
                        counter ex counter0 tr acc (Some (a, b)))).

  (** maq.cpp:548-762 [MAQ], under settings [s].  Fuel bounds each loop. *)
  Definition MAQ (fuel : nat) (s : settings N) : outcome maq_result :=
    obind (search N f (set_method s) fuel (set_search_limit s))
      (fun r =>
         match sr_range r with
         | None =>
             Done (mkMR (nofZ N 0) true (sr_evals r) ExSearchFail (sr_evals r)
                        (sr_trace r) [] None)                                (* 608-612 *)
         | Some (a, b) =>
             (* 608 tests isnan(r.a), also for a range whose [a] happens to be NaN *)
             if nisnan N a then
               Done (mkMR (nofZ N 0) true (sr_evals r) ExSearchFail (sr_evals r)
                          (sr_trace r) [] None)
             else
               integrate_range fuel (set_tolerance s) (set_eval_limit s)
                               (sr_evals r) a b (sr_trace r)
         end).
End Integrate.

Arguments rg_a {N} r.
Arguments rg_b {N} r.
Arguments rg_c {N} r.
Arguments rg_fa {N} r.
Arguments rg_fb {N} r.
Arguments rg_fc {N} r.
Arguments rg_r {N} r.
Arguments ac_region {N} a.
Arguments ac_before {N} a.
Arguments ac_q2 {N} a.
Arguments ac_corr {N} a.
Arguments mr_integral {N} m.
Arguments mr_successful {N} m.
Arguments mr_evaluations {N} m.
Arguments mr_exit {N} m.
Arguments mr_search_evals {N} m.
Arguments mr_trace {N} m.
Arguments mr_accepted {N} m.
Arguments mr_range {N} m.

(** ** Statistics (maq.cpp:26-41, 558-559, 602-612, 747-760) *)

(** maq.h:96-107: the counters ([unsigned int] and [unsigned long], wrapping). *)
Record stats : Type := mkStats {
  st_max_integration : Z;   (* max_successful_integration *)
  st_integration_fails : Z; (* number_integration_fails *)
  st_integration_evals : Z; (* total_integrations_evals *)
  st_max_search : Z;        (* max_successful_search *)
  st_search_fails : Z;      (* number_search_fails *)
  st_search_evals : Z;      (* total_search_evals *)
  st_calls : Z;
  st_successes : Z;
  st_nans : Z
}.

(** maq.cpp:26 (static storage: zero) and 28-41 [reset_statistics]. *)
Definition stats_zero : stats := mkStats 0 0 0 0 0 0 0 0 0.

(** The updates one call of [MAQ] makes to the statistics, run without interference:
    maq.cpp:559, 603-607, 610, 627-629 (and the other NaN exits), 747-760. *)
Definition stats_step {N : Num} (st : stats) (r : maq_result N) : stats :=
  let calls := u32 (st_calls st + 1) in
  let search_evals := u64 (st_search_evals st + mr_search_evals r) in
  let max_search :=
    if st_max_search st <? mr_search_evals r then mr_search_evals r else st_max_search st in
  match mr_exit r with
  | ExSearchFail =>
      mkStats (st_max_integration st) (st_integration_fails st) (st_integration_evals st)
              max_search (u32 (st_search_fails st + 1)) search_evals
              calls (st_successes st) (st_nans st)
  | ExNan =>
      mkStats (st_max_integration st) (st_integration_fails st)
              (u64 (st_integration_evals st + mr_evaluations r))
              max_search (st_search_fails st) search_evals
              calls (st_successes st) (u32 (st_nans st + 1))
  | ExLimit =>
      mkStats (if st_max_integration st <? mr_evaluations r then mr_evaluations r
               else st_max_integration st)
              (u32 (st_integration_fails st + 1))
              (u64 (st_integration_evals st + mr_evaluations r))
              max_search (st_search_fails st) search_evals
              calls (st_successes st) (st_nans st)
  | ExOk =>
      mkStats (if st_max_integration st <? mr_evaluations r then mr_evaluations r
               else st_max_integration st)
              (st_integration_fails st)
              (u64 (st_integration_evals st + mr_evaluations r))
              max_search (st_search_fails st) search_evals
              calls (u32 (st_successes st + 1)) (st_nans st)
  end.

(** ** A session: any sequence of integrations, settings calls and statistics resets *)
Section Session.
  Context (N : Num).

  Inductive session_op : Type :=
  | SIntegrate (f : N -> N)          (* Integration::MAQ(f) *)
  | SSetting (op : settings_op N)
  | SResetStats.                     (* maq.cpp:28-41 *)

  (** The static members (maq.h 65-69, maq.cpp 26). *)
  Record session : Type := mkSession { se_settings : settings N; se_stats : stats }.

  (** maq.cpp 26, 95-98. *)
  Definition session_start : session := mkSession (default_settings N) stats_zero.

  (** Enough fuel for every loop of one integration (proved in Maq_proofs).
      No counterpart in /repo. *)
  Definition fuel_for (s : settings N) : nat :=
    Z.to_nat (set_search_limit s + set_eval_limit s + 2).

  (** maq.cpp 28-41, 100-172, 554-762. *)
  Definition session_step (st : session) (op : session_op) : outcome session :=
    match op with
    | SIntegrate f =>
        obind (MAQ N f (fuel_for (se_settings st)) (se_settings st))
          (fun r => Done (mkSession (se_settings st) (stats_step (se_stats st) r)))
    | SSetting o => Done (mkSession (settings_step N (se_settings st) o) (se_stats st))
    | SResetStats => Done (mkSession (se_settings st) stats_zero)
    end.

  (** A program: calls of the functions of maq.h 32-112 one after the other. *)
  Fixpoint session_run (st : session) (ops : list session_op) : outcome session :=
    match ops with
    | [] => Done st
    | op :: rest => obind (session_step st op) (fun st' => session_run st' rest)
    end.
End Session.

Arguments se_settings {N} s.
Arguments se_stats {N} s.
