(** * What commands of the language spell out

    The abstract syntax of commands, the parse tree of each, and what each is to do: the
    calls it makes and the values it passes, with no stack in sight. *)
From Coq Require Import List ZArith Bool Ascii String.
From Verif Require Import Interp.
Import ListNotations.
Open Scope string_scope.
Open Scope list_scope.

(** ** Abstract syntax *)

(** Pieces of Python expressions. *)
Inductive piece :=
| Other (s : string) | Paren | NestedOther (s : string) | NestedParen | NestedClose.

(** Numbers, and the restricted kind used for limits. *)
Inductive number := NInt (s : string) | NFloat (s : string) | NScript (e : list piece) | NVar (x : string).
Inductive limit := LInt (s : string) | LVar (x : string) | LScript (e : list piece).
Inductive sc := SString (s : string) | SNumber (n : number).

(** Parameters of [set]. *)
Inductive param := PName (s : string) | PString (s : string) | PInt (s : string) | PFloat (s : string).
Inductive dkey := DName (s : string) | DString (s : string).
Inductive params :=
| POne (p : param)
| PArray (p : param) (ps : list param)
| PDict (k : dkey) (v : params) (es : list (dkey * params)).

(** Options of lognormal distributions. *)
Inductive mu := MuMeanLn | MuMedian | MuMean.
Inductive sd := SdLn | SdX.
Inductive opts := MuSd (m : option mu) (s : option sd) | SdMu (s : sd) (m : mu).

Inductive fref := FName (s : string) | FVar (x : string).
Inductive file := FileName (s : string) | FileId (s : string).
Inductive db := DbFirst (f : option file) (k : string) | DbLast (k : string) (f : file).
Inductive mode := Append | New.
Inductive popts := POpts (f : file) (m : option mode).

(** Where a recorder records. *)
Inductive place :=
| AtList (x : string) (xs : list string)
| AtStep (a b c : string)
| AtScript (e : list piece)
| AtVar (x : string)
| AtCount (a b : string) (linear : bool) (n : string).
Inductive col := CMu (m : mu) | CSd (s : sd) | CScalar (s : sc).
Definition cols := (col * list col)%type.

Inductive rtype :=
| RtDetfn | RtProbfn | RtImrate | RtEdpim | RtEdprate | RtDsedp | RtDsim | RtLossds | RtCostedp
| RtCostim | RtDelayim | RtDelayedp.
Inductive rrate := RrDsrate | RrCollrate.
Inductive rat := RaCostrate | RaCollapse | RaDeagg | RaTotalcost.
Inductive breakdown := ByFate | ByEdp | ByFrag.
Inductive rec :=
| RecType (t : rtype) (id : string) (p : place) (c : option cols)
| RecRate (t : rrate) (id : string)
| RecAt (t : rat) (id : string) (p : place)
| RecPdf (id : string) (p : place) (normalise : bool)
| RecNpv (id first step last rate : string)
| RecBy (id : string) (b : breakdown) (p : place) (c : option cols)
| RecAnnual (id : string) (o : opts) (c : option cols).

Inductive shape :=
| Hyperbolic (a b c : sc) | Powerlaw (a b : sc)
| Loglog (p : sc * sc) (ps : list (sc * sc)) | Linear (p : sc * sc) (ps : list (sc * sc)).
Inductive reg := RegDetfn | RegProbfn | RegIm | RegEdp | RegFragfn | RegLossfn | RegCompgroup.
Inductive msg := MsgNone | MsgString (s : string) | MsgScript (e : list piece) | MsgVar (x : string).
Inductive printed := PrMessage (m : msg) | PrFunction (r : reg) (id : string) | PrTitle.
Inductive search := Binary | Revbin | Lowrev | Scattered | Directed.
Inductive setting := SetScript (e : list piece) | SetVar (x : string) | SetParams (p : params).
Definition spec5 := (number * number * number * number * number)%type.

Inductive cmd :=
| Title (s : string)
| Detfn (id : string) (s : shape)
| Probfn (id : string) (f g : fref) (o : opts)
| Im (id f : string)
| Edp (id im f : string)
| FragDb (id : string) (d : db)
| FragUser (id : string) (p : sc * sc) (ps : list (sc * sc)) (o : opts)
| LossSimple (id : string) (p : sc * sc) (ps : list (sc * sc)) (o : opts)
| LossBilevel (id : string) (p : spec5) (ps : list spec5)
| Compgroup (id edp frag cost : string) (delay : option string) (n : string) (x y : option string)
| Print (p : printed) (o : option popts)
| Integration (precision : number) (iterations : limit) (s : option (search * limit))
| Recorder (id : string) (r : rec) (o : option popts)
| Analyze
| Set_ (id : string) (v : setting)
| ImportProbfn (id : string) (f : file)
| Collapse (id : string) (a b : sc) (o : opts)
| Demolition (id : string) (a b : sc) (o : opts)
| Structure (id g : string) (gs : list string)
| ImportIm (id : string) (f : file)
| Rebuildcost (id : string) (a b : sc) (o : opts)
| Demolitioncost (id : string) (a b : sc) (o : opts)
| Log (flag : option bool) (f : option file)
| Intstats (print : bool)
| Inputdir (f : file)
| Outputdir (f : file).

(** Items of a script: white space and commands. *)
Inductive item := Space (s : string) | Command (c : cmd).

(** ** Parse trees *)

(** A token with only one text. *)
Definition kw (k : kind) : tree :=
  Leaf k (match fixed_text k with Some s => s | None => "" end).

Definition t_piece (p : piece) : tree :=
  match p with
  | Other s => Leaf OTHER s | Paren => kw PYMODELPAREN | NestedOther s => Leaf NESTEDOTHER s
  | NestedParen => kw NESTEDLPAREN | NestedClose => kw NESTEDRPAREN
  end.
Definition t_script (e : list piece) : tree :=
  Node python_script [kw PYTHON_ESCAPE; Node python_expression (map t_piece e); kw PYTHON_END].
Definition t_var (x : string) : tree := Node var_ref [kw DOLLARS; Leaf ID x].
Definition t_number (n : number) : tree :=
  Node numerical_scalar [match n with
    | NInt s => Leaf INTEGER s | NFloat s => Leaf FLOAT_VAL s
    | NScript e => t_script e | NVar x => t_var x end].
Definition t_limit (n : limit) : tree :=
  match n with LInt s => Leaf INTEGER s | LVar x => t_var x | LScript e => t_script e end.
Definition t_sc (s : sc) : tree :=
  Node scalar [match s with SString s => Leaf STRING s | SNumber n => t_number n end].
Definition t_sc2 (a b : sc) : tree := Node scalar2 [t_sc a; kw COMMA; t_sc b].
Definition t_sc3 (a b c : sc) : tree := Node scalar3 [t_sc2 a b; kw COMMA; t_sc c].
Definition t_pair (p : sc * sc) : tree := t_sc2 (fst p) (snd p).

Definition t_param (p : param) : tree :=
  Node parameter [match p with
    | PName s => Leaf ID s | PString s => Leaf STRING s
    | PInt s => Leaf INTEGER s | PFloat s => Leaf FLOAT_VAL s end].
Definition t_dkey (k : dkey) : tree :=
  match k with DName s => Leaf ID s | DString s => Leaf STRING s end.

(** [x (COMMA x)*], flattened. *)
Definition comma_list {A} (f : A -> list tree) (l : list A) : list tree :=
  flat_map (fun a => kw COMMA :: f a) l.

Fixpoint t_params (p : params) : tree :=
  Node parameters [match p with
    | POne p => t_param p
    | PArray p ps =>
        Node parameter_array (kw LBRACKET :: t_param p :: comma_list (fun p => [t_param p]) ps
                              ++ [kw RBRACKET])
    | PDict k v es =>
        Node parameter_dictionary
          (kw LPAREN :: Node dictionary_entry [t_dkey k; kw COLON; t_params v]
           :: flat_map (fun e => [kw COMMA; Node dictionary_entry
                                              [t_dkey (fst e); kw COLON; t_params (snd e)]]) es
           ++ [kw RPAREN])
    end].

Definition t_mu (m : mu) : tree :=
  kw (match m with MuMeanLn => MEAN_LN_X | MuMedian => MEDIAN_X | MuMean => MEAN_X end).
Definition t_sd (s : sd) : tree := kw (match s with SdLn => SD_LN_X | SdX => SD_X end).
Definition t_mu_option (m : mu) : tree := Node mu_option [kw MU_FLAG; t_mu m].
Definition t_sd_option (s : sd) : tree := Node sd_option [kw SD_FLAG; t_sd s].
Definition opt {A} (f : A -> tree) (o : option A) : list tree :=
  match o with Some a => [f a] | None => [] end.
Definition t_opts (o : opts) : tree :=
  Node lognormal_options match o with
    | MuSd m s => opt t_mu_option m ++ opt t_sd_option s
    | SdMu s m => [t_sd_option s; t_mu_option m]
    end.

Definition t_fref (f : fref) : tree :=
  Node function_ref [match f with FName s => Leaf ID s | FVar x => t_var x end].
Definition t_file (f : file) : tree :=
  Node file_spec [match f with FileName s => Leaf FILE_NAME s | FileId s => Leaf ID s end].
Definition t_key (k : string) : tree := Node db_key [Leaf ID k].
Definition t_db (d : db) : tree :=
  Node fragfn_db_params match d with
    | DbFirst f k =>
        match f with Some f => [kw DB_FLAG; t_file f] | None => [] end ++ [kw STDFUNC_FLAG; t_key k]
    | DbLast k f => [kw STDFUNC_FLAG; t_key k; kw DB_FLAG; t_file f]
    end.
Definition t_popts (p : popts) : tree :=
  match p with POpts f m =>
    Node print_options (t_file f :: opt (fun m => kw (match m with Append => APPEND_OPTION
                                                                  | New => NEW_OPTION end)) m)
  end.

Definition t_place (p : place) : tree :=
  Node recorder_at match p with
    | AtList x xs =>
        [Node float_array (Leaf FLOAT_VAL x :: comma_list (fun x => [Leaf FLOAT_VAL x]) xs)]
    | AtStep a b c => [Leaf FLOAT_VAL a; kw COLON; Leaf FLOAT_VAL b; kw COLON; Leaf FLOAT_VAL c]
    | AtScript e => [t_script e]
    | AtVar x => [t_var x]
    | AtCount a b lin n =>
        [Node counted_at [Leaf FLOAT_VAL a; kw COLON; Leaf FLOAT_VAL b;
                          kw (if lin then LINFLAG else LOGFLAG); Leaf INTEGER n]]
    end.
Definition t_col (c : col) : tree :=
  Node col_spec [match c with
    | CMu m => Node placement_type [t_mu m]
    | CSd s => Node spread_type [t_sd s]
    | CScalar s => t_sc s end].
Definition t_cols (c : cols) : tree :=
  Node recorder_cols (kw COLS_FLAG :: t_col (fst c) :: comma_list (fun c => [t_col c]) (snd c)).

Definition k_rtype (t : rtype) : kind :=
  match t with
  | RtDetfn => DETFN | RtProbfn => PROBFN | RtImrate => IMRATE | RtEdpim => EDPIM
  | RtEdprate => EDPRATE | RtDsedp => DSEDP | RtDsim => DSIM | RtLossds => LOSSDS
  | RtCostedp => COSTEDP | RtCostim => COSTIM | RtDelayim => DELAYIM | RtDelayedp => DELAYEDP
  end.
Definition t_rec (r : rec) : list tree :=
  match r with
  | RecType t id p c =>
      [Node recorder_type [kw (k_rtype t)]; Leaf ID id; t_place p] ++ opt t_cols c
  | RecRate t id =>
      [kw (match t with RrDsrate => DSRATE | RrCollrate => COLLRATE end); Leaf ID id]
  | RecAt t id p =>
      [kw (match t with RaCostrate => COSTRATE | RaCollapse => COLLAPSE | RaDeagg => DEAGG
                   | RaTotalcost => TOTALCOST end); Leaf ID id; t_place p]
  | RecPdf id p n =>
      [kw PDF; Leaf ID id; t_place p] ++ (if n then [kw NORMALISE_FLAG] else [])
  | RecNpv id a b c r =>
      [kw STRUCTCOST; Leaf ID id; kw NPV_FLAG; Leaf INTEGER a; kw COLON; Leaf INTEGER b; kw COLON;
       Leaf INTEGER c; Leaf FLOAT_VAL r]
  | RecBy id b p c =>
      [kw STRUCTCOST; Leaf ID id;
       Node structcost_type [kw (match b with ByFate => BY_FATE_FLAG | ByEdp => BY_EDP_FLAG
                                         | ByFrag => BY_FRAG_FLAG end)]; t_place p] ++ opt t_cols c
  | RecAnnual id o c => [kw STRUCTCOST; Leaf ID id; kw ANNUAL_FLAG; t_opts o] ++ opt t_cols c
  end.

Definition bracketed (p : sc * sc) : list tree := [kw LBRACKET; t_pair p; kw RBRACKET].
Definition t_pairs (p : sc * sc) (ps : list (sc * sc)) : list tree :=
  bracketed p ++ comma_list bracketed ps.
Definition t_shape (s : shape) : tree :=
  match s with
  | Hyperbolic a b c => Node hyperbolic_args [kw HYPERBOLIC; t_sc3 a b c]
  | Powerlaw a b => Node powerlaw_args [kw POWERLAW; t_sc2 a b]
  | Loglog p ps => Node loglog_args (kw LOGLOG :: t_pairs p ps)
  | Linear p ps => Node linear_args (kw LINEAR :: t_pairs p ps)
  end.
Definition t_spec5 (p : spec5) : tree :=
  match p with (a, b, c, d, e) =>
    Node bilevel_spec [kw LBRACKET; t_number a; kw COMMA; t_number b; kw COMMA; t_number c; kw COMMA;
                       t_number d; kw COMMA; t_number e; kw RBRACKET]
  end.
Definition k_reg (r : reg) : kind :=
  match r with
  | RegDetfn => DETFN | RegProbfn => PROBFN | RegIm => IM | RegEdp => EDP | RegFragfn => FRAGFN
  | RegLossfn => LOSSFN | RegCompgroup => COMPGROUP
  end.
Definition t_printed (p : printed) : tree :=
  match p with
  | PrMessage m =>
      Node print_message ([kw PRINT; kw MESSAGE] ++
        match m with
        | MsgNone => [] | MsgString s => [Leaf STRING s] | MsgScript e => [t_script e]
        | MsgVar x => [t_var x] end)
  | PrFunction r id => Node print_function [kw PRINT; kw (k_reg r); Leaf ID id]
  | PrTitle => Node print_title [kw PRINT; kw TITLE]
  end.
Definition k_search (s : search) : kind :=
  match s with Binary => BINARY | Revbin => REVBIN | Lowrev => LOWREV | Scattered => SCATTERED
          | Directed => DIRECTED end.
Definition t_search (s : search * limit) : tree :=
  Node integration_search_option [kw (k_search (fst s)); t_limit (snd s)].
Definition t_dist (a b : sc) (o : opts) : tree := Node lognormal_dist [t_sc2 a b; t_opts o].

Definition t_body (c : cmd) : tree :=
  match c with
  | Title s => Node title_command [kw TITLE; Leaf STRING s]
  | Detfn id s => Node detfn_command [kw DETFN; Leaf ID id; t_shape s]
  | Probfn id f g o =>
      Node probfn_command [kw PROBFN; Leaf ID id; kw LOGNORMAL; t_fref f; kw COMMA; t_fref g; t_opts o]
  | Im id f => Node im_command [kw IM; Leaf ID id; Leaf ID f]
  | Edp id im f => Node edp_command [kw EDP; Leaf ID id; Leaf ID im; Leaf ID f]
  | FragDb id d => Node fragfn_command [kw FRAGFN; Leaf ID id; t_db d]
  | FragUser id p ps o =>
      Node fragfn_command [kw FRAGFN; Leaf ID id;
        Node fragfn_user_defined_params [Node scalar2_sequence (t_pairs p ps); t_opts o]]
  | LossSimple id p ps o =>
      Node lossfn_command [kw LOSSFN; Leaf ID id;
        Node simple_loss_command [kw SIMPLE; Node scalar2_sequence (t_pairs p ps); t_opts o]]
  | LossBilevel id p ps =>
      Node lossfn_command [kw LOSSFN; Leaf ID id;
        Node bilevel_loss_command [kw BILEVEL;
          Node bilevel_spec_sequence (t_spec5 p :: comma_list (fun p => [t_spec5 p]) ps)]]
  | Compgroup id e f c d n x y =>
      Node compgroup_command
        ([kw COMPGROUP; Node group_id [Leaf ID id]; Node edp_id [Leaf ID e]; Node frag_id [Leaf ID f];
          Node cost_id [Leaf ID c]] ++ opt (fun d => Node delay_id [Leaf ID d]) d ++ [Leaf INTEGER n]
         ++ opt (Leaf FLOAT_VAL) x ++ opt (Leaf FLOAT_VAL) y)
  | Print p o => Node print_command (t_printed p :: opt t_popts o)
  | Integration p i s =>
      Node integration_command ([kw INTEGRATION; Node integration_method [kw MAQ]; t_number p; t_limit i]
                                ++ opt t_search s)
  | Recorder id r o =>
      Node recorder_command (kw RECORDER :: Node recorder_id [Leaf ID id] :: t_rec r ++ opt t_popts o)
  | Analyze => Node analyze_command [kw ANALYZE]
  | Set_ id v =>
      Node set_command [kw SET; Leaf ID id;
        match v with SetScript e => t_script e | SetVar x => t_var x | SetParams p => t_params p end]
  | ImportProbfn id f => Node importprobfn_command [kw IMPORTPROBFN; Leaf ID id; t_file f]
  | Collapse id a b o => Node collapse_command [kw COLLAPSE; Leaf ID id; t_dist a b o]
  | Demolition id a b o => Node demolition_command [kw DEMOLITION; Leaf ID id; t_dist a b o]
  | Structure id g gs =>
      Node structure_command [kw STRUCTURE; Leaf ID id;
        Node id_list (Leaf ID g :: comma_list (fun g => [Leaf ID g]) gs)]
  | ImportIm id f => Node importimfn_command [kw IMPORTIMFN; Leaf ID id; t_file f]
  | Rebuildcost id a b o => Node rebuildcost_command [kw REBUILDCOST; Leaf ID id; t_dist a b o]
  | Demolitioncost id a b o => Node demolitioncost_command [kw DEMOLITIONCOST; Leaf ID id; t_dist a b o]
  | Log b f =>
      Node log_command (kw LOG :: opt (fun b : bool => kw (if b then STDERR_FLAG else NOSTDERR_FLAG)) b
                        ++ opt t_file f)
  | Intstats p => Node intstats_command [kw INTSTATS; kw (if p then PRINT else RESET)]
  | Inputdir f => Node inputdir_command [kw INPUTDIR; t_file f]
  | Outputdir f => Node outputdir_command [kw OUTPUTDIR; t_file f]
  end.

Definition t_cmd (c : cmd) : tree := Node command [t_body c; kw SEMICOLON].

Definition t_items (l : list item) : tree :=
  Node script (map (fun i => match i with Space s => Leaf WS s | Command c => t_cmd c end) l).

(** ** Meaning *)

(** A piece of an expression stands for its text. *)
Definition piece_text (p : piece) : string :=
  match p with Other s => s | Paren => "(" | NestedOther s => s | NestedParen => "(" | NestedClose => ")" end.
Definition expression (e : list piece) : string := fold_right append "" (map piece_text e).

(** What a string literal stands for is not this specification's concern. *)
Definition literal := preprocess_string.

(** A numeral in decimal. *)
Definition decimal := int_of.

Definition param_value (p : param) : value :=
  match p with
  | PName s => VStr s | PString s => VStr (literal s) | PInt s => VInt (decimal s) | PFloat s => VFloat s
  end.

(** Dictionaries map the texts of keys; the last entry for a key counts. *)
Definition dkey_value (k : dkey) : value :=
  match k with DName s => VStr s | DString s => VStr (literal s) end.
Fixpoint params_value (p : params) : value :=
  match p with
  | POne p => param_value p
  | PArray p ps => VList (map param_value (p :: ps))
  | PDict k v es =>
      VDict (fold_left (fun d e => dict_set d (dkey_value (fst e)) (snd e))
               ((k, params_value v) :: map (fun e => (fst e, params_value (snd e))) es) [])
  end.

Definition mu_value (m : mu) : const :=
  match m with MuMeanLn => C_MEAN_LN_X | MuMedian => C_MEDIAN_X | MuMean => C_MEAN_X end.
Definition sd_value (s : sd) : const := match s with SdLn => C_SD_LN_X | SdX => C_SD_X end.
Definition opts_mu (o : opts) : option mu := match o with MuSd m _ => m | SdMu _ m => Some m end.
Definition opts_sd (o : opts) : option sd := match o with MuSd _ s => s | SdMu s _ => Some s end.
Definition const_or_none {A} (f : A -> const) (o : option A) : value :=
  match o with Some a => VConst (f a) | None => VNone end.
Definition opts_value (o : opts) : value :=
  VDict [(VStr "mu", const_or_none mu_value (opts_mu o)); (VStr "sd", const_or_none sd_value (opts_sd o))].
Definition mu_name (m : mu) : string :=
  match m with MuMeanLn => "mean_ln_x" | MuMedian => "median_x" | MuMean => "mean_x" end.
Definition sd_name (s : sd) : string := match s with SdLn => "sd_ln_x" | SdX => "sd_x" end.

Definition file_value (f : file) : string := match f with FileName s => s | FileId s => s end.
Definition popts_entries (o : option popts) : list (value * value) :=
  match o with
  | None => []
  | Some (POpts f m) =>
      [(VStr "filename", VStr (file_value f));
       (VStr "append", VBool (match m with Some Append => true | _ => false end))]
  end.

Definition reg_lookup (r : reg) : string :=
  match r with
  | RegDetfn => "detfn.lookup" | RegProbfn => "probfn.lookup" | RegIm => "im.lookup"
  | RegEdp => "edp.lookup" | RegFragfn => "fragfn.lookup" | RegLossfn => "lossfn.lookup"
  | RegCompgroup => "compgroup.lookup"
  end.
Definition search_value (s : search) : const :=
  match s with Binary => BINARY_SUBDIVISION | Revbin => REVERSE_BINARY_SUBDIVISION
          | Lowrev => LOW_FIRST_REVERSE_BINARY_SUBDIVISION | Scattered => C_SCATTERED
          | Directed => C_DIRECTED end.

(** What a recorder records: the name of its type and the registry it is looked up in. *)
Definition rtype_name (t : rtype) : string :=
  match t with
  | RtDetfn => "detfn" | RtProbfn => "probfn" | RtImrate => "imrate" | RtEdpim => "edpim"
  | RtEdprate => "edprate" | RtDsedp => "dsedp" | RtDsim => "dsim" | RtLossds => "lossds"
  | RtCostedp => "costedp" | RtCostim => "costim" | RtDelayim => "delayim" | RtDelayedp => "delayedp"
  end.
Definition rtype_lookup (t : rtype) : string :=
  match t with
  | RtDetfn => "detfn.lookup" | RtProbfn => "probfn.lookup" | RtImrate => "im.lookup"
  | RtEdpim | RtEdprate => "edp.lookup"
  | RtDsedp | RtDsim | RtLossds | RtCostedp | RtCostim | RtDelayim | RtDelayedp => "compgroup.lookup"
  end.

(** The years from the first, by the step, before the last. *)
Definition years (first step last : Z) : list value :=
  map VInt (filter (fun y => Z.eqb ((y - first) mod step) 0)
                   (map (fun k => first + Z.of_nat k)%Z (List.seq 0 (Z.to_nat (last - first))))).

Section Meaning.
Variable world : Type.
Variable ask : string -> list value -> world -> (value + exn) * world.
Notation core := (core world).

(** Evaluation changes the variables, the titles and the world, and returns or raises. *)
Inductive result (A : Type) := Returned (a : A) (c : core) | Raised (e : exn) (c : core).
Arguments Returned {A} a c.
Arguments Raised {A} e c.
Definition E (A : Type) := core -> result A.
Definition pure {A} (a : A) : E A := fun c => Returned a c.
Definition andthen {A B} (m : E A) (f : A -> E B) : E B :=
  fun c => match m c with Returned a c' => f a c' | Raised e c' => Raised e c' end.
Definition failing {A} (e : exn) : E A := fun c => Raised e c.
Notation "'let!' x := m 'in' f" := (andthen m (fun x => f)) (at level 200, x name).
Definition call (f : string) (args : list value) : E value :=
  fun c => match ask f args (outside _ c) with
           | (inl v, w) => Returned v (Core _ (vars _ c) (titles _ c) w)
           | (inr e, w) => Raised e (Core _ (vars _ c) (titles _ c) w)
           end.
Definition do (f : string) (args : list value) : E unit := let! _ := call f args in pure tt.
(** [None] has no methods. *)
Definition method (v : value) : E unit :=
  match v with VNone => failing AttributeError | _ => pure tt end.
Fixpoint all_of {A B} (f : A -> E B) (l : list A) : E (list B) :=
  match l with
  | [] => pure []
  | a :: l => let! b := f a in let! bs := all_of f l in pure (b :: bs)
  end.

Definition run_script (e : list piece) : E value := call "eval" [VStr (expression e)].
Definition variable (x : string) : E value := fun c => Returned (get_var x (vars _ c)) c.
Definition number_value (n : number) : E value :=
  match n with
  | NInt s => pure (VInt (decimal s)) | NFloat s => pure (VFloat s)
  | NScript e => run_script e | NVar x => variable x
  end.
Definition limit_value (n : limit) : E value :=
  match n with LInt s => pure (VInt (decimal s)) | LVar x => variable x | LScript e => run_script e end.
Definition sc_value (s : sc) : E value :=
  match s with SString s => pure (VStr (literal s)) | SNumber n => number_value n end.
Definition pair_value (p : sc * sc) : E value :=
  let! a := sc_value (fst p) in let! b := sc_value (snd p) in pure (VList [a; b]).
Definition spec5_value (p : spec5) : E value :=
  match p with (a, b, c, d, e) =>
    let! a := number_value a in let! b := number_value b in let! c := number_value c in
    let! d := number_value d in let! e := number_value e in pure (VList [a; b; c; d; e])
  end.
Definition place_value (p : place) : E value :=
  match p with
  | AtList x xs => pure (VList (map VFloat (x :: xs)))
  | AtStep a b c => call "frange" [VFloat a; VFloat c; VFloat b]
  | AtScript e => run_script e
  | AtVar x => variable x
  | AtCount a b lin n =>
      call (if lin then "linrange" else "logrange") [VFloat a; VFloat b; VInt (decimal n)]
  end.
Definition col_value (c : col) : E value :=
  match c with CMu m => pure (VStr (mu_name m)) | CSd s => pure (VStr (sd_name s)) | CScalar s => sc_value s end.
Definition cols_value (c : option cols) : E value :=
  match c with
  | None => pure VNone
  | Some (c, cs) => let! l := all_of col_value (c :: cs) in pure (VList l)
  end.

(** A distribution for an intensity measure, and one for a structure. *)
Definition im_dist (m id : string) (a b : sc) (o : opts) : E unit :=
  let! x := sc_value a in let! y := sc_value b in
  let! d := call "MakeLogNormalDist" [x; const_or_none mu_value (opts_mu o); y;
                                      const_or_none sd_value (opts_sd o)] in
  let! i := call "im.lookup" [VStr id] in
  let! _ := method i in
  do m [i; d].
Definition structure_dist (m id : string) (a b : sc) (o : opts) : E unit :=
  let! x := sc_value a in let! y := sc_value b in
  let! s := call "structure.lookup" [VStr id] in
  let! _ := method s in
  let! d := call "MakeLogNormalDist" [x; const_or_none mu_value (opts_mu o); y;
                                      const_or_none sd_value (opts_sd o)] in
  do m [s; d].

Definition shape_values (s : shape) : E (string * value) :=
  match s with
  | Hyperbolic a b c =>
      let! a := sc_value a in let! b := sc_value b in let! c := sc_value c in
      pure ("hyperbolic", VList [a; b; c])
  | Powerlaw a b => let! a := sc_value a in let! b := sc_value b in pure ("power law", VList [a; b])
  | Loglog p ps =>
      let! l := all_of (fun p => let! a := sc_value (fst p) in let! b := sc_value (snd p) in pure (a, b))
                       (p :: ps) in
      pure ("loglog", VList [VList (map fst l); VList (map snd l)])
  | Linear p ps =>
      let! l := all_of (fun p => let! a := sc_value (fst p) in let! b := sc_value (snd p) in pure (a, b))
                       (p :: ps) in
      pure ("linear", VList [VList (map fst l); VList (map snd l)])
  end.

(** A function may be named by a variable. *)
Definition fref_value (f : fref) : E value :=
  match f with FName s => pure (VStr s) | FVar x => variable x end.

Definition make_recorder (id type registry obj : string) (o : list (value * value)) (c p : value) : E unit :=
  let! f := call registry [VStr obj] in
  do "MakeRecorder" [VStr id; VStr type; f; VDict o; c; p].

Definition recorder_meaning (id : string) (r : rec) (o : option popts) : E unit :=
  let o := popts_entries o in
  match r with
  | RecType t obj p c =>
      let! p := place_value p in let! c := cols_value c in
      make_recorder id (rtype_name t) (rtype_lookup t) obj o c p
  | RecRate t obj =>
      match t with
      | RrDsrate => make_recorder id "dsrate" "compgroup.lookup" obj o VNone VNone
      | RrCollrate => make_recorder id "collrate" "im.lookup" obj o VNone VNone
      end
  | RecAt t obj p =>
      let! p := place_value p in
      match t with
      | RaCostrate => make_recorder id "costrate" "compgroup.lookup" obj o VNone p
      | RaCollapse => make_recorder id "collapse" "im.lookup" obj o VNone p
      | RaDeagg => make_recorder id "deagg" "structure.lookup" obj o VNone p
      | RaTotalcost => make_recorder id "totalcost" "structure.lookup" obj o VNone p
      end
  | RecPdf obj p n =>
      let! p := place_value p in
      make_recorder id "pdf" "structure.lookup" obj
        (o ++ if n then [(VStr "normalise", VBool true)] else []) VNone p
  | RecNpv obj first step last rate =>
      if Z.eqb (decimal step) 0 then failing ValueError
      else make_recorder id "structcost" "structure.lookup" obj
             (o ++ [(VStr "structcost-type", VStr "npv"); (VStr "discount-rate", VFloat rate)]) VNone
             (VList (years (decimal first) (decimal step) (decimal last)))
  | RecBy obj b p c =>
      let! p := place_value p in let! c := cols_value c in
      make_recorder id "structcost" "structure.lookup" obj
        (o ++ [(VStr "structcost-type",
                VStr (match b with ByFate => "by-fate" | ByEdp => "by-edp" | ByFrag => "by-frag" end))]) c p
  | RecAnnual obj q c =>
      let! c := match c with
                | Some _ => cols_value c
                | None =>
                    pure (VList (map VStr
                      (match opts_mu q with Some m => [mu_name m] | None => [] end
                       ++ match opts_sd q with Some s => [sd_name s] | None => [] end)))
                end in
      make_recorder id "structcost" "structure.lookup" obj
        (o ++ [(VStr "structcost-type", VStr "annual")]) c VNone
  end.

Definition set_variable (x : string) (v : value) : E unit :=
  fun c => Returned tt (Core _ (set_var x v (vars _ c)) (titles _ c) (outside _ c)).
Definition add_title (s : string) : E unit :=
  fun c => Returned tt (Core _ (vars _ c) (titles _ c ++ [s]) (outside _ c)).

(** All titles, each after a line break. *)
Definition all_titles : E value :=
  fun c => Returned (VStr (fold_right append "" (map (String (ascii_of_nat 10)) (titles _ c)))) c.

Definition meaning (c : cmd) : E unit :=
  match c with
  | Title s => add_title (literal s)
  | Detfn id s => let! v := shape_values s in do "detfn" [VStr id; VStr (fst v); snd v]
  | Probfn id f g o =>
      let! x := fref_value f in let! y := fref_value g in
      let! f := call "detfn.lookup" [x] in let! g := call "detfn.lookup" [y] in
      do "probfn" [VStr id; VStr "lognormal"; VList [const_or_none mu_value (opts_mu o); f];
                   VList [const_or_none sd_value (opts_sd o); g]]
  | Im id f => let! f := call "detfn.lookup" [VStr f] in do "im" [VStr id; f]
  | Edp id im f =>
      let! i := call "im.lookup" [VStr im] in let! f := call "probfn.lookup" [VStr f] in
      do "edp" [VStr id; i; f]
  | FragDb id d =>
      let '(k, f) := match d with
                     | DbFirst (Some f) k | DbLast k f => (k, file_value f)
                     | DbFirst None k => (k, "(default database)") end in
      do "fragfn_db" [VStr id; VDict [(VStr "key", VStr k); (VStr "database", VStr f)]]
  | FragUser id p ps o =>
      let! l := all_of pair_value (p :: ps) in do "fragfn_user" [VStr id; opts_value o; VList l]
  | LossSimple id p ps o =>
      let! l := all_of pair_value (p :: ps) in do "simplelossfn" [VStr id; opts_value o; VList l]
  | LossBilevel id p ps =>
      let! l := all_of spec5_value (p :: ps) in do "bilevellossfn" [VStr id; VList l]
  | Compgroup id e f c d n x y =>
      let! e := call "edp.lookup" [VStr e] in
      let! f := call "fragfn.lookup" [VStr f] in
      let! c := call "lossfn.lookup" [VStr c] in
      let! d := match d with Some d => call "lossfn.lookup" [VStr d] | None => pure VNone end in
      (* the first factor given is that of the costs *)
      let '(x, y) := match x, y with
                     | Some x, Some y => (x, y) | Some x, None | None, Some x => (x, "1.0")
                     | None, None => ("1.0", "1.0") end in
      do "compgroup" [VStr id; e; f; c; d; VInt (decimal n); VFloat x; VFloat y]
  | Print p o =>
      let! v := match p with
                | PrMessage MsgNone => pure (VStr "")
                | PrMessage (MsgString s) => pure (VStr (literal s))
                | PrMessage (MsgScript e) => run_script e
                | PrMessage (MsgVar x) => variable x
                | PrFunction r id => call (reg_lookup r) [VStr id]
                | PrTitle => all_titles
                end in
      match o with
      | None => do "print" [VNone; VBool false; v]
      | Some (POpts f m) =>
          do "print" [VStr (file_value f); VBool (match m with Some Append => true | _ => false end); v]
      end
  | Integration p i s =>
      let! p := number_value p in
      let! i := limit_value i in
      let! _ := match s with
                | None => pure tt
                | Some (s, LInt n) =>
                    let! _ := do "Set_Integration_Method" [VConst (search_value s)] in
                    do "Set_Integration_Search_Limit" [VStr n]
                | Some (s, n) =>
                    let! n := limit_value n in
                    let! _ := do "Set_Integration_Method" [VConst (search_value s)] in
                    do "Set_Integration_Search_Limit" [n]
                end in
      do "IntegrationSettings" [p; i]
  | Recorder id r o => recorder_meaning id r o
  | Analyze =>
      let! l := call "recorder.all" [] in
      match l with
      | VList l =>
          let! _ := all_of (fun r => let! _ := method r in do "recorder.run" [r]) l in pure tt
      | _ => failing TypeError
      end
  | Set_ id v =>
      let! v := match v with
                | SetScript e => run_script e | SetVar x => variable x
                | SetParams p => pure (params_value p) end in
      set_variable id v
  | ImportProbfn id f => do "ImportProbFn" [VStr id; VStr (file_value f)]
  | Collapse id a b o => im_dist "im.SetCollapse" id a b o
  | Demolition id a b o => im_dist "im.SetDemolition" id a b o
  | Structure id g gs =>
      let! s := call "structure" [VStr id] in
      let! _ := all_of (fun g => let! _ := method s in
                                 let! c := call "compgroup.lookup" [VStr g] in
                                 do "structure.AddCompGroup" [s; c]) (g :: gs) in
      pure tt
  | ImportIm id f => do "ImportIMFn" [VStr id; VStr (file_value f)]
  | Rebuildcost id a b o => structure_dist "structure.setRebuildCost" id a b o
  | Demolitioncost id a b o => structure_dist "structure.setDemolitionCost" id a b o
  | Log b f =>
      let! _ := match b with Some b => do "LogToStdErr" [VBool b] | None => pure tt end in
      match f with Some f => do "SetLogFile" [VStr (file_value f)] | None => pure tt end
  | Intstats true =>
      let! t := call "Format_Statistics" [] in do "print" [VNone; VBool false; t]
  | Intstats false => do "Reset_Statistics" []
  | Inputdir f => do "set_input_directory" [VStr (file_value f)]
  | Outputdir f => do "set_output_directory" [VStr (file_value f)]
  end.

(** A script does its commands in order. *)
Definition script_meaning (l : list item) : E unit :=
  let! _ := all_of (fun i => match i with Space _ => pure tt | Command c => meaning c end) l in pure tt.

End Meaning.

Arguments Returned {world A} a c.
Arguments Raised {world A} e c.

(** ** The commands the interpreter does as spelt *)

Definition no_dictionary (p : params) : bool := match p with PDict _ _ _ => false | _ => true end.

Definition sound_cmd (c : cmd) : bool :=
  match c with
  | Detfn _ (Loglog _ _) | Detfn _ (Linear _ _) => false
  | Probfn _ (FVar _) _ _ | Probfn _ _ (FVar _) _ => false
  | Integration _ (LVar _) _ | Integration _ (LScript _) _ => false
  | Set_ _ (SetParams p) => no_dictionary p
  | Recorder _ (RecAnnual _ o c) _ =>
      match opts_mu o, opts_sd o, c with Some _, Some _, None => true | _, _, _ => false end
  | _ => true
  end.

Definition sound_item (i : item) : bool := match i with Space _ => true | Command c => sound_cmd c end.

(** ** A world which writes down the calls and returns new objects *)

Definition log := list (string * list value).
Definition write_down (f : string) (args : list value) (w : log) : (value + exn) * log :=
  (inl (VObj (List.length w)), w ++ [(f, args)]).

(** The outcome of a script and the calls made. *)
Definition observed (t : tree) : option exn * log * list (string * value) :=
  match run log write_down t [] with
  | Ok _ _ _ s => (None, outside _ (body _ s), vars _ (body _ s))
  | Raise _ _ e c => (Some e, outside _ c, vars _ c)
  end.
Definition intended (l : list item) : option exn * log * list (string * value) :=
  match script_meaning log write_down l (Core _ [] [] []) with
  | Returned _ c => (None, outside _ c, vars _ c)
  | Raised e c => (Some e, outside _ c, vars _ c)
  end.

(** What a walk did to what outlives a command, and whether it came to the end with
    clean stacks. *)
Definition as_spelt {world A} (r : res world A) (e : result world A) : Prop :=
  match e with
  | Returned a c => r = Ok world A a (St world c [] [])
  | Raised x c => r = Raise world A x c
  end.

(** A dictionary in which no text is a key. *)
Definition nameless (d : list (value * value)) : Prop := forall s, dict_get d (VStr s) = None.

(** What was last given to a variable, [None] if nothing was. *)
Definition latest (x : string) (given : list (string * value)) : value :=
  match find (fun p => if string_dec x (fst p) then true else false) (rev given) with
  | Some p => snd p
  | None => VNone
  end.
