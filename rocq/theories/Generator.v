(** The code generator (generator.go). *)
From Verif Require Import Base GoFloat GoValue Maybe Formats Constraint StructInfo Validate Builder GoText GoLang.
Open Scope Z_scope.

(** what the standard library does with printable runes (strconv.Quote) and with a value that
    does not fit its fmt verb *)
Record genv := { g_print : Z -> bool; g_bad : string -> gval -> string }.

(** a generator step: the oracle chooses map iteration orders *)
Definition gm (A : Type) := orc -> gres (A * orc).
Definition gret {A} (x : A) : gm A := fun w => GOk (x, w).
Definition gbind {A B} (m : gm A) (f : A -> gm B) : gm B := fun w =>
  match m w with
  | GOk (x, w') => f x w'
  | GErr e => GErr e
  | GPanic e => GPanic e
  end.
Notation "'get' x <- m ; f" := (gbind m (fun x => f)) (at level 60, x name, right associativity).
Definition gfail {A} (m : string) : gm A := fun _ => GErr m.
Definition gpanic {A} (m : string) : gm A := fun _ => GPanic m.

Fixpoint gconcat (l : list (gm string)) : gm string :=
  match l with
  | [] => gret ""%string
  | m :: r => get x <- m; get y <- gconcat r; gret (x +++ y)
  end.

(** "for k := range m { names = append(names, k) }; sort.Strings(names)" *)
Definition sorted_names {A} (m : list (string * A)) : gm (list string) := fun w =>
  let '(p, w') := shuffle w (keys m) in GOk (sort_s p, w').

Definition nl : string := one 10.

Section Gen.
Variable G : genv.
(** ctx.cmname (generator.go:120-126) *)
Variable cm : string.
Notation q := (quote (g_print G)).

(** generator.go:321-342 *)
Definition enum_item (v : gval) : gm string :=
  match v with
  | GStr _ s => gret (q s)
  | GInt _ _ z => gret (dec_Z z)
  | GUint _ Kuintptr _ => gfail "failed to stringify enum value"
  | GUint _ _ _ => gpanic "reflect: call of reflect.Value.Int on uint Value"
  | GFloat _ is32 f => gret (fmt_f (rv_float is32 f))
  | GNil => gpanic "reflect: call of reflect.Value.Interface on zero Value"
  | _ => gfail "failed to stringify enum value"
  end.
Fixpoint enum_code (l : list gval) : gm string :=
  match l with
  | [] => gret ""%string
  | v :: r =>
      get x <- enum_item v;
      get y <- enum_code r;
      gret (x +++ match r with [] => y | _ => ", " +++ y end)
  end.

Definition when (b : bool) (s : string) : string := if b then s else "".

(** generator.go:344-382 *)
Definition string_code (d : option gval) (c : strcfg) : gm string :=
  let head := "jsval.String()" +++
    when (-1 <? s_max c) (".MaxLength(" +++ dec_Z (s_max c) +++ ")") +++
    when (0 <? s_min c) (".MinLength(" +++ dec_Z (s_min c) +++ ")") +++
    when (negb (String.eqb (s_fmt c) "")) (".Format(" +++ q (s_fmt c) +++ ")") +++
    match s_rx c with None => "" | Some rx => ".RegexpString(" +++ q rx +++ ")" end in
  get e <- match s_enum c with
           | None => gret ""%string
           | Some l => get x <- enum_code l; gret (".Enum(" +++ x +++ ",)")
           end;
  get t <- match d with
           | None => gret ""%string
           | Some (GStr T s) => if String.eqb T "string" then gret (".Default(" +++ q s +++ ")")
                                else gfail "default value must be a string"
           | Some _ => gfail "default value must be a string"
           end;
  gret (head +++ e +++ t).

(** generator.go:269-293 *)
Definition integer_code (d : option gval) (c : numcfg) : gm string :=
  let head := "jsval.Integer()" +++
    when (n_amin c) (".Minimum(" +++ dec_Z (f64_to_int64 (n_min c)) +++ ")") +++
    when (n_xmin c) ".ExclusiveMinimum(true)" +++
    when (n_amax c) (".Maximum(" +++ dec_Z (f64_to_int64 (n_max c)) +++ ")") +++
    when (n_xmax c) ".ExclusiveMaximum(true)" in
  match d with
  | None => gret head
  | Some (GFloat T false f) =>
      if String.eqb T "float64" then gret (head +++ ".Default(" +++ dec_Z (f64_to_int64 f) +++ ")")
      else gpanic "interface conversion: not float64"
  | Some _ => gpanic "interface conversion: not float64"
  end.

(** generator.go:295-319 *)
Definition number_code (d : option gval) (c : numcfg) : gm string :=
  let head := "jsval.Number()" +++
    when (n_amin c) (".Minimum(" +++ fmt_f (n_min c) +++ ")") +++
    when (n_xmin c) ".ExclusiveMinimum(true)" +++
    when (n_amax c) (".Maximum(" +++ fmt_f (n_max c) +++ ")") +++
    when (n_xmax c) ".ExclusiveMaximum(true)" in
  gret (head +++ match d with
                 | None => ""
                 | Some (GFloat _ is32 f) => ".Default(" +++ fmt_f (rv_float is32 f) +++ ")"
                 | Some v => ".Default(" +++ g_bad G "f" v +++ ")"
                 end).

(** generator.go:511-517 *)
Definition boolean_code (d : option gval) : gm string :=
  gret ("jsval.Boolean()" +++ match d with
                              | None => ""
                              | Some (GBool _ b) => ".Default(" +++ (if b then "true" else "false") +++ ")"
                              | Some v => ".Default(" +++ g_bad G "t" v +++ ")"
                              end).

(** generator.go:236-240 *)
Definition reference_code (name : string) : gm string :=
  gret ("jsval.Reference(" +++ cm +++ ").RefersTo(" +++ q name +++ ")").

(** generator.go:242-267; [l]: the code of the children *)
Definition combo_code (name : string) (l : list (gm string)) : gm string :=
  match l with
  | [] => gret "jsval.EmptyConstraint"%string
  | _ => get body <- gconcat (map (fun m => get x <- m; gret ("." +++ nl +++ "Add(" +++ nl +++ x +++ "," +++ nl +++ ")")) l);
         gret ("jsval." +++ name +++ "()" +++ body)
  end.

(** one method call with a constraint as its last argument *)
Definition arg_line (m : gm string) : gm string := get x <- m; gret (x +++ "," +++ nl +++ ")").

(** generator.go:384-469.  Objects have no Default method, so HasDefault is false. *)
Definition object_code (o : objcfg) (additional : gm string) (props : list (string * gm string))
    (pats : list ((nat * string) * gm string)) : gm string :=
  get req <- match o_req o with
             | [] => gret ""%string
             | m => get ns <- sorted_names m; gret ("." +++ nl +++ "Required(" +++ join ", " (map q ns) +++ ")")
             end;
  get add <- match o_add o with
             | CNil => gret ""%string
             | _ => get x <- arg_line additional; gret ("." +++ nl +++ "AdditionalProperties(" +++ nl +++ x)
             end;
  get pnames <- sorted_names props;
  get ps <- gconcat (map (fun k =>
                       get x <- match sget k props with Some m => arg_line m | None => gret ""%string end;
                       gret ("." +++ nl +++ "AddProp(" +++ nl +++ q k +++ "," +++ nl +++ x)) pnames);
  get pp <- (fun w =>
      let '(l, w1) := shuffle w pats in
      let ppmap := fold_left (fun m e => sset (snd (fst e)) (snd e) m) l [] in
      let ppnames := sort_s (map (fun e => snd (fst e)) l) in
      gconcat (map (fun k =>
                 get x <- match sget k ppmap with Some m => arg_line m | None => gret ""%string end;
                 gret ("." +++ nl +++ "PatternPropertiesString(" +++ nl +++ q k +++ "," +++ nl +++ x)) ppnames) w1);
  get froms <- sorted_names (o_propdeps o);
  let deps := flat_map (fun from => map (fun to => "." +++ nl +++ "PropDependency(" +++ q from +++ ", " +++ q to +++ ")")
                                        (prop_deps o from)) froms in
  gret ("jsval.Object()" +++ req +++ add +++ ps +++ pp +++ join "" deps).

(** an error of a positional item is dropped (generator.go:492-496) *)
Definition ignore_err (m : gm string) : gm string := fun w =>
  match m w with
  | GErr _ => GOk (""%string, w)
  | r => r
  end.

(** generator.go:471-509 *)
Definition array_code (a : arrcfg) (items additional : gm string) (pos : list (gm string)) : gm string :=
  get i <- match a_items a with
           | CNil => gret ""%string
           | _ => get x <- arg_line items; gret ("." +++ nl +++ "Items(" +++ nl +++ x)
           end;
  get d <- match a_add a with
           | CNil => gret ""%string
           | _ => get x <- arg_line additional; gret ("." +++ nl +++ "AdditionalItems(" +++ nl +++ x)
           end;
  get p <- match pos with
           | [] => gret ""%string
           | _ => get x <- gconcat (map (fun m => get x <- ignore_err m; gret (x +++ "," +++ nl)) pos);
                  gret ("." +++ nl +++ "PositionalItems([]jsval.Constraint{" +++ nl +++ x +++ "})")
           end;
  gret ("jsval.Array()" +++ i +++ d +++ p +++
        when (-1 <? a_min a) ("." +++ nl +++ "MinItems(" +++ dec_Z (a_min a) +++ ")") +++
        when (-1 <? a_max a) ("." +++ nl +++ "MaxItems(" +++ dec_Z (a_max a) +++ ")") +++
        when (a_uniq a) ("." +++ nl +++ "UniqueItems(true)")).

(** generator.go:519-526 *)
Definition not_code (child : gm string) : gm string :=
  get x <- child; gret ("jsval.Not(" +++ nl +++ x +++ nl +++ ")").

(** generator.go:229-231: the text goes through TrimSuffix and, as a format, through Fprintf *)
Definition post (m : gm string) : gm string :=
  get s <- m; gret (fprintf0 (trim_suffix ("." +++ nl) s)).

(** generator.go:165-234; nil and *EnumConstraint match no case and yield no text *)
Fixpoint emit (c : constr) : gm string :=
  post (match c with
        | CNil | CEnum _ => gret ""%string
        | CEmpty => gret "jsval.EmptyConstraint"%string
        | CNull => gret "jsval.NullConstraint"%string
        | CBool d => boolean_code d
        | CStr d s => string_code d s
        | CNum d m => number_code d m
        | CInt d m => integer_code d m
        | CArr a => array_code a (emit (a_items a)) (emit (a_add a)) (map emit (a_pos a))
        | CObj o => object_code o (emit (o_add o)) (map (fun e => (fst e, emit (snd e))) (o_props o))
                      (map (fun e => (fst e, emit (snd e))) (o_pats o))
        | CAny l => combo_code "Any" (map emit l)
        | CAll l => combo_code "All" (map emit l)
        | COneOf l => combo_code "OneOf" (map emit l)
        | CNot x => not_code (emit x)
        | CRef name => reference_code name
        end).
End Gen.

(** ** Process (generator.go:27-118) *)
(** a validator: its name, root and references.  [v_same]: the names of those references
    whose constraint is the very object the root is (v.root == rc), which the tree model of
    constraints cannot tell. *)
Record validator := { v_name : string; v_root : constr; v_refs : list (string * constr); v_same : list string }.

(** generator.go:37-47: references of all validators, the first definition of a name wins *)
Definition merge_refs (vs : list validator) : list (string * constr) :=
  fold_left (fun m v => fold_left (fun m e => match sget (fst e) m with Some _ => m | None => sset (fst e) (snd e) m end)
                                  (v_refs v) m) vs [].
(** generator.go:49-52: an empty one becomes V<index> *)
Definition named (i : nat) (v : validator) : validator :=
  match v_name v with
  | EmptyString => {| v_name := "V" +++ dec_Z (Z.of_nat i); v_root := v_root v; v_refs := v_refs v; v_same := v_same v |}
  | _ => v
  end.
Definition name_all (vs : list validator) : list validator :=
  map (fun p => named (fst p) (snd p)) (combine (seq 0 (List.length vs)) vs).

(** generator.go:102 sort.Sort(JSValSlice(validators)): by name *)
Fixpoint insert_v (x : validator) (l : list validator) : list validator :=
  match l with
  | [] => [x]
  | y :: r => match String.compare (v_name x) (v_name y) with Gt => y :: insert_v x r | _ => x :: l end
  end.
Definition sort_v (l : list validator) : list validator := fold_right insert_v [] l.

(** generator.go:85-92: leading white space is removed *)
Fixpoint skip_space (s : string) : string :=
  match s with
  | String c r => if existsb (Ascii.eqb c) [" "; "009"; "010"; "011"; "012"; "013"]%char then skip_space r else s
  | EmptyString => EmptyString
  end.
Definition strip (s : string) : string := match skip_space s with EmptyString => s | t => t end.

Section Process.
Variable G : genv.
Notation q := (quote (g_print G)).

(** generator.go:137-163 generateValidatorCode, called through generateCode.  [rnames]: the Go
    variable of each reference *)
Definition validator_code (cm : string) (rnames : list (string * string)) (refs : list (string * constr)) (v : validator) : gm string :=
  let head := "jsval.New()." +++ nl +++ "SetName(" +++ q (v_name v) +++ ")" +++
              when (negb (String.eqb cm "")) ("." +++ nl +++ "SetConstraintMap(" +++ cm +++ ")") in
  post (fun w =>
    let '(order, w1) := shuffle w (keys refs) in
    match find (fun r => mem r (v_same v)) order with
    | Some r => GOk (head +++ "." +++ nl +++ "SetRoot(" +++ match sget r rnames with Some x => x | None => "" end +++ ")", w1)
    | None => (get x <- emit G cm (v_root v);
               gret (head +++ "." +++ nl +++ "SetRoot(" +++ nl +++ x +++ "," +++ nl +++ ")" +++ nl)) w1
    end).

Definition ref_var (i : nat) : string := "R" +++ dec_Z (Z.of_nat i).

(** the text before format.Source *)
Definition process_text (vs : list validator) : gm string := fun w =>
  let refs := merge_refs vs in
  let vs1 := name_all vs in
  let vdecls := join "" (map (fun n => nl +++ "var " +++ n +++ " *jsval.JSVal") (sort_s (map v_name vs1))) in
  let cm := match refs with [] => ""%string | _ => "M"%string end in
  (get rnames <- sorted_names refs;
   let vars := combine rnames (map ref_var (seq 0 (List.length rnames))) in
   let rdecls := match refs with
                 | [] => ""%string
                 | _ => nl +++ "var M *jsval.ConstraintMap" +++
                        join "" (map (fun e => nl +++ "var " +++ snd e +++ " jsval.Constraint") vars)
                 end in
   get rcode <- match refs with
                | [] => gret ""%string
                | _ =>
                    get body <- gconcat (map (fun e =>
                        get x <- match sget (fst e) refs with Some c => emit G cm c | None => gret ""%string end;
                        gret (nl +++ snd e +++ " = " +++ strip x)) vars);
                    gret (nl +++ "M = &jsval.ConstraintMap{}" +++ body +++
                          join "" (map (fun e => nl +++ "M.SetReference(" +++ q (fst e) +++ ", " +++ snd e +++ ")") vars))
                end;
   get vcode <- gconcat (map (fun v => get x <- validator_code cm vars refs v; gret (nl +++ v_name v +++ " = " +++ x)) (sort_v vs1));
   gret (vdecls +++ rdecls +++ nl +++ "func init() {" +++ rcode +++ vcode +++ nl +++ "}")) w.

(** generator.go:27-118.  format.Source fails on text that is not Go; otherwise it changes
    only the layout, which is not modelled: the result stands for the formatted text. *)
Definition process (vs : list validator) : gm string :=
  get s <- process_text vs;
  match parse_go s with
  | Some _ => gret s
  | None => gfail "syntax error"
  end.
End Process.
