(** Meaning of the Go code of generator.go: an interpreter, over the syntax of SrcSyntax.v.
    Nothing here is in /repo: this is the meaning of the language and of the library calls
    these functions make.  Every construct or call without a meaning here ends in [QStk]
    ("stuck"); the theorems about the code show in particular that this does not happen.

    Simplifications:
    - constraints are read-only trees, as in Constraint.v; what identity adds is kept where
      the code asks for it ([QRoot], [QRefC]), which is never of a parameter: a comparison of two
      constraints without it is stuck;
    - the buffers (bytes.Buffer, and the io.Writer Process gets) are numbered; those a function
      makes are forgotten when it returns, as none is stored or returned;
    - the struct genctx and the maps and slices of local variables are kept by value: none is
      changed after it has been stored elsewhere or its address has been taken;
    - "range" over a map runs over a permutation of its entries;
    - sort.Sort leaves validators of equal name in the order insertion sort leaves them;
    - format.Source changes nothing, and fails on text that is no Go file (as in Generator.v). *)
From Verif Require Import Base GoFloat GoValue Maybe Formats Constraint StructInfo Validate Builder GoText GoLang Generator SrcSyntax.
Open Scope string_scope.
Open Scope list_scope.
Open Scope Z_scope.

(** ** Values *)
Inductive qv :=
| QNil
| QBool (b : bool) | QInt (z : Z) | QFloat (f : f64) | QStr (s : string)   (* strings and []byte *)
| QErr (m : string)                       (* an error with this text *)
| QKind (k : string)                      (* reflect.Kind *)
| QGo (g : gval)                          (* interface{} *)
| QRv (g : gval)                          (* reflect.ValueOf of it *)
| QC (c : constr)                         (* a constraint *)
| QRefC (name : string) (c : constr)      (* the constraint a validator keeps under this name *)
| QRoot (same : list string) (c : constr) (* the root of a validator, and the names it is kept under *)
| QVal (i : nat)                          (* a validator *)
| QDv (d : option gval)                   (* defaultValue *)
| QEnum (l : list gval)                   (* *EnumConstraint, not nil *)
| QRx (src : string)                      (* *regexp.Regexp, not nil *)
| QStrs (l : list string) | QCs (l : list constr) | QGos (l : list gval) | QVals (l : list nat)   (* slices *)
| QMap (m : list (string * qv))           (* maps with string keys *)
| QPats (m : list ((nat * string) * constr))   (* map[*regexp.Regexp]Constraint *)
| QRec (fs : list (string * qv))          (* genctx or a pointer to one *)
| QBuf (a : nat)                          (* a buffer or a pointer to one *)
| QStderr.

Definition qscope := list (string * qv).
Record qst := { qvars : list qscope; qbufs : list string; qvals : list validator; qord : orc }.
Definition q_vars (e : list qscope) (s : qst) : qst := {| qvars := e; qbufs := qbufs s; qvals := qvals s; qord := qord s |}.
Definition q_bufs (b : list string) (s : qst) : qst := {| qvars := qvars s; qbufs := b; qvals := qvals s; qord := qord s |}.
Definition q_vals (v : list validator) (s : qst) : qst := {| qvars := qvars s; qbufs := qbufs s; qvals := v; qord := qord s |}.
Definition q_ord (w : orc) (s : qst) : qst := {| qvars := qvars s; qbufs := qbufs s; qvals := qvals s; qord := w |}.

(** result of an expression: a value, a panic, fuel used up, or no meaning *)
Inductive qev (A : Type) := QOk (a : A) (s : qst) | QPn (m : string) | QOf | QStk (m : string).
Arguments QOk {A}. Arguments QPn {A}. Arguments QOf {A}. Arguments QStk {A}.
Definition qthen {A B} (x : qev A) (f : A -> qst -> qev B) : qev B :=
  match x with QOk a s => f a s | QPn m => QPn m | QOf => QOf | QStk m => QStk m end.
Notation "'have' a , s <- x ; y" := (qthen x (fun a s => y)) (at level 61, a binder, s binder, x at next level, right associativity).
(** result of a statement *)
Inductive qoc := QNx (s : qst) | QRt (l : list qv) (s : qst) | QBk (s : qst) | QCt (s : qst) | QPnS (m : string) | QOfS | QStkS (m : string).
Definition qlift {A} (x : qev A) (f : A -> qst -> qoc) : qoc :=
  match x with QOk a s => f a s | QPn m => QPnS m | QOf => QOfS | QStk m => QStkS m end.
Notation "'gain' a , s <- x ; y" := (qlift x (fun a s => y)) (at level 61, a binder, s binder, x at next level, right associativity).

(** ** Variables *)
Fixpoint qsc_get (x : string) (l : qscope) : option qv :=
  match l with [] => None | (y, u) :: r => if String.eqb x y then Some u else qsc_get x r end.
Fixpoint qsc_set (x : string) (v : qv) (l : qscope) : option qscope :=
  match l with
  | [] => None
  | (y, u) :: r => if String.eqb x y then Some ((y, v) :: r) else option_map (cons (y, u)) (qsc_set x v r)
  end.
Fixpoint qget_var (x : string) (e : list qscope) : option qv :=
  match e with [] => None | l :: r => match qsc_get x l with Some v => Some v | None => qget_var x r end end.
Fixpoint qset_var (x : string) (v : qv) (e : list qscope) : option (list qscope) :=
  match e with
  | [] => None
  | l :: r => match qsc_set x v l with Some l' => Some (l' :: r) | None => option_map (cons l) (qset_var x v r) end
  end.
(** x := v: in the innermost scope, assigning if it is there already *)
Definition qdef_var (x : string) (v : qv) (e : list qscope) : list qscope :=
  if String.eqb x "_" then e
  else match e with
       | [] => [[(x, v)]]
       | l :: r => match qsc_set x v l with Some l' => l' :: r | None => ((x, v) :: l) :: r end
       end.
Definition qdef (x : string) (v : qv) (s : qst) : qst := q_vars (qdef_var x v (qvars s)) s.
Definition qset (x : string) (v : qv) (s : qst) : option qst := option_map (fun e => q_vars e s) (qset_var x v (qvars s)).
Definition qpush (s : qst) : qst := q_vars ([] :: qvars s) s.
Definition qpop (s : qst) : qst := q_vars (tl (qvars s)) s.
Fixpoint qamong (x : string) (l : list string) : bool := match l with [] => false | y :: r => if String.eqb x y then true else qamong x r end.
(** equality on unknown names; a name of its own lets proofs compute the other *)
Definition qsame (a b : string) : bool := String.eqb a b.
Fixpoint glue (a b : string) : string := match a with EmptyString => b | String c r => String c (glue r b) end.

(** ** Buffers *)
Definition bufat (a : nat) (b : list string) : option string := nth_error b a.
Fixpoint bufput (a : nat) (x : string) (b : list string) : list string :=
  match b, a with [], _ => [] | _ :: r, O => x :: r | y :: r, S a' => y :: bufput a' x r end.
Definition qwrite (a : nat) (x : string) (s : qst) : qev (list qv) :=
  match bufat a (qbufs s) with
  | Some t => QOk [] (q_bufs (bufput a (t +++ x) (qbufs s)) s)
  | None => QStk "buffer"
  end.

(** ** Selectors *)
Definition q_base (v : qv) : qv := match v with QRefC _ c | QRoot _ c => QC c | v => v end.
(** dynamic type of a constraint *)
Definition c_type (c : constr) : string :=
  match c with
  | CNil => "nil" | CEmpty => "emptyConstraint" | CNull => "nullConstraint" | CBool _ => "*BooleanConstraint"
  | CStr _ _ => "*StringConstraint" | CNum _ _ => "*NumberConstraint" | CInt _ _ => "*IntegerConstraint"
  | CArr _ => "*ArrayConstraint" | CObj _ => "*ObjectConstraint" | CEnum _ => "*EnumConstraint" | CAny _ => "*AnyConstraint"
  | CAll _ => "*AllConstraint" | COneOf _ => "*OneOfConstraint" | CNot _ => "*NotConstraint" | CRef _ => "*ReferenceConstraint"
  end.
Definition t_name (t : ty) : string := match t with TName x => x | TPtr (TName x) => glue "*" x | _ => "" end.
(** v.(t): the value if it has this type *)
Definition q_is (t : ty) (v : qv) : option qv :=
  match q_base v with
  | QC c => if String.eqb (c_type c) (t_name t) then Some (QC c) else None
  | QVal i => if String.eqb "*JSVal" (t_name t) then Some (QVal i) else None
  | QGo (GStr T s) => if String.eqb "string" (t_name t) then if qsame T "string" then Some (QStr s) else None else None
  | QGo (GFloat T false f) => if String.eqb "float64" (t_name t) then if qsame T "float64" then Some (QFloat f) else None else None
  | _ => None
  end.
Definition of_str {A} (f : A -> qv) (m : list (string * A)) : list (string * qv) := map (fun e => (fst e, f (snd e))) m.
(** fields of the constraints (interface.go) *)
Definition c_sel (c : constr) (f : string) : option qv :=
  match c with
  | CStr _ s =>
      if String.eqb f "maxLength" then Some (QInt (s_max s))
      else if String.eqb f "minLength" then Some (QInt (s_min s))
      else if String.eqb f "format" then Some (QStr (s_fmt s))
      else if String.eqb f "regexp" then Some (match s_rx s with Some x => QRx x | None => QNil end)
      else if String.eqb f "enums" then Some (match s_enum s with Some l => QEnum l | None => QNil end)
      else None
  | CNum _ m | CInt _ m =>
      if String.eqb f "applyMinimum" then Some (QBool (n_amin m))
      else if String.eqb f "applyMaximum" then Some (QBool (n_amax m))
      else if String.eqb f "minimum" then Some (QFloat (n_min m))
      else if String.eqb f "maximum" then Some (QFloat (n_max m))
      else if String.eqb f "exclusiveMinimum" then Some (QBool (n_xmin m))
      else if String.eqb f "exclusiveMaximum" then Some (QBool (n_xmax m))
      else None
  | CArr a =>
      if String.eqb f "items" then Some (QC (a_items a))
      else if String.eqb f "additionalItems" then Some (QC (a_add a))
      else if String.eqb f "positionalItems" then Some (QCs (a_pos a))
      else if String.eqb f "minItems" then Some (QInt (a_min a))
      else if String.eqb f "maxItems" then Some (QInt (a_max a))
      else if String.eqb f "uniqueItems" then Some (QBool (a_uniq a))
      else None
  | CObj o =>
      if String.eqb f "required" then Some (QMap (of_str (fun _ => QNil) (o_req o)))
      else if String.eqb f "additionalProperties" then Some (QC (o_add o))
      else if String.eqb f "properties" then Some (QMap (of_str QC (o_props o)))
      else if String.eqb f "patternProperties" then Some (QPats (o_pats o))
      else if String.eqb f "propdeps" then Some (QMap (of_str QStrs (o_propdeps o)))
      else None
  | CAny l | CAll l | COneOf l => if String.eqb f "constraints" then Some (QCs l) else None
  | CNot x => if String.eqb f "child" then Some (QC x) else None
  | CRef n => if String.eqb f "reference" then Some (QStr n) else None
  | _ => None
  end.
Definition c_default (c : constr) : option qv :=
  match c with
  | CBool d | CStr d _ | CNum d _ | CInt d _ => Some (QDv d)
  | CArr _ | CObj _ => Some (QDv None)    (* these have no Default method (interface.go:94-120) *)
  | _ => None
  end.
Definition q_sel (v : qv) (f : string) (s : qst) : qev (list qv) :=
  match v with
  | QC c => match c_sel c f with Some x => QOk [x] s | None => QStk f end
  | QDv d =>
      if String.eqb f "initialized" then QOk [QBool match d with Some _ => true | None => false end] s
      else if String.eqb f "value" then QOk [match d with Some g => QGo g | None => QNil end] s
      else QStk f
  | QEnum l => if String.eqb f "enums" then QOk [QGos l] s else QStk f
  | QRec fs => match qsc_get f fs with Some x => QOk [x] s | None => QStk f end
  | QVal i =>
      match nth_error (qvals s) i with
      | Some v =>
          if String.eqb f "Name" then QOk [QStr (v_name v)] s
          else if String.eqb f "root" then QOk [QRoot (v_same v) (v_root v)] s
          else if String.eqb f "refs" then QOk [QMap (map (fun e => (fst e, QRefC (fst e) (snd e))) (v_refs v))] s
          else QStk f
      | None => QStk "validator"
      end
  | _ => QStk f
  end.

(** ** Operators *)
Definition q_isnil (v : qv) : option bool :=
  match q_base v with
  | QNil | QC CNil => Some true
  | QC _ | QErr _ | QEnum _ | QRx _ => Some false
  | _ => None
  end.
Definition q_eq (a b : qv) : option bool :=
  match a, b with
  | v, QNil => q_isnil v
  | QStr x, QStr y => Some (qsame x y)
  | QInt x, QInt y => Some (x =? y)
  | QKind x, QKind y => Some (String.eqb x y)
  | QRoot l _, QRefC n _ => Some (mem n l)
  | _, _ => None
  end.
Definition q_binary (op : string) (a b : qv) (s : qst) : qev (list qv) :=
  if String.eqb op "==" then match q_eq a b with Some x => QOk [QBool x] s | None => QStk op end
  else if String.eqb op "!=" then match q_eq a b with Some x => QOk [QBool (negb x)] s | None => QStk op end
  else match a, b with
       | QInt x, QInt y =>
           if String.eqb op "-" then QOk [QInt (x - y)] s
           else if String.eqb op "<" then QOk [QBool (x <? y)] s
           else if String.eqb op ">" then QOk [QBool (y <? x)] s
           else QStk op
       | _, _ => QStk op
       end.
Definition q_unary (op : string) (v : qv) (s : qst) : qev (list qv) :=
  match v with
  | QInt (Zpos p) => if String.eqb op "-" then QOk [QInt (Zneg p)] s else QStk op
  | QBool b => if String.eqb op "!" then QOk [QBool (negb b)] s else QStk op
  | QBuf _ | QRec _ => if String.eqb op "&" then QOk [v] s else QStk op
  | _ => QStk op
  end.
Fixpoint drop_s (n : nat) (s : string) : string :=
  match n, s with S n', String _ r => drop_s n' r | _, _ => s end.
Definition q_from (v i : qv) (s : qst) : qev (list qv) :=
  match v, i with
  | QStr x, QInt z => if (0 <=? z) && (z <=? Z.of_nat (String.length x)) then QOk [QStr (drop_s (Z.to_nat z) x)] s else QPn "slice bounds out of range"
  | _, _ => QStk "slice"
  end.
Definition q_index (two : bool) (v k : qv) (s : qst) : qev (list qv) :=
  match v, k with
  | QMap m, QStr x =>
      match sget x m with
      | Some u => QOk (if two then [u; QBool true] else [u]) s
      | None => if two then QOk [QNil; QBool false] s else QStk "missing key"
      end
  | _, _ => QStk "index"
  end.
Definition q_len (v : qv) : option Z :=
  match v with
  | QStr x => Some (Z.of_nat (String.length x))
  | QStrs l => Some (Z.of_nat (List.length l))
  | QCs l => Some (Z.of_nat (List.length l))
  | QGos l => Some (Z.of_nat (List.length l))
  | QVals l => Some (Z.of_nat (List.length l))
  | QMap m => Some (Z.of_nat (List.length m))
  | QPats m => Some (Z.of_nat (List.length m))
  | _ => None
  end.

(** ** Library *)
Definition q_packages : list string := ["bytes"; "errors"; "fmt"; "format"; "os"; "reflect"; "sort"; "strconv"; "strings"; "unicode"].
Definition q_kind (x : string) : string :=
  if String.eqb x "String" then "string" else if String.eqb x "Int" then "int" else if String.eqb x "Int8" then "int8"
  else if String.eqb x "Int16" then "int16" else if String.eqb x "Int32" then "int32" else if String.eqb x "Int64" then "int64"
  else if String.eqb x "Uint" then "uint" else if String.eqb x "Uint8" then "uint8" else if String.eqb x "Uint16" then "uint16"
  else if String.eqb x "Uint32" then "uint32" else if String.eqb x "Uint64" then "uint64"
  else if String.eqb x "Float32" then "float32" else if String.eqb x "Float64" then "float64" else "".
Definition q_pkg_value (p x : string) : option qv :=
  if String.eqb p "reflect" then (if String.eqb (q_kind x) "" then None else Some (QKind (q_kind x)))
  else if String.eqb p "os" then (if String.eqb x "Stderr" then Some QStderr else None)
  else None.
Definition q_global (x : string) : option qv :=
  if String.eqb x "nil" then Some QNil
  else if String.eqb x "true" then Some (QBool true)
  else if String.eqb x "false" then Some (QBool false)
  else if String.eqb x "EmptyConstraint" then Some (QC CEmpty)     (* interface.go *)
  else None.

Section Lib.
Variable G : genv.
(** the verbs of fmt in use *)
Definition q_verb (c : ascii) (v : qv) : option string :=
  if Ascii.eqb c "s" then match v with QStr x => Some x | _ => None end
  else if Ascii.eqb c "d" then match v with QInt z => Some (dec_Z z) | _ => None end
  else if Ascii.eqb c "f" then
    match v with
    | QFloat f => Some (fmt_f f)
    | QGo (GFloat _ is32 f) => Some (fmt_f (rv_float is32 f))
    | QGo g => Some (g_bad G "f" g)
    | _ => None
    end
  else if Ascii.eqb c "t" then
    match v with
    | QGo (GBool _ b) => Some (if b then "true" else "false")
    | QGo g => Some (g_bad G "t" g)
    | _ => None
    end
  else None.
Definition add_char (c : ascii) (o : option string) : option string := match o with Some x => Some (String c x) | None => None end.
Definition add_text (a o : option string) : option string := match a, o with Some x, Some y => Some (x +++ y) | _, _ => None end.
(** a format with arguments; %#v is left to [g_bad] *)
Fixpoint q_format (f : string) (args : list qv) {struct f} : option string :=
  match f with
  | EmptyString => match args with [] => Some EmptyString | _ => None end
  | String c r =>
      if Ascii.eqb c "%" then
        match r, args with
        | String "#" (String "v" r'), QGo g :: args' => add_text (Some (g_bad G "#v" g)) (q_format r' args')
        | String v r', x :: args' => add_text (q_verb v x) (q_format r' args')
        | _, _ => None
        end
      else add_char c (q_format r args)
  end.
(** Fprintf with a format only *)
Definition q_sprintf (l : list qv) : option string :=
  match l with
  | [QStr f] => Some (fprintf0 f)
  | QStr f :: args => q_format f args
  | _ => None
  end.
Definition q_space (r : Z) : bool :=
  existsb (Z.eqb r) [9; 10; 11; 12; 13; 32; 133; 160; 5760; 8232; 8233; 8239; 8287; 12288] || ((8192 <=? r) && (r <=? 8202)).
Definition q_lib (p f : string) (l : list qv) (s : qst) : qev (list qv) :=
  if String.eqb p "fmt" then
    if String.eqb f "Fprintf" then
      match l with
      | QBuf a :: l => match q_sprintf l with Some x => qwrite a x s | None => QStk "format" end
      | _ => QStk f
      end
    else if String.eqb f "Fprint" then match l with [QBuf a; QStr x] => qwrite a x s | _ => QStk f end
    else if String.eqb f "Sprintf" then match q_sprintf l with Some x => QOk [QStr x] s | None => QStk "format" end
    else if String.eqb f "Errorf" then match q_sprintf l with Some x => QOk [QErr x] s | None => QStk "format" end
    else QStk f
  else if String.eqb p "errors" then match l with [QStr m] => QOk [QErr m] s | _ => QStk f end
  else if String.eqb p "strconv" then match l with [QStr x] => if String.eqb f "Quote" then QOk [QStr (quote (g_print G) x)] s else QStk f | _ => QStk f end
  else if String.eqb p "strings" then
    match l with [QStr x; QStr y] => if String.eqb f "TrimSuffix" then QOk [QStr (trim_suffix y x)] s else QStk f | _ => QStk f end
  else if String.eqb p "reflect" then match l with [QGo g] => if String.eqb f "ValueOf" then QOk [QRv g] s else QStk f | _ => QStk f end
  else if String.eqb p "unicode" then match l with [QInt z] => if String.eqb f "IsSpace" then QOk [QBool (q_space z)] s else QStk f | _ => QStk f end
  else if String.eqb p "format" then
    match l with
    | [QStr x] => if String.eqb f "Source" then match parse_go x with Some _ => QOk [QStr x; QNil] s | None => QOk [QNil; QErr "syntax error"] s end else QStk f
    | _ => QStk f
    end
  else QStk p.
(** sort.Strings(x) and sort.Sort(JSValSlice(x)) reorder the variable x *)
Fixpoint insert_i (vs : list validator) (i : nat) (l : list nat) : list nat :=
  let name j := match nth_error vs j with Some v => v_name v | None => EmptyString end in
  match l with
  | [] => [i]
  | j :: r => match String.compare (name i) (name j) with Gt => j :: insert_i vs i r | _ => i :: l end
  end.
Definition sort_i (vs : list validator) (l : list nat) : list nat := fold_right (insert_i vs) [] l.
Definition q_sort (x : string) (s : qst) : qev (list qv) :=
  match qget_var x (qvars s) with
  | Some (QStrs l) => match qset x (QStrs (sort_s l)) s with Some s => QOk [] s | None => QStk x end
  | Some (QVals l) => match qset x (QVals (sort_i (qvals s) l)) s with Some s => QOk [] s | None => QStk x end
  | _ => QStk "sort"
  end.
Definition rv_panic (m : string) : string := "reflect: call of reflect.Value." +++ m.
Definition rv_kind (g : gval) : string := kind (valueOf g).
Definition rv_method (g : gval) (m : string) (s : qst) : qev (list qv) :=
  if String.eqb m "Kind" then QOk [QKind (rv_kind g)] s
  else if String.eqb m "String" then match g with GStr _ x => QOk [QStr x] s | _ => QStk m end
  else if String.eqb m "Int" then match g with GInt _ _ z => QOk [QInt z] s | _ => QPn (rv_panic m) end
  else if String.eqb m "Float" then match g with GFloat _ is32 f => QOk [QFloat (rv_float is32 f)] s | _ => QPn (rv_panic m) end
  else if String.eqb m "Interface" then match g with GNil => QPn (rv_panic m) | _ => QOk [QGo g] s end
  else QStk m.

Definition q_zero (t : ty) : option qv :=
  match t with TName "string" => Some (QStr "") | TMap _ _ => Some (QMap []) | _ => None end.
Definition q_container (t : ty) : option qv :=
  match t with TSlice (TName "string") => Some (QStrs []) | TMap (TName "string") _ => Some (QMap []) | _ => None end.
(** the fields of genctx, with the values given or zero ones *)
Variable ctx_fields : list (string * ty).
Fixpoint q_fields (fs : list (string * ty)) (l : list (option string * qv)) : option (list (string * qv)) :=
  match fs with
  | [] => Some []
  | (f, t) :: r =>
      let v := match (fix look l := match l with (Some g, v) :: r => if String.eqb f g then Some v else look r | (None, _) :: r => look r | [] => None end) l with
               | Some v => Some v
               | None => q_zero t
               end in
      match v, q_fields r l with Some v, Some fs => Some ((f, v) :: fs) | _, _ => None end
  end.
Definition q_composite (t : ty) (l : list (option string * qv)) (s : qst) : qev (list qv) :=
  match t, l with
  | TQual "bytes" "Buffer", [] => QOk [QBuf (List.length (qbufs s))] (q_bufs (qbufs s ++ [EmptyString]) s)
  | TName "genctx", l => match q_fields ctx_fields l with Some fs => QOk [QRec fs] s | None => QStk "genctx" end
  | t, [] => match q_container t with Some v => QOk [v] s | None => QStk "literal" end
  | _, _ => QStk "literal"
  end.
End Lib.

(** ** Expressions *)
Definition q_the (x : qev (list qv)) : qev qv :=
  match x with QOk [v] s => QOk v s | QOk _ _ => QStk "values" | QPn m => QPn m | QOf => QOf | QStk m => QStk m end.
Section Program.
  Variable G : genv.
  Variable ctx_fields : list (string * ty).
  Variable call : string -> list qv -> qst -> qev (list qv).

  Definition q_builtin (f : string) (l : list qv) (s : qst) : qev (list qv) :=
    if String.eqb f "len" then match l with [v] => match q_len v with Some z => QOk [QInt z] s | None => QStk f end | _ => QStk f end
    else if String.eqb f "append" then match l with [QStrs l; QStr x] => QOk [QStrs (l ++ [x])%list] s | _ => QStk f end
    else if String.eqb f "int" then match l with [QFloat x] => QOk [QInt (f64_to_int64 x)] s | _ => QStk f end
    else if String.eqb f "string" then match l with [QStr x] => QOk [QStr x] s | _ => QStk f end
    else call f l s.
  Definition q_method (v : qv) (m : string) (l : list qv) (s : qst) : qev (list qv) :=
    match v, l with
    | QC c, [] =>
        match c_default c with
        | Some d => if qamong m ["HasDefault"; "DefaultValue"] then call (glue "defaultValue." m) [d] s else QStk m
        | None => QStk m
        end
    | QRv g, [] => rv_method g m s
    | QRx x, [] => if String.eqb m "String" then QOk [QStr x] s else QStk m
    | QBuf a, [] => if qamong m ["String"; "Bytes"] then match bufat a (qbufs s) with Some t => QOk [QStr t] s | None => QStk "buffer" end else QStk m
    | QBuf a, [QStr x] => if String.eqb m "Write" then qwrite a x s else QStk m
    | QStderr, [QStr _] => if String.eqb m "Write" then QOk [] s else QStk m
    | _, _ => QStk m
    end.
  Definition q_var (x : string) (s : qst) : qev (list qv) :=
    match qget_var x (qvars s) with
    | Some v => QOk [v] s
    | None => match q_global x with Some v => QOk [v] s | None => QStk x end
    end.
  Definition q_args (eval : expr -> qst -> qev (list qv)) :=
    fix go (l : list expr) (s : qst) : qev (list qv) :=
      match l with
      | [] => QOk [] s
      | e :: r => have v, s <- q_the (eval e s); have vs, s <- go r s; QOk (v :: vs) s
      end.
  Definition q_elems (eval : expr -> qst -> qev (list qv)) :=
    fix go (l : list (option string * expr)) (s : qst) : qev (list (option string * qv)) :=
      match l with
      | [] => QOk [] s
      | (f, e) :: r => have v, s <- q_the (eval e s); have vs, s <- go r s; QOk ((f, v) :: vs) s
      end.
  Definition q_asserted (two : bool) (t : ty) (v : qv) (s : qst) : qev (list qv) :=
    match q_is t v with
    | Some u => if two then QStk "assertion" else QOk [u] s
    | None => if two then QStk "assertion" else QPn "interface conversion"
    end.

  Fixpoint qeval (two : bool) (e : expr) (s : qst) {struct e} : qev (list qv) :=
    match e with
    | EId x => q_var x s
    | EStr t => QOk [QStr t] s
    | ENum z => QOk [QInt z] s
    | ESel a x =>
        match a with
        | EId p =>
            if qamong p q_packages then match q_pkg_value p x with Some v => QOk [v] s | None => QStk x end
            else have v, s <- q_the (q_var p s); q_sel v x s
        | _ => have v, s <- q_the (qeval false a s); q_sel v x s
        end
    | EIdx a i =>
        have v, s <- q_the (qeval false a s);
        have k, s <- q_the (qeval false i s);
        q_index two v k s
    | ESub a (Some i) None =>
        have v, s <- q_the (qeval false a s);
        have k, s <- q_the (qeval false i s);
        q_from v k s
    | EUn op a => have v, s <- q_the (qeval false a s); q_unary op v s
    | EBin op a b =>
        have v, s <- q_the (qeval false a s);
        have u, s <- q_the (qeval false b s);
        q_binary op v u s
    | EAs a (Some t) => have v, s <- q_the (qeval false a s); q_asserted two t v s
    | ELit t l => have vs, s <- q_elems (qeval false) l s; q_composite ctx_fields t vs s
    | ECall f l =>
        match f, l with
        | EId "make", EType t :: _ => match q_container t with Some v => QOk [v] s | None => QStk "make" end
        | ESel (EId "sort") "Strings", [EId x] => q_sort x s
        | ESel (EId "sort") "Sort", [ECall (EId "JSValSlice") [EId x]] => q_sort x s
        | EId x, _ => have vs, s <- q_args (qeval false) l s; q_builtin x vs s
        | ESel (EId p) m, _ =>
            if qamong p q_packages then have vs, s <- q_args (qeval false) l s; q_lib G p m vs s
            else have v, s <- q_the (q_var p s); have vs, s <- q_args (qeval false) l s; q_method v m vs s
        | ESel a m, _ => have v, s <- q_the (qeval false a s); have vs, s <- q_args (qeval false) l s; q_method v m vs s
        | _, _ => QStk "call"
        end
    | _ => QStk "expression"
    end.

  (** ** Statements *)
  Definition q_set_name (def : bool) (x : string) (v : qv) (s : qst) : qoc :=
    if String.eqb x "_" then QNx s
    else if def then QNx (qdef x v s)
    else match qset x v s with Some s => QNx s | None => QStkS x end.
  (** x.f = v *)
  Definition q_set_field (x f : string) (v : qv) (s : qst) : qoc :=
    match qget_var x (qvars s) with
    | Some (QRec fs) =>
        match qsc_set f v fs with
        | Some fs => match qset x (QRec fs) s with Some s => QNx s | None => QStkS x end
        | None => QStkS f
        end
    | Some (QVal i) =>
        match nth_error (qvals s) i, v with
        | Some u, QStr n =>
            if String.eqb f "Name"
            then QNx (q_vals (firstn i (qvals s)
                   ++ {| v_name := n; v_root := v_root u; v_refs := v_refs u; v_same := v_same u |} :: skipn (S i) (qvals s))%list s)
            else QStkS f
        | _, _ => QStkS "validator"
        end
    | _ => QStkS x
    end.
  (** m[k] = v for the map m *)
  Definition q_mput (k v m : qv) : option qv :=
    match k, m with QStr x, QMap l => Some (QMap (sset x v l)) | _, _ => None end.
  Definition q_assign1 (def : bool) (lhs : expr) (v : qv) (s : qst) : qoc :=
    match lhs with
    | EId x => q_set_name def x v s
    | ESel (EId x) f => q_set_field x f v s
    | EIdx (EId x) i =>
        gain k, s <- q_the (qeval false i s);
        match qget_var x (qvars s) with
        | Some m => match q_mput k v m with Some m => match qset x m s with Some s => QNx s | None => QStkS x end | None => QStkS x end
        | None => QStkS x
        end
    | EIdx (ESel (EId x) f) i =>
        gain k, s <- q_the (qeval false i s);
        match qget_var x (qvars s) with
        | Some (QRec fs) =>
            match qsc_get f fs with
            | Some m => match q_mput k v m with Some m => q_set_field x f m s | None => QStkS x end
            | None => QStkS f
            end
        | _ => QStkS x
        end
    | _ => QStkS "assignment"
    end.
  Definition qends (o : qoc) (k : qst -> qoc) : qoc := match o with QNx s => k s | o => o end.
  Fixpoint q_assign_all (def : bool) (lhs : list expr) (vs : list qv) (s : qst) : qoc :=
    match lhs, vs with
    | [], [] => QNx s
    | e :: r, v :: vs' => qends (q_assign1 def e v s) (q_assign_all def r vs')
    | _, _ => QStkS "assignment"
    end.
  Definition q_assign (lhs : list expr) (op : string) (rhs : list expr) (s : qst) : qoc :=
    let def := String.eqb op ":=" in
    if negb (qamong op [":="; "="]) then QStkS op
    else match lhs, rhs with
    | [l], [r] => gain v, s <- q_the (qeval false r s); q_assign1 def l v s
    | [_; _], [r] => gain vs, s <- qeval true r s; q_assign_all def lhs vs s
    | _, _ => QStkS "assignment"
    end.

  Fixpoint q_indexed (i : Z) (l : list qv) : list (qv * qv) :=
    match l with [] => [] | v :: r => (QInt i, v) :: q_indexed (i + 1) r end.
  (** index and rune of the runes of a string *)
  Fixpoint q_runes (i : Z) (skip : nat) (x : string) : list (qv * qv) :=
    match x with
    | EmptyString => []
    | String c r =>
        match skip with
        | S k => q_runes (i + 1) k r
        | O => let '(rn, k) := decode1 c r in (QInt i, QInt rn) :: q_runes (i + 1) k r
        end
    end.
  Definition q_entry (e : string * qv) : qv * qv := (QStr (fst e), snd e).
  Definition q_pat (e : (nat * string) * constr) : qv * qv := (QRx (snd (fst e)), QC (snd e)).
  (** the entries a range statement runs over *)
  Definition q_items (v : qv) (s : qst) : option (list (qv * qv) * qst) :=
    match v with
    | QStr x => Some (q_runes 0 0 x, s)
    | QStrs l => Some (q_indexed 0 (map QStr l), s)
    | QCs l => Some (q_indexed 0 (map QC l), s)
    | QGos l => Some (q_indexed 0 (map QGo l), s)
    | QVals l => Some (q_indexed 0 (map QVal l), s)
    | QMap m => let '(l, w) := shuffle (qord s) m in Some (map q_entry l, q_ord w s)
    | QPats m => let '(l, w) := shuffle (qord s) m in Some (map q_pat l, q_ord w s)
    | _ => None
    end.
  Definition q_bind (k v : option string) (a b : qv) (s : qst) : qst :=
    let s := match k with Some x => qdef x a s | None => s end in
    match v with Some x => qdef x b s | None => s end.

  Definition qrun (exec : stmt -> qst -> qoc) :=
    fix go (l : list stmt) (s : qst) : qoc :=
      match l with
      | [] => QNx s
      | x :: r => qends (exec x s) (go r)
      end.
  (** a block has its own scope *)
  Definition qleave (o : qoc) : qoc :=
    match o with QNx s => QNx (qpop s) | QBk s => QBk (qpop s) | QCt s => QCt (qpop s) | o => o end.
  Definition qblock (exec : stmt -> qst -> qoc) (l : list stmt) (s : qst) : qoc := qleave (qrun exec l (qpush s)).
  Definition qround (body : qst -> qoc) (k v : option string) (a b : qv) (s : qst) : qoc :=
    qleave (body (q_bind k v a b (qpush s))).
  Fixpoint qrounds (body : qst -> qoc) (k v : option string) (l : list (qv * qv)) (s : qst) : qoc :=
    match l with
    | [] => QNx s
    | (a, b) :: r =>
        match qround body k v a b s with
        | QNx s | QCt s => qrounds body k v r s
        | QBk s => QNx s
        | o => o
        end
    end.

  (** the clause of a switch whose list has the value *)
  Definition q_matches (tag : qv) :=
    fix go (l : list expr) (s : qst) : qev bool :=
      match l with
      | [] => QOk false s
      | e :: r =>
          have v, s <- q_the (qeval false e s);
          match q_eq tag v with Some true => QOk true s | Some false => go r s | None => QStk "case" end
      end.
  Definition q_pick (tag : qv) :=
    fix go (cls : list (option (list expr) * list stmt)) (s : qst) : qev (option nat) :=
      match cls with
      | [] => QOk None s
      | (None, _) :: r => have o, s <- go r s; QOk (option_map S o) s
      | (Some l, _) :: r =>
          have b, s <- q_matches tag l s;
          if b : bool then QOk (Some O) s else have o, s <- go r s; QOk (option_map S o) s
      end.
  Fixpoint q_default {A} (cls : list (option A * list stmt)) : option nat :=
    match cls with [] => None | (None, _) :: _ => Some O | _ :: r => option_map S (q_default r) end.
  Definition q_nobreak (o : qoc) : qoc := match o with QBk s => QNx s | o => o end.
  Definition q_clause {A} (go_in : list stmt -> qst -> qoc) :=
    fix go (cls : list (option A * list stmt)) (o : option nat) (s : qst) : qoc :=
      match cls, o with
      | (_, b) :: _, Some O => q_nobreak (go_in b s)
      | _ :: r, Some (S i) => go r (Some i) s
      | _, _ => QNx s
      end.
  Fixpoint q_tpick (v : qv) (cls : list (option (list ty) * list stmt)) : option nat :=
    match cls with
    | [] => None
    | (Some l, _) :: r =>
        if (fix any l := match l with [] => false | t :: r => match q_is t v with Some _ => true | None => any r end end) l
        then Some O else option_map S (q_tpick v r)
    | (None, _) :: r => option_map S (q_tpick v r)
    end.
  Definition q_opt (exec : stmt -> qst -> qoc) (o : option stmt) (s : qst) : qoc :=
    match o with None => QNx s | Some x => exec x s end.
  Definition q_cond (a b : qst -> qoc) (v : qv) (s : qst) : qoc :=
    match v with QBool c => if c then a s else b s | _ => QStkS "condition" end.
  Definition q_over (body : qst -> qoc) (k v : option string) (x : qv) (s : qst) : qoc :=
    match q_items x s with Some (l, s) => qrounds body k v l s | None => QStkS "range" end.

  Fixpoint qexec (x : stmt) (s : qst) {struct x} : qoc :=
    match x with
    | SExpr e => gain _, s <- qeval false e s; QNx s
    | SAssign lhs op rhs => q_assign lhs op rhs s
    | SIf i c a b =>
        qleave (qends (q_opt qexec i (qpush s)) (fun s =>
          qlift (q_the (qeval false c s)) (q_cond (qblock qexec a) (qblock qexec b))))
    | SRange line k v def e body =>
        match def, k, v with
        | false, Some _, _ | false, _, Some _ => QStkS "range"
        | _, _, _ => qlift (q_the (qeval false e s)) (q_over (qrun qexec body) k v)
        end
    | SSwitch (Some e) cls =>
        gain t, s <- q_the (qeval false e s);
        gain o, s <- q_pick t cls s;
        q_clause (qblock qexec) cls (match o with Some i => Some i | None => q_default cls end) s
    | STSwitch e cls =>
        gain v, s <- q_the (qeval false e s);
        q_clause (qblock qexec) cls (match q_tpick v cls with Some i => Some i | None => q_default cls end) s
    | SReturn [e] => gain vs, s <- qeval false e s; QRt vs s
    | SBreak => QBk s
    | SContinue => QCt s
    | _ => QStkS "statement"
    end.
End Program.

(** ** Functions *)
Fixpoint q_params (xs : list string) (ts : list ty) (args : list qv) : option qscope :=
  match xs, ts, args with
  | [], [], [] => Some []
  | [x], [TDots _], [v] => Some [(x, v)]          (* called with the slice *)
  | x :: xs, _ :: ts, v :: args => option_map (cons (x, q_base v)) (q_params xs ts args)
  | _, _, _ => None
  end.
Definition q_frame (f : func) (args : list qv) : option qscope :=
  match fn_recv f, args with
  | Some (x, _), r :: l => option_map (cons (x, r)) (q_params (fn_params f) (fn_types f) l)
  | Some _, [] => None
  | None, l => q_params (fn_params f) (fn_types f) l
  end.
(** back to the variables of the caller and the buffers there were *)
Definition q_called (e : list qscope) (n : nat) (o : qoc) : qev (list qv) :=
  match o with
  | QRt vs s' => QOk vs (q_bufs (firstn n (qbufs s')) (q_vars e s'))
  | QNx s' => QOk [] (q_bufs (firstn n (qbufs s')) (q_vars e s'))
  | QPnS m => QPn m
  | QOfS => QOf
  | QStkS m => QStk m
  | QBk _ | QCt _ => QStk "break"
  end.
Record qctx := { qc_fns : string -> option func; qc_fields : list (string * ty); qc_env : genv }.
(** calls nested at most [k] deep *)
Fixpoint qcall (cx : qctx) (k : nat) (f : string) (args : list qv) (s : qst) : qev (list qv) :=
  match k with
  | O => QOf
  | S k' =>
      match qc_fns cx f with
      | Some g =>
          match q_frame g args with
          | Some fr => q_called (qvars s) (List.length (qbufs s))
                         (qrun (qexec (qc_env cx) (qc_fields cx) (qcall cx k')) (fn_body g) (q_vars [fr] s))
          | None => QStk "arguments"
          end
      | None => QStk ("function " +++ f)
      end
  end.
