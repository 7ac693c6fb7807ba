(** Meaning of Go code that allocates and assigns through pointers: an interpreter, over the
    syntax of SrcSyntax.v, for the constructors and setters of the constraints and for the
    builder package.  Nothing here is in /repo: this is the meaning of the language and of
    the library calls these functions make.

    Structs made with &T{..} and maps are cells of a store; a pointer is the address of a
    cell and a path of field names in it (fields that are structs are part of the cell).
    Every construct or call without a meaning here ends in [BStk] ("stuck"); the theorems
    about the code show in particular that this does not happen.

    Simplifications:
    - pdebug is disabled, locks do nothing (one goroutine), only unlocking is deferred;
    - schemas (github.com/lestrrat-go/jsschema) are read-only values, as in Builder.v;
      [Extract], sort.Sort and copy replace the value of the variable they are applied to;
    - slices are kept by value: the code assigns to elements of a slice, sorts it or copies
      into it only before it is stored anywhere else;
    - "range" over a map of a schema runs over a permutation of its entries, over a map in
      the store over the keys there, each key present at the start and not deleted once,
      those added meanwhile possibly (the Go specification). *)
From Verif Require Import Base GoFloat GoValue Maybe Formats Constraint StructInfo Validate Builder SrcSyntax.
Open Scope string_scope.
Open Scope list_scope.
Open Scope Z_scope.

(** ** Declarations of struct types *)
(** a field: its name, its type, embedded or not *)
Record sfield_ := { sf_name : string; sf_type : ty; sf_emb : bool }.
Definition type_base (t : ty) : string :=
  match t with TName x | TQual _ x | TPtr (TName x) | TPtr (TQual _ x) => x | _ => "" end.
(** what is left of a field (the result of a function type) *)
Fixpoint p_rest (ts : list tok) : option (unit * list tok) :=
  match ts with
  | (KOp ";", _) :: _ | (KOp "}", _) :: _ => Some (tt, ts)
  | _ :: r => p_rest r
  | [] => None
  end.
(** the fields up to the closing brace *)
Fixpoint p_fields (n : nat) : P (list sfield_) :=
  match n with
  | O => fail
  | S n' =>
      c <- maybe_op "}";;
      if c then SrcSyntax.ret []
      else
        sc <- maybe_op ";";;
        if sc then p_fields n'
        else
          t <- p_type n;;
          o <- peek;;
          f <- (if is_tok (KOp ";") o || is_tok (KOp "}") o
                then SrcSyntax.ret {| sf_name := type_base t; sf_type := t; sf_emb := true |}
                else u <- p_type n;;
                     _ <- p_rest;;
                     match t with TName x => SrcSyntax.ret {| sf_name := x; sf_type := u; sf_emb := false |} | _ => fail end);;
          l <- p_fields n';;
          SrcSyntax.ret (f :: l)
  end.
(** the struct declarations among the tokens *)
Fixpoint p_structs (n : nat) (ts : list tok) : list (string * list sfield_) :=
  match ts with
  | (KKw "type", _) :: (((KId x, _) :: (KKw "struct", _) :: (KOp "{", _) :: r) as r0) =>
      match p_fields n r with
      | Some (l, _) => (x, l) :: p_structs n r0
      | None => p_structs n r0
      end
  | _ :: r => p_structs n r
  | [] => []
  end.
(** lines of a block comment that takes whole lines are dropped *)
Fixpoint closes (s : string) : bool :=
  match s with
  | EmptyString => false
  | String c r => (Ascii.eqb c "*" && String.eqb r "/") || closes r
  end.
Definition opens (s : string) : bool := match s with String a (String b _) => Ascii.eqb a "/" && Ascii.eqb b "*" | _ => false end.
Fixpoint uncomment (inside : bool) (ls : list string) : list string :=
  match ls with
  | [] => []
  | l :: r =>
      if inside || opens l then "" :: uncomment (negb (closes l)) r else l :: uncomment false r
  end.
Definition structs_of (ls : list string) : list (string * list sfield_) :=
  match lex 1 (uncomment false ls) with Some ts => p_structs 200 ts | None => [] end.

(** ** Values *)
Inductive bv :=
| BNil
| BBool (b : bool) | BInt (z : Z) | BFloat (f : f64) | BStr (s : string)
| BUnit                              (* struct{}{}, locks *)
| BMsg (m : string)                  (* an error with this text *)
| BKind (k : string)                 (* reflect.Kind *)
| BIf (g : gval)                     (* interface{} *)
| BRv (g : gval)                     (* reflect.ValueOf of it *)
| BTp (t : ptype)                    (* schema.PrimitiveType *)
| BSch (c : scfg)                    (* *schema.Schema, not nil *)
| BONum (o : option f64) | BOInt (o : option Z) | BOBool (o : option bool)   (* schema.Number, Integer, Bool *)
| BItems (tuple : bool) (l : list schema)      (* *schema.ItemSpec *)
| BAdd (s : schema)                  (* *schema.AdditionalItems, *schema.AdditionalProperties *)
| BDeps (c : scfg)                   (* schema.DependencyMap *)
| BPat (src : string)                (* *regexp.Regexp *)
| BRx (k : nat * string)             (* the same, as a map key *)
| BThing (t : thing)                 (* what a reference resolves to *)
| BResolver
| BList (l : list bv)                (* slice *)
| BMapI (l : list (bv * bv))         (* contents of a map; by itself: a map of a schema *)
| BStruct (T : string) (fs : list (string * bv))
| BPtr (a : nat) (p : list string)
| BMap (a : nat)                     (* a map: the cell with its contents *)
| BDots (v : bv).                    (* an argument l... *)

(** a variable: its value, or, if its address is taken, the cell it is kept in *)
Inductive slot := Vl (v : bv) | Bx (a : nat).
Definition bscope := list (string * slot).
Record bst := { vars : list bscope; heap : list bv; bord : orc }.
Definition with_vars (e : list bscope) (s : bst) : bst := {| vars := e; heap := heap s; bord := bord s |}.
Definition with_heap (h : list bv) (s : bst) : bst := {| vars := vars s; heap := h; bord := bord s |}.
Definition with_bord (w : orc) (s : bst) : bst := {| vars := vars s; heap := heap s; bord := w |}.

(** result of an expression: values, a panic, fuel used up, or no meaning *)
Inductive bev (A : Type) := BOk (a : A) (s : bst) | BPn (m : string) | BOf | BStk (m : string).
Arguments BOk {A}. Arguments BPn {A}. Arguments BOf {A}. Arguments BStk {A}.
Definition bthen {A B} (x : bev A) (f : A -> bst -> bev B) : bev B :=
  match x with BOk a s => f a s | BPn m => BPn m | BOf => BOf | BStk m => BStk m end.
Notation "'may' a , s <- x ; y" := (bthen x (fun a s => y)) (at level 61, a binder, s binder, x at next level, right associativity).
(** result of a statement *)
Inductive boc := BNx (s : bst) | BRt (l : list bv) (s : bst) | BBk (s : bst) | BCt (s : bst) | BPnS (m : string) | BOfS | BStkS (m : string).
Definition blift {A} (x : bev A) (f : A -> bst -> boc) : boc :=
  match x with BOk a s => f a s | BPn m => BPnS m | BOf => BOfS | BStk m => BStkS m end.
Notation "'will' a , s <- x ; y" := (blift x (fun a s => y)) (at level 61, a binder, s binder, x at next level, right associativity).

(** the same as on strings and lists in general; names of their own let proofs compute
    the one and leave the other *)
Definition same (a b : string) : bool := String.eqb a b.
Fixpoint pcat (p q : list string) : list string := match p with [] => q | f :: r => f :: pcat r q end.
Fixpoint among (x : string) (l : list string) : bool := match l with [] => false | y :: r => if String.eqb x y then true else among x r end.

(** ** Store *)
Fixpoint fget (f : string) (fs : list (string * bv)) : option bv :=
  match fs with [] => None | (g, v) :: r => if String.eqb f g then Some v else fget f r end.
Fixpoint fset (f : string) (x : bv) (fs : list (string * bv)) : list (string * bv) :=
  match fs with [] => [] | (g, v) :: r => if String.eqb f g then (g, x) :: r else (g, v) :: fset f x r end.
Fixpoint pget (p : list string) (v : bv) : option bv :=
  match p with
  | [] => Some v
  | f :: r => match v with BStruct _ fs => match fget f fs with Some x => pget r x | None => None end | _ => None end
  end.
Fixpoint pset (p : list string) (y v : bv) : option bv :=
  match p with
  | [] => Some y
  | f :: r =>
      match v with
      | BStruct T fs => match fget f fs with Some x => match pset r y x with Some x' => Some (BStruct T (fset f x' fs)) | None => None end | None => None end
      | _ => None
      end
  end.
Definition cell (a : nat) (h : list bv) : option bv := nth_error h a.
Fixpoint put (a : nat) (v : bv) (h : list bv) : list bv :=
  match h, a with [], _ => [] | _ :: r, O => v :: r | x :: r, S a' => x :: put a' v r end.
Definition load (a : nat) (p : list string) (s : bst) : option bv :=
  match cell a (heap s) with Some v => pget p v | None => None end.
Definition store (a : nat) (p : list string) (y : bv) (s : bst) : option bst :=
  match cell a (heap s) with
  | Some v => match pset p y v with Some v' => Some (with_heap (put a v' (heap s)) s) | None => None end
  | None => None
  end.
(** a new cell *)
Definition alloc (v : bv) (s : bst) : nat * bst := (List.length (heap s), with_heap (heap s ++ [v]) s).

(** ** Variables *)
Fixpoint bsc_get (x : string) (l : bscope) : option slot :=
  match l with [] => None | (y, u) :: r => if String.eqb x y then Some u else bsc_get x r end.
Fixpoint bsc_set (x : string) (v : slot) (l : bscope) : option bscope :=
  match l with
  | [] => None
  | (y, u) :: r => if String.eqb x y then Some ((y, v) :: r) else option_map (cons (y, u)) (bsc_set x v r)
  end.
Fixpoint bget_var (x : string) (e : list bscope) : option slot :=
  match e with [] => None | l :: r => match bsc_get x l with Some v => Some v | None => bget_var x r end end.
Fixpoint bset_var (x : string) (v : slot) (e : list bscope) : option (list bscope) :=
  match e with
  | [] => None
  | l :: r => match bsc_set x v l with Some l' => Some (l' :: r) | None => option_map (cons l) (bset_var x v r) end
  end.
(** x := v: in the innermost scope, assigning if it is there already *)
Definition bdef_var (x : string) (v : slot) (e : list bscope) : list bscope :=
  if String.eqb x "_" then e
  else match e with
       | [] => [[(x, v)]]
       | l :: r => match bsc_set x v l with Some l' => l' :: r | None => ((x, v) :: l) :: r end
       end.
Definition bpush (s : bst) : bst := with_vars ([] :: vars s) s.
Definition bpop (s : bst) : bst := with_vars (tl (vars s)) s.

(** ** Maps *)
(** keys in order: strings, or regular expressions by identity *)
Definition kcmp (a b : bv) : comparison :=
  match a, b with
  | BStr x, BStr y => String.compare x y
  | BRx x, BRx y => Nat.compare (fst x) (fst y)
  | _, _ => Eq
  end.
Definition is_key (v : bv) : bool := match v with BStr _ | BRx _ => true | _ => false end.
Fixpoint kget (k : bv) (l : list (bv * bv)) : option bv :=
  match l with [] => None | (k', v) :: r => match kcmp k k' with Eq => Some v | _ => kget k r end end.
Fixpoint kput (k v : bv) (l : list (bv * bv)) : list (bv * bv) :=
  match l with
  | [] => [(k, v)]
  | (k', v') :: r => match kcmp k k' with Lt => (k, v) :: l | Eq => (k, v) :: r | Gt => (k', v') :: kput k v r end
  end.
Fixpoint kdel (k : bv) (l : list (bv * bv)) : list (bv * bv) :=
  match l with [] => [] | (k', v') :: r => match kcmp k k' with Eq => kdel k r | _ => (k', v') :: kdel k r end end.
Definition kmem (k : bv) (l : list bv) : bool := existsb (fun k' => match kcmp k k' with Eq => true | _ => false end) l.

(** ** Schemas *)
Definition of_schema (s : schema) : bv := match s with SNil => BNil | Sch c => BSch c end.
Definition schema_map (l : list (string * schema)) : list (bv * bv) := map (fun e => (BStr (fst e), of_schema (snd e))) l.
Definition sch_sel (v : bv) (f : string) : option bv :=
  match v with
  | BSch c =>
      match f with
      | "Reference" => Some (BStr (sc_ref c))
      | "Not" => Some (of_schema (sc_not c))
      | "AllOf" => Some (BList (map of_schema (sc_allOf c)))
      | "AnyOf" => Some (BList (map of_schema (sc_anyOf c)))
      | "OneOf" => Some (BList (map of_schema (sc_oneOf c)))
      | "Type" => Some (BList (map BTp (sc_type c)))
      | "Enum" => Some (BList (map BIf (sc_enum c)))
      | "Default" => Some (BIf (sc_default c))
      | "Minimum" => Some (BONum (sc_min c))
      | "Maximum" => Some (BONum (sc_max c))
      | "MultipleOf" => Some (BONum (sc_mult c))
      | "ExclusiveMinimum" => Some (BOBool (sc_xmin c))
      | "ExclusiveMaximum" => Some (BOBool (sc_xmax c))
      | "MinLength" => Some (BOInt (sc_minLen c))
      | "MaxLength" => Some (BOInt (sc_maxLen c))
      | "Pattern" => Some (match sc_pattern c with Some p => BPat p | None => BNil end)
      | "Format" => Some (BStr (sc_format c))
      | "Items" => Some (match sc_items c with Some (t, l) => BItems t l | None => BNil end)
      | "AdditionalItems" => Some (match sc_addItems c with Some x => BAdd x | None => BNil end)
      | "MinItems" => Some (BOInt (sc_minItems c))
      | "MaxItems" => Some (BOInt (sc_maxItems c))
      | "UniqueItems" => Some (BOBool (sc_unique c))
      | "Required" => Some (BList (map BStr (sc_required c)))
      | "MinProperties" => Some (BOInt (sc_minProps c))
      | "MaxProperties" => Some (BOInt (sc_maxProps c))
      | "Properties" => Some (BMapI (schema_map (sc_props c)))
      | "PatternProperties" => Some (BMapI (map (fun e => (BRx (fst e), of_schema (snd e))) (sc_pats c)))
      | "AdditionalProperties" => Some (match sc_addProps c with Some x => BAdd x | None => BNil end)
      | "Dependencies" => Some (BDeps c)
      | _ => None
      end
  | BONum o => match f with "Initialized" => Some (BBool (initialized o)) | "Val" => option_map BFloat o | _ => None end
  | BOInt o => match f with "Initialized" => Some (BBool (initialized o)) | "Val" => option_map BInt o | _ => None end
  | BOBool o => match f with "Initialized" => Some (BBool (initialized o)) | "Val" => option_map BBool o | _ => None end
  | BItems t l => match f with "TupleMode" => Some (BBool t) | "Schemas" => Some (BList (map of_schema l)) | _ => None end
  | BAdd x => match f with "Schema" => Some (of_schema x) | _ => None end
  | BDeps c =>
      match f with
      | "Names" => Some (BMapI (map (fun e => (BStr (fst e), BList (map BStr (snd e)))) (sc_depNames c)))
      | "Schemas" => Some (BMapI (schema_map (sc_depSchemas c)))
      | _ => None
      end
  | _ => None
  end.
(** schema.New() *)
Definition blank : scfg :=
  {| sc_ref := ""; sc_not := SNil; sc_allOf := []; sc_anyOf := []; sc_oneOf := []; sc_type := []; sc_enum := []; sc_default := GNil;
     sc_min := None; sc_max := None; sc_mult := None; sc_xmin := None; sc_xmax := None;
     sc_minLen := None; sc_maxLen := None; sc_pattern := None; sc_format := "";
     sc_items := None; sc_addItems := None; sc_minItems := None; sc_maxItems := None; sc_unique := None;
     sc_required := []; sc_minProps := None; sc_maxProps := None; sc_props := []; sc_pats := []; sc_addProps := None;
     sc_depNames := []; sc_depSchemas := [] |}.

(** ** Operators *)
Definition b_isnil (v : bv) : option bool :=
  match v with
  | BNil => Some true
  | BIf g => Some (is_gnil g)
  | BMsg _ | BSch _ | BItems _ _ | BAdd _ | BPat _ | BRx _ | BPtr _ _ | BMap _ | BStruct _ _ | BList _ => Some false
  | _ => None
  end.
Definition ptype_eqb (a b : ptype) : bool :=
  match a, b with
  | TNull, TNull | TInteger, TInteger | TString, TString | TObject, TObject | TArray, TArray | TBoolean, TBoolean | TNumber, TNumber => true
  | TOther n, TOther m => Nat.eqb n m
  | _, _ => false
  end.
Definition b_eq (a b : bv) : option bool :=
  match a, b with
  | x, BNil => b_isnil x
  | BBool x, BBool y => Some (Bool.eqb x y)
  | BInt x, BInt y => Some (x =? y)
  | BFloat x, BFloat y => Some (feq x y)
  | BStr x, BStr y | BKind x, BKind y => Some (same x y)
  | BTp x, BTp y => Some (ptype_eqb x y)
  | _, _ => None
  end.
(** schema.PrimitiveTypes.Contains *)
Definition contains (t : bv) (l : list bv) : bool := existsb (fun x => match b_eq x t with Some b => b | None => false end) l.
Definition b_binop (op : string) (a b : bv) : option bv :=
  match op with
  | "==" => option_map BBool (b_eq a b)
  | "!=" => option_map (fun x => BBool (negb x)) (b_eq a b)
  | "+" => match a, b with BStr x, BStr y => Some (BStr (x +++ y)) | BInt x, BInt y => Some (BInt (x + y)) | _, _ => None end
  | "<" => match a, b with BInt x, BInt y => Some (BBool (x <? y)) | _, _ => None end
  | ">" => match a, b with BInt x, BInt y => Some (BBool (y <? x)) | _, _ => None end
  | _ => None
  end.
Definition b_len (v : bv) (s : bst) : option Z :=
  match v with
  | BNil => Some 0
  | BList l => Some (Z.of_nat (List.length l))
  | BMapI l => Some (Z.of_nat (List.length l))
  | BMap a => match cell a (heap s) with Some (BMapI l) => Some (Z.of_nat (List.length l)) | _ => None end
  | _ => None
  end.

(** a value passed or stored as interface{} *)
Fixpoint gvals (l : list bv) : option (list gval) :=
  match l with
  | [] => Some []
  | BIf g :: r => option_map (cons g) (gvals r)
  | _ => None
  end.
Definition as_iface (v : bv) : bv :=
  match v with
  | BNil => BIf GNil
  | BBool b => BIf (gbool b)
  | BStr x => BIf (gstr x)
  | BFloat f => BIf (gfloat f)
  | BList l => match gvals l with Some gs => BIf (GSlice "[]interface {}" true (Some gs)) | None => v end
  | _ => v
  end.

(** x.(T) on interface{} values and on what a reference resolves to *)
Definition as_bool (g : gval) : option bool := match g with GBool T b => if String.eqb T "bool" then Some b else None | _ => None end.
Definition b_assert (t : ty) (v : bv) : option (option bv) :=
  match t, v with
  | TName "bool", BIf g => Some (option_map BBool (as_bool g))
  | TPtr (TQual "schema" "Schema"), BThing x => Some (match x with RSchema s => Some (of_schema s) | _ => None end)
  | TMap (TName "string") TIface, BThing x => Some (match x with RMap _ => Some v | _ => None end)
  | _, _ => None
  end.

Definition b_packages : list string := ["pdebug"; "errors"; "reflect"; "math"; "sort"; "schema"; "jsval"; "jsref"; "regexp"].
Definition b_pkg_value (p x : string) : option bv :=
  match p with
  | "pdebug" => match x with "Enabled" => Some (BBool false) | _ => None end
  | "jsval" =>
      match x with
      | "EmptyConstraint" => Some (BStruct "emptyConstraint" [])
      | "NullConstraint" => Some (BStruct "nullConstraint" [])
      | _ => None
      end
  | "schema" =>
      match x with
      | "NullType" => Some (BTp TNull) | "IntegerType" => Some (BTp TInteger) | "StringType" => Some (BTp TString)
      | "ObjectType" => Some (BTp TObject) | "ArrayType" => Some (BTp TArray) | "BooleanType" => Some (BTp TBoolean)
      | "NumberType" => Some (BTp TNumber) | "UnspecifiedType" => Some (BTp (TOther 0))
      | "FormatDateTime" => Some (BStr "date-time") | "FormatEmail" => Some (BStr "email")
      | "FormatHostname" => Some (BStr "hostname") | "FormatIPv4" => Some (BStr "ipv4") | "FormatIPv6" => Some (BStr "ipv6")
      | "FormatURI" => Some (BStr "uri")
      | _ => None
      end
  | "reflect" =>
      option_map (fun p => BKind (snd p)) (find (fun p => String.eqb (fst p) x)
        [("Bool", "bool"); ("Int", "int"); ("Int8", "int8"); ("Int16", "int16"); ("Int32", "int32"); ("Int64", "int64");
         ("Float32", "float32"); ("Float64", "float64"); ("String", "string"); ("Slice", "slice"); ("Map", "map"); ("Struct", "struct")])
  | _ => None
  end.
Definition b_global (x : string) : option bv :=
  match x with
  | "nil" => Some BNil
  | "true" => Some (BBool true)
  | "false" => Some (BBool false)
  | "EmptyConstraint" => Some (BStruct "emptyConstraint" [])
  | "NullConstraint" => Some (BStruct "nullConstraint" [])
  | _ => None
  end.

(** what the functions run with: the program, the struct declarations, what references
    resolve to in a context, and the names of types the schema package does not know *)
Record bctx := {
  bc_fns : string -> option func;
  bc_structs : string -> option (list sfield_);
  bc_resolve : bv -> resolver;
  bc_tname : nat -> string
}.
Definition bsingle (l : list bv) : option bv := match l with [v] => Some v | _ => None end.
Definition b_the (x : bev (list bv)) : bev bv :=
  may l, s <- x; match bsingle l with Some v => BOk v s | None => BStk "one value expected" end.
Definition bok1 (v : bv) (s : bst) : bev (list bv) := BOk [v] s.

Section Program.
  Variable cx : bctx.

  (** zero values *)
  Fixpoint zero (n : nat) (t : ty) : bv :=
    match t with
    | TName "bool" => BBool false
    | TName "int" => BInt 0
    | TName "float64" => BFloat fzero
    | TName "string" => BStr ""
    | TIface => BIf GNil
    | TStruct => BUnit
    | TQual "sync" "Mutex" => BUnit
    | TName T =>
        match n, bc_structs cx T with
        | S n', Some fs =>
            BStruct T ((fix go fs := match fs with [] => [] | f :: r => (sf_name f, zero n' (sf_type f)) :: go r end) fs)
        | _, _ => BNil
        end
    | _ => BNil
    end.
  Definition zero_struct (T : string) : option bv :=
    match bc_structs cx T with Some _ => Some (zero 4 (TName T)) | None => None end.

  (** the way to a field of a struct of type T: its own, or that of an embedded struct *)
  Fixpoint has_field (f : string) (fs : list sfield_) : bool :=
    match fs with [] => false | g :: r => if String.eqb f (sf_name g) then true else has_field f r end.
  Fixpoint first_some {A B} (f : A -> option B) (l : list A) : option B :=
    match l with [] => None | x :: r => match f x with Some y => Some y | None => first_some f r end end.
  Fixpoint field_path (n : nat) (T f : string) : option (list string) :=
    match n, bc_structs cx T with
    | S n', Some fs =>
        if has_field f fs then Some [f]
        else first_some (fun g =>
               match sf_emb g, sf_type g with
               | true, TName E => option_map (cons E) (field_path n' E f)
               | _, _ => None
               end) fs
    | _, _ => None
    end.
  (** the way to the receiver of method m: embedded structs, possibly through a pointer *)
  Fixpoint method_path (n : nat) (T m : string) : option (list (string * bool) * string) :=
    match n with
    | O => None
    | S n' =>
        match bc_fns cx (T +++ "." +++ m) with
        | Some _ => Some ([], T +++ "." +++ m)
        | None =>
            match bc_structs cx T with
            | Some fs =>
                first_some (fun g =>
                  match sf_emb g, sf_type g with
                  | true, TName E => option_map (fun r => ((E, false) :: fst r, snd r)) (method_path n' E m)
                  | true, TPtr (TName E) => option_map (fun r => ((E, true) :: fst r, snd r)) (method_path n' E m)
                  | _, _ => None
                  end) fs
            | None => None
            end
        end
    end.
  Fixpoint follow (q : list (string * bool)) (a : nat) (p : list string) (s : bst) : option (nat * list string) :=
    match q with
    | [] => Some (a, p)
    | (f, false) :: r => follow r a (pcat p [f]) s
    | (f, true) :: r => match load a (pcat p [f]) s with Some (BPtr b p') => follow r b p' s | _ => None end
    end.

  (** v.f: the value, and where it is if it is in the store *)
  Definition select_ (v : bv) (f : string) (s : bst) : bev (list bv) :=
    match v with
    | BNil => BPn "nil pointer dereference"
    | BPtr a p =>
        match load a p s with
        | Some (BStruct T _) =>
            match field_path 4 T f with
            | Some q => match load a (pcat p q) s with Some x => bok1 x s | None => BStk ("field " +++ f) end
            | None => BStk ("field " +++ f)
            end
        | _ => BStk ("field " +++ f)
        end
    | BStruct T fs =>
        match field_path 4 T f with
        | Some q => match pget q v with Some x => bok1 x s | None => BStk ("field " +++ f) end
        | None => BStk ("field " +++ f)
        end
    | _ => match sch_sel v f with Some x => bok1 x s | None => BStk ("field " +++ f) end
    end.
  (** a field that is a struct, as a receiver: a pointer to it *)
  Definition select_ref (v : bv) (f : string) (s : bst) : bev (list bv) :=
    match v with
    | BPtr a p =>
        match load a p s with
        | Some (BStruct T _) =>
            match field_path 4 T f with
            | Some q =>
                match load a (pcat p q) s with
                | Some (BStruct _ _) => bok1 (BPtr a (pcat p q)) s
                | Some x => bok1 x s
                | None => BStk ("field " +++ f)
                end
            | None => BStk ("field " +++ f)
            end
        | _ => BStk ("field " +++ f)
        end
    | _ => select_ v f s
    end.

  Variable call : string -> list bv -> bst -> bev (list bv).
  Variable boxed : list string.       (* variables whose address is taken *)

  Definition var_value (x : string) (s : bst) : option bv :=
    match bget_var x (vars s) with
    | Some (Bx a) => cell a (heap s)
    | Some (Vl v) => Some v
    | None => None
    end.
  Definition var_set (x : string) (v : bv) (s : bst) : option bst :=
    match bget_var x (vars s) with
    | Some (Bx a) => store a [] v s
    | Some (Vl _) => option_map (fun e => with_vars e s) (bset_var x (Vl v) (vars s))
    | None => None
    end.
  (** x := v *)
  Definition var_def (x : string) (v : bv) (s : bst) : bst :=
    if among x boxed then let '(a, s) := alloc v s in with_vars (bdef_var x (Bx a) (vars s)) s
    else with_vars (bdef_var x (Vl v) (vars s)) s.

  (** methods *)
  Definition method_of (v : bv) (m : string) (args : list bv) (s : bst) : bev (list bv) :=
    match v with
    | BNil => BPn "nil pointer dereference"
    | BPtr a p =>
        match load a p s with
        | Some (BStruct T _) =>
            match method_path 4 T m with
            | Some (q, f) => match follow q a p s with Some (b, p') => call f (BPtr b p' :: args) s | None => BStk m end
            | None => BStk m
            end
        | _ => BStk m
        end
    | BUnit => if among m ["Lock"; "Unlock"] then BOk [] s else BStk m
    | BList l =>
        match m, args with
        | "Contains", [t] => bok1 (BBool (contains t l)) s
        | _, _ => BStk m
        end
    | BRv g => match m, args with "Kind", [] => bok1 (BKind (kind (valueOf g))) s | _, _ => BStk m end
    | BTp t => match m, t with "String", TOther n => bok1 (BStr (bc_tname cx n)) s | _, _ => BStk m end
    | BResolver =>
        match m, args with
        | "Resolve", [x; BStr ref] =>
            match bc_resolve cx x ref with
            | RError e => BOk [BNil; BMsg e] s
            | t => BOk [BThing t; BNil] s
            end
        | _, _ => BStk m
        end
    | _ => BStk m
    end.
  (** functions of other packages *)
  Definition b_pkg_call (p f : string) (args : list bv) (s : bst) : bev (list bv) :=
    match p with
    | "jsval" => call f args s
    | "pdebug" => match f with "Printf" => BOk [] s | _ => BStk f end
    | "errors" => match f, args with "New", [BStr m] => bok1 (BMsg m) s | _, _ => BStk f end
    | "reflect" => match f, args with "ValueOf", [BIf g] => bok1 (BRv g) s | _, _ => BStk f end
    | "math" => match f, args with "Floor", [BFloat x] => bok1 (BFloat (ffloor x)) s | _, _ => BStk f end
    | "schema" => match f, args with "New", [] => bok1 (BSch blank) s | _, _ => BStk f end
    | "jsref" => match f, args with "New", [] => bok1 BResolver s | _, _ => BStk f end
    | _ => BStk (p +++ "." +++ f)
    end.
  Definition slice_items (v : bv) : option (list bv) := match v with BNil => Some [] | BList l => Some l | _ => None end.
  Definition b_builtin (f : string) (args : list bv) (s : bst) : bev (list bv) :=
    match f, args with
    | "len", [v] => match b_len v s with Some n => bok1 (BInt n) s | None => BStk "len" end
    | "string", [BStr x] => bok1 (BStr x) s
    | "delete", [BMap a; k] =>
        match cell a (heap s) with
        | Some (BMapI l) => if is_key k then BOk [] (with_heap (put a (BMapI (kdel k l)) (heap s)) s) else BStk "delete"
        | _ => BStk "delete"
        end
    | _, _ => call f args s
    end.
  Definition b_make (t : expr) (args : list bv) (s : bst) : bev (list bv) :=
    match t, args with
    | EType (TMap _ _), [] => let '(a, s) := alloc (BMapI []) s in bok1 (BMap a) s
    | EType (TSlice t), [BInt n] => bok1 (BList (repeat (zero 4 t) (Z.to_nat n))) s
    | ESel (EId "schema") "PrimitiveTypes", [BInt n] => bok1 (BList (repeat (BTp (TOther 0)) (Z.to_nat n))) s
    | _, _ => BStk "make"
    end.
  Definition is_type (e : expr) : bool := match e with EType _ => true | ESel (EId "schema") "PrimitiveTypes" => true | _ => false end.

  Fixpoint set_fields (l : list (option string * bv)) (v : bv) : option bv :=
    match l with
    | [] => Some v
    | (Some f, x) :: r => match pset [f] x v with Some v' => set_fields r v' | None => None end
    | (None, _) :: _ => None
    end.
  (** the value of T{..}; a map is a new cell *)
  Definition b_composite (t : ty) (l : list (option string * bv)) (s : bst) : bev (list bv) :=
    match t with
    | TStruct => match l with [] => bok1 BUnit s | _ => BStk "composite literal" end
    | TMap _ _ => match l with [] => let '(a, s) := alloc (BMapI []) s in bok1 (BMap a) s | _ => BStk "composite literal" end
    | TName T =>
        match zero_struct T with
        | Some z => match set_fields l z with Some v => bok1 v s | None => BStk "composite literal" end
        | None => BStk "composite literal"
        end
    | _ => BStk "composite literal"
    end.

  Definition b_args (eval : expr -> bst -> bev (list bv)) :=
    fix go (l : list expr) (s : bst) : bev (list bv) :=
      match l with
      | [] => BOk [] s
      | e :: r => may v, s <- b_the (eval e s); may vs, s <- go r s; BOk (v :: vs) s
      end.
  Definition b_elems (eval : expr -> bst -> bev (list bv)) :=
    fix go (l : list (option string * expr)) (s : bst) : bev (list (option string * bv)) :=
      match l with
      | [] => BOk [] s
      | (k, e) :: r => may v, s <- b_the (eval e s); may vs, s <- go r s; BOk ((k, v) :: vs) s
      end.
  Definition package (p : string) (s : bst) : bool :=
    match bget_var p (vars s) with Some _ => false | None => among p b_packages end.
  (** the receiver of a method call *)
  Definition b_recv_id (x : string) (s : bst) : bev bv :=
    match bget_var x (vars s) with
    | Some (Bx a) => match cell a (heap s) with Some (BStruct _ _) => BOk (BPtr a []) s | Some v => BOk v s | None => BStk x end
    | Some (Vl v) => BOk v s
    | None => BStk ("unbound " +++ x)
    end.
  Definition b_recv (eval : expr -> bst -> bev (list bv)) (e : expr) (s : bst) : bev bv :=
    match e with
    | ESel e' f => may v, s <- b_the (eval e' s); b_the (select_ref v f s)
    | EId x => b_recv_id x s
    | _ => b_the (eval e s)
    end.
  Definition b_extract (v : bv) : option (bv + string) :=
    match v with
    | BThing (RMap (inl s)) => Some (inl (of_schema s))
    | BThing (RMap (inr m)) => Some (inr m)
    | _ => None
    end.
  Definition b_types (l : list bv) : option (list ptype) :=
    fold_right (fun v o => match v, o with BTp t, Some ts => Some (t :: ts) | _, _ => None end) (Some []) l.

  (** ** Expressions, once the values of their parts are known *)
  Definition b_var (x : string) (s : bst) : bev (list bv) :=
    match bget_var x (vars s) with
    | Some _ => match var_value x s with Some v => bok1 v s | None => BStk x end
    | None => match b_global x with Some v => bok1 v s | None => BStk ("unbound " +++ x) end
    end.
  Definition b_copy (x : string) (v : bv) (s : bst) : bev (list bv) :=
    match var_value x s, v with
    | Some (BList l), BList k =>
        let n := Nat.min (List.length l) (List.length k) in
        match var_set x (BList (firstn n k ++ skipn n l)) s with Some s => BOk [] s | None => BStk "copy" end
    | _, _ => BStk "copy"
    end.
  Definition b_sort (x : string) (s : bst) : bev (list bv) :=
    match var_value x s with
    | Some v =>
        match slice_items v with
        | Some l =>
            match b_types l with
            | Some ts => match var_set x (match ts with [] => v | _ => BList (map BTp (sort_t ts)) end) s with Some s => BOk [] s | None => BStk "Sort" end
            | None => BStk "Sort"
            end
        | None => BStk "Sort"
        end
    | None => BStk "Sort"
    end.
  Definition b_extracted (x : string) (vs : list bv) (s : bst) : bev (list bv) :=
    match vs with
    | [v] =>
        match b_extract v with
        | Some (inl y) => match var_set x y s with Some s => bok1 BNil s | None => BStk "Extract" end
        | Some (inr e) => bok1 (BMsg e) s
        | None => BStk "Extract"
        end
    | _ => BStk "Extract"
    end.
  Definition b_index (two : bool) (v k : bv) (s : bst) : bev (list bv) :=
    match v with
    | BMap a =>
        match cell a (heap s) with
        | Some (BMapI l) =>
            if is_key k then
              match two, kget k l with
              | true, Some x => BOk [x; BBool true] s
              | true, None => BOk [BNil; BBool false] s
              | false, Some x => bok1 x s
              | false, None => bok1 BNil s       (* the elements here are slices or interfaces *)
              end
            else BStk "map key"
        | _ => BStk "map"
        end
    | BList l =>
        match k with
        | BInt z => if z <? 0 then BPn "index out of range" else match nth_error l (Z.to_nat z) with Some x => bok1 x s | None => BPn "index out of range" end
        | _ => BStk "index"
        end
    | BNil => BPn "index out of range"
    | _ => BStk "index"
    end.
  (** append(v, u) and append(v, u...) *)
  Definition b_append (spread : bool) (v u : bv) (s : bst) : bev (list bv) :=
    if spread then
      match slice_items v, slice_items u with
      | Some l, Some k => bok1 (match l ++ k with [] => v | r => BList r end) s
      | _, _ => BStk "append"
      end
    else match slice_items v with Some l => bok1 (BList (l ++ [u])) s | None => BStk "append" end.
  Definition b_unary (op : string) (v : bv) (s : bst) : bev (list bv) :=
    match op with
    | "-" => match v with BInt z => bok1 (BInt (- z)) s | _ => BStk "-" end
    | "!" => match v with BBool b => bok1 (BBool (negb b)) s | _ => BStk "!" end
    | "..." => bok1 (BDots v) s
    | _ => BStk op
    end.
  Definition b_binary (op : string) (v u : bv) (s : bst) : bev (list bv) :=
    match b_binop op v u with Some r => bok1 r s | None => BStk op end.
  Definition b_asserted (two : bool) (t : ty) (v : bv) (s : bst) : bev (list bv) :=
    match b_assert t v with
    | Some (Some x) => if two then BOk [x; BBool true] s else bok1 x s
    | Some None => if two then BOk [BNil; BBool false] s else BPn "interface conversion"
    | None => BStk "assertion"
    end.
  Definition b_new (v : bv) (s : bst) : bev (list bv) := let '(b, s) := alloc v s in bok1 (BPtr b []) s.
  Definition b_addr (x : string) (s : bst) : bev (list bv) :=
    match bget_var x (vars s) with Some (Bx b) => bok1 (BPtr b []) s | _ => BStk "&" end.

  (** [two]: the form with the extra boolean result is meant *)
  Fixpoint beval (two : bool) (e : expr) (s : bst) {struct e} : bev (list bv) :=
    match e with
    | EId x => b_var x s
    | EStr x => bok1 (BStr x) s
    | ENum z | EChr z => bok1 (BInt z) s
    | ESel e' x =>
        match e' with
        | EId p =>
            if package p s then match b_pkg_value p x with Some v => bok1 v s | None => BStk (p +++ "." +++ x) end
            else may v, s <- b_the (beval false e' s); select_ v x s
        | _ => may v, s <- b_the (beval false e' s); select_ v x s
        end
    | ECall f args =>
        match f with
        | EId "make" =>
            match args with
            | t :: r => if is_type t then may vs, s <- b_args (beval false) r s; b_make t vs s else BStk "make"
            | [] => BStk "make"
            end
        | EId "copy" =>
            match args with
            | [EId x; e'] => may v, s <- b_the (beval false e' s); b_copy x v s
            | _ => BStk "copy"
            end
        | EId "append" =>
            match args with
            | [a; b] =>
                may v, s <- b_the (beval false a s);
                match b with
                | EUn "..." b' => may u, s <- b_the (beval false b' s); b_append true v u s
                | _ => may u, s <- b_the (beval false b s); b_append false v u s
                end
            | _ => BStk "append"
            end
        | EId f => may vs, s <- b_args (beval false) args s; b_builtin f vs s
        | ESel (EId p) m =>
            if package p s then
              match p, m, args with
              | "sort", "Sort", [EId x] => b_sort x s
              | _, _, _ => may vs, s <- b_args (beval false) args s; b_pkg_call p m vs s
              end
            else if String.eqb m "Extract" then may vs, s <- b_args (beval false) args s; b_extracted p vs s
            else
              may v, s <- b_recv_id p s;
              may vs, s <- b_args (beval false) args s;
              method_of v m vs s
        | ESel e' m =>
            may v, s <- b_recv (beval false) e' s;
            may vs, s <- b_args (beval false) args s;
            method_of v m vs s
        | _ => BStk "call"
        end
    | EIdx a i =>
        may v, s <- b_the (beval false a s);
        may k, s <- b_the (beval false i s);
        b_index two v k s
    | EUn op a =>
        match op with
        | "&" =>
            match a with
            | ELit t l => may v, s <- b_the (beval false a s); b_new v s
            | EId x => b_addr x s
            | _ => BStk "&"
            end
        | _ => may v, s <- b_the (beval false a s); b_unary op v s
        end
    | EBin op a b =>
        may v, s <- b_the (beval false a s);
        may u, s <- b_the (beval false b s);
        b_binary op v u s
    | EAs a (Some t) => may v, s <- b_the (beval false a s); b_asserted two t v s
    | ELit t l => may vs, s <- b_elems (beval false) l s; b_composite t vs s
    | EAs _ None | ESub _ _ _ | EType _ | EFunc => BStk "expression"
    end.

  (** ** Statements *)
  Definition set_name (def : bool) (x : string) (v : bv) (s : bst) : boc :=
    if String.eqb x "_" then BNx s
    else if def then
      match bsc_get x (hd [] (vars s)) with
      | Some _ => match var_set x v s with Some s => BNx s | None => BStkS x end
      | None => BNx (var_def x v s)
      end
    else match var_set x v s with Some s => BNx s | None => BStkS ("assign " +++ x) end.
  Definition set_field (f : string) (v r : bv) (s : bst) : boc :=
    match r with
    | BPtr a p =>
        match load a p s with
        | Some (BStruct T _) =>
            match field_path 4 T f with
            | Some q => match store a (pcat p q) v s with Some s => BNx s | None => BStkS f end
            | None => BStkS f
            end
        | _ => BStkS f
        end
    | BNil => BPnS "nil pointer dereference"
    | _ => BStkS f
    end.
  Definition set_index (e : expr) (v r k : bv) (s : bst) : boc :=
    match r with
    | BMap a =>
        match cell a (heap s) with
        | Some (BMapI l) => if is_key k then BNx (with_heap (put a (BMapI (kput k v l)) (heap s)) s) else BStkS "map key"
        | _ => BStkS "map"
        end
    | BNil => BPnS "assignment to entry in nil map"
    | BList l =>
        match e, k with
        | EId x, BInt z =>
            if (0 <=? z) && (z <? Z.of_nat (List.length l))
            then match var_set x (BList (set_nth (Z.to_nat z) v l)) s with Some s => BNx s | None => BStkS x end
            else BPnS "index out of range"
        | _, _ => BStkS "index"
        end
    | _ => BStkS "indexed assignment"
    end.
  Definition b_assign1 (def : bool) (lhs : expr) (v : bv) (s : bst) : boc :=
    match lhs with
    | EId x => set_name def x v s
    | ESel e f => will r, s <- b_recv (beval false) e s; set_field f v r s
    | EIdx e i =>
        will r, s <- b_the (beval false e s);
        will k, s <- b_the (beval false i s);
        set_index e v r k s
    | _ => BStkS "assignment"
    end.
  Definition bends (o : boc) (k : bst -> boc) : boc := match o with BNx s => k s | o => o end.
  Fixpoint b_assign_all (def : bool) (lhs : list expr) (vs : list bv) (s : bst) : boc :=
    match lhs, vs with
    | [], [] => BNx s
    | e :: r, v :: vs' => bends (b_assign1 def e v s) (b_assign_all def r vs')
    | _, _ => BStkS "assignment"
    end.
  Definition b_assign (lhs : list expr) (op : string) (rhs : list expr) (s : bst) : boc :=
    let def := String.eqb op ":=" in
    if negb (among op [":="; "="]) then BStkS op
    else match lhs, rhs with
    | [l], [r] => will v, s <- b_the (beval false r s); b_assign1 def l v s
    | [_; _], [r] => will vs, s <- beval true r s; b_assign_all def lhs vs s
    | _, _ => BStkS "assignment"
    end.

  Fixpoint b_indexed (i : Z) (l : list bv) : list (bv * bv) :=
    match l with [] => [] | v :: r => (BInt i, v) :: b_indexed (i + 1) r end.
  (** the entries a range statement runs over, unless that is a map in the store *)
  Definition b_items (v : bv) (s : bst) : option (list (bv * bv) * bst) :=
    match v with
    | BNil => Some ([], s)
    | BList l => Some (b_indexed 0 l, s)
    | BMapI m => let '(l, w) := shuffle (bord s) m in Some (l, with_bord w s)
    | _ => None
    end.
  Definition b_bind (def : bool) (k v : option string) (a b : bv) (s : bst) : boc :=
    if negb def then match k, v with None, None => BNx s | _, _ => BStkS "range" end
    else
      let s := match k with Some x => var_def x a s | None => s end in
      BNx (match v with Some x => var_def x b s | None => s end).

  Definition brun (exec : stmt -> bst -> boc) :=
    fix go (l : list stmt) (s : bst) : boc :=
      match l with
      | [] => BNx s
      | x :: r => bends (exec x s) (go r)
      end.
  (** a block has its own scope *)
  Definition bleave (o : boc) : boc :=
    match o with BNx s => BNx (bpop s) | BBk s => BBk (bpop s) | BCt s => BCt (bpop s) | o => o end.
  Definition bblock (exec : stmt -> bst -> boc) (l : list stmt) (s : bst) : boc := bleave (brun exec l (bpush s)).
  Definition bround (body : bst -> boc) (def : bool) (k v : option string) (a b : bv) (s : bst) : boc :=
    bleave (bends (b_bind def k v a b (bpush s)) body).
  Fixpoint brounds (body : bst -> boc) (def : bool) (k v : option string) (l : list (bv * bv)) (s : bst) : boc :=
    match l with
    | [] => BNx s
    | (a, b) :: r =>
        match bround body def k v a b s with
        | BNx s | BCt s => brounds body def k v r s
        | BBk s => BNx s
        | o => o
        end
    end.
  (** range over the keys of a map in the store *)
  Definition cell_keys (a : nat) (s : bst) : list bv :=
    match cell a (heap s) with Some (BMapI l) => map fst l | _ => [] end.
  Fixpoint blive (n : nat) (body : bst -> boc) (def : bool) (k : option string) (a : nat) (start visited : list bv) (s : bst) : boc :=
    match n with
    | O => BOfS
    | S n' =>
        let todo := filter (fun x => negb (kmem x visited)) (cell_keys a s) in
        let due := filter (fun x => kmem x start) todo in
        let '(i, w) := next (bord s) in
        let s := with_bord w s in
        let visit x :=
          match bround body def k None x BNil s with
          | BNx s | BCt s => blive n' body def k a start (x :: visited) s
          | BBk s => BNx s
          | o => o
          end in
        match due with
        | [] => match nth_error todo i with None => BNx s | Some x => visit x end
        | d :: _ => visit (nth i todo d)
        end
    end.

  Definition b_matches (tag : option bv) :=
    fix go (l : list expr) (s : bst) : bev bool :=
      match l with
      | [] => BOk false s
      | e :: r =>
          may v, s <- b_the (beval false e s);
          match (match tag with None => Some v | Some t => b_binop "==" t v end) with
          | Some (BBool true) => BOk true s
          | Some (BBool false) => go r s
          | _ => BStk "case"
          end
      end.
  Definition b_pick (tag : option bv) :=
    fix go (cls : list (option (list expr) * list stmt)) (s : bst) : bev (option nat) :=
      match cls with
      | [] => BOk None s
      | (None, _) :: r => may o, s <- go r s; BOk (option_map S o) s
      | (Some l, _) :: r =>
          may b, s <- b_matches tag l s;
          if b : bool then BOk (Some O) s else may o, s <- go r s; BOk (option_map S o) s
      end.
  Fixpoint b_default {A} (cls : list (option A * list stmt)) : option nat :=
    match cls with [] => None | (None, _) :: _ => Some O | _ :: r => option_map S (b_default r) end.
  Definition b_nobreak (o : boc) : boc := match o with BBk s => BNx s | o => o end.
  Definition b_clause {A} (go_in : list stmt -> bst -> boc) :=
    fix go (cls : list (option A * list stmt)) (o : option nat) (s : bst) : boc :=
      match cls, o with
      | (_, b) :: _, Some O => b_nobreak (go_in b s)
      | _ :: r, Some (S i) => go r (Some i) s
      | _, _ => BNx s
      end.
  Fixpoint b_tpick (v : bv) (cls : list (option (list ty) * list stmt)) : option nat :=
    match cls with
    | [] => None
    | (Some l, _) :: r =>
        if (fix any l := match l with [] => false | t :: r => match b_assert t v with Some (Some _) => true | _ => any r end end) l
        then Some O else option_map S (b_tpick v r)
    | (None, _) :: r => option_map S (b_tpick v r)
    end.
  Definition b_unlocking (e : expr) : bool :=
    match e with ECall (ESel _ m) [] => among m ["Unlock"; "RUnlock"] | _ => false end.
  Definition b_opt (exec : stmt -> bst -> boc) (o : option stmt) (s : bst) : boc :=
    match o with None => BNx s | Some x => exec x s end.
  Definition b_zero (t : ty) : bv := zero 4 t.

  Variable fuel : nat.     (* for ranges over maps that grow *)

  Fixpoint bexec (x : stmt) (s : bst) {struct x} : boc :=
    match x with
    | SExpr e => will _, s <- beval false e s; BNx s
    | SAssign lhs op rhs => b_assign lhs op rhs s
    | SVar x _ (Some e) => will v, s <- b_the (beval false e s); BNx (var_def x v s)
    | SVar x (Some t) None => BNx (var_def x (b_zero t) s)
    | SVar x None None => BStkS "var"
    | SIf i c a b =>
        bleave (bends (b_opt bexec i (bpush s)) (fun s =>
          will v, s <- b_the (beval false c s);
          match v with
          | BBool b' => if b' then bblock bexec a s else bblock bexec b s
          | _ => BStkS "condition"
          end))
    | SRange line k v def e body =>
        will x, s <- b_the (beval false e s);
        match x, v with
        | BMap a, None => blive fuel (brun bexec body) def k a (cell_keys a s) [] s
        | _, _ =>
            match b_items x s with
            | Some (l, s) => brounds (brun bexec body) def k v l s
            | None => BStkS "range"
            end
        end
    | SSwitch tag cls =>
        will t, s <- match tag with None => BOk None s | Some e => may v, s <- b_the (beval false e s); BOk (Some v) s end;
        will o, s <- b_pick t cls s;
        b_clause (bblock bexec) cls (match o with Some i => Some i | None => b_default cls end) s
    | STSwitch e cls =>
        will v, s <- b_the (beval false e s);
        b_clause (bblock bexec) cls (match b_tpick v cls with Some i => Some i | None => b_default cls end) s
    | SReturn [] => BRt [] s
    | SReturn [e] => will vs, s <- beval false e s; BRt vs s      (* several values: return f() *)
    | SReturn [e1; e2] => will v, s <- b_the (beval false e1 s); will u, s <- b_the (beval false e2 s); BRt [v; u] s
    | SReturn _ => BStkS "return"
    | SBreak => BBk s
    | SContinue => BCt s
    | SDefer e => if b_unlocking e then BNx s else BStkS "defer"
    | SInc _ _ | SFor _ _ _ _ _ => BStkS "statement"
    end.
End Program.

(** ** Functions *)
(** variables whose address the function takes *)
Fixpoint addrs_e (e : expr) : list string :=
  match e with
  | EUn op a => (match a with EId x => if String.eqb op "&" then [x] else [] | _ => [] end) ++ addrs_e a
  | ECall f l => addrs_e f ++ flat_map addrs_e l
  | ESel a _ => addrs_e a
  | EIdx a b | EBin _ a b => addrs_e a ++ addrs_e b
  | EAs a _ => addrs_e a
  | ELit _ l => flat_map (fun p => match p with (_, a) => addrs_e a end) l
  | _ => []
  end.
Fixpoint addrs (x : stmt) : list string :=
  match x with
  | SExpr e | SVar _ _ (Some e) => addrs_e e
  | SAssign l _ r => flat_map addrs_e l ++ flat_map addrs_e r
  | SIf i c a b =>
      match i with Some i => addrs i | None => [] end ++ addrs_e c ++ flat_map addrs a ++ flat_map addrs b
  | SRange _ _ _ _ e b => addrs_e e ++ flat_map addrs b
  | SSwitch t cls =>
      match t with Some e => addrs_e e | None => [] end
      ++ flat_map (fun c => match c with (o, b) => match o with Some l => flat_map addrs_e l | None => [] end ++ flat_map addrs b end) cls
  | STSwitch e cls => addrs_e e ++ flat_map (fun c => match c with (_, b) => flat_map addrs b end) cls
  | SReturn l => flat_map addrs_e l
  | _ => []
  end.

Fixpoint ifaces (l : list bv) : list bv := match l with [] => [] | v :: r => as_iface v :: ifaces r end.
Fixpoint nils (l : list string) : bscope := match l with [] => [] | x :: r => (x, Vl BNil) :: nils r end.
Fixpoint scope_cat (a b : bscope) : bscope := match a with [] => b | x :: r => x :: scope_cat r b end.
(** parameters take their values, the last one possibly all the remaining ones *)
Fixpoint b_params (xs : list string) (ts : list ty) (args : list bv) : option bscope :=
  match xs, ts, args with
  | [], [], [] => Some []
  | [x], [TDots t], [BDots v] => Some [(x, Vl v)]
  | [x], [TDots t], _ =>
      let l := match t with TIface => ifaces args | _ => args end in
      Some [(x, Vl (match l with [] => BNil | _ => BList l end))]
  | x :: xs, t :: ts, v :: args =>
      option_map (cons (x, Vl (match t with TIface => as_iface v | _ => v end))) (b_params xs ts args)
  | _, _, _ => None
  end.
Definition b_frame (f : func) (args : list bv) : option bscope :=
  match fn_recv f, args with
  | Some (x, _), r :: l => option_map (fun p => (x, Vl r) :: scope_cat p (nils (fn_results f))) (b_params (fn_params f) (fn_types f) l)
  | Some _, [] => None
  | None, l => option_map (fun p => scope_cat p (nils (fn_results f))) (b_params (fn_params f) (fn_types f) l)
  end.
Definition b_called (e : list bscope) (o : boc) : bev (list bv) :=
  match o with
  | BRt vs s' => BOk vs (with_vars e s')
  | BNx s' => BOk [] (with_vars e s')
  | BPnS m => BPn m
  | BOfS => BOf
  | BStkS m => BStk m
  | BBk _ | BCt _ => BStk "break"
  end.
(** calls nested at most [k] deep *)
Fixpoint bcall (cx : bctx) (k : nat) (f : string) (args : list bv) (s : bst) : bev (list bv) :=
  match k with
  | O => BOf
  | S k' =>
      match bc_fns cx f with
      | Some g =>
          match b_frame g args with
          | Some fr => b_called (vars s) (brun (bexec cx (bcall cx k') (flat_map addrs (fn_body g)) k') (fn_body g) (with_vars [fr] s))
          | None => BStk "arguments"
          end
      | None => BStk ("function " +++ f)
      end
  end.
