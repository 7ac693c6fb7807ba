(** Meaning of the Go code read by SrcSyntax.v: an interpreter for the statements and
    expressions that occur in the functions of SrcText.v, with the package reflect and the
    other library calls they make as primitives.  Nothing here is in /repo: this is the
    meaning of the language the code of /repo is written in.

    Every construct or call without a meaning here ends in [Stk] ("stuck"); the theorems
    about the code show in particular that this does not happen.

    Simplifications:
    - pdebug is disabled (its package constant Enabled is false without the build tag);
      locks do nothing (one goroutine; RefConc.v and Registry.v are about several);
      defer is accepted for unlocking only;
    - the document is a tree, a reflect.Value is a place in it ([loc]), and mutation
      through a reflect.Value or by the callee of a Validate call replaces the tree at
      that place (Heap.v is about documents that share);
    - Go maps made by the functions themselves are kept by value: the interpreter gets
      stuck on statements that could make two variables share one map;
    - "range" over a map runs over a permutation of the entries present at the start,
      skipping those deleted meanwhile; no loop interpreted here adds to the map it runs
      over;
    - the registry of struct metadata is a cache of [extract] (Registry.v: C39), a
      reference's resolved constraint a cache of its resolver (RefConc.v). *)
From Verif Require Import Base GoFloat GoValue Maybe Formats Constraint StructInfo Validate SrcSyntax.
Open Scope string_scope.
Open Scope list_scope.
Open Scope Z_scope.

(** ** Values *)
(** a place a reflect.Value refers to *)
Inductive loc :=
| LRoot                       (* the value passed to Validate *)
| LImm (r : rval)             (* a value that is no part of it *)
| LVal (l : loc)              (* reflect.ValueOf of the interface value at l *)
| LElem (l : loc)             (* .Elem() *)
| LIdx (l : loc) (i : nat)    (* .Index(i) *)
| LKey (l : loc) (k : string) (* .MapIndex(k) *)
| LFld (l : loc) (f : string) (* .FieldByName(f) *).

Inductive val :=
| VNil
| VBool (b : bool) | VInt (z : Z) | VFloat (f : f64) | VStr (s : string)
| VUnit                              (* struct{}{}, and values only compared with nil *)
| VErr (m : string)                  (* an error with this text *)
| VKind (k : string)                 (* reflect.Kind *)
| VIf (l : loc)                      (* interface{} *)
| VRv (l : loc)                      (* reflect.Value *)
| VErrRv (m : option string)         (* reflect.Value of an error result *)
| VAddr (l : loc)                    (* reflect.Value: pointer to that place *)
| VMeth (l : loc) (m : string)       (* reflect.Value: method m of the value there *)
| VType (r : rval)                   (* reflect.Type: the static type of that Value *)
| VPtrTo (r : rval)                  (* reflect.Type: pointer to it *)
| VList (l : list val)               (* slice *)
| VMap (m : list (val * val))        (* map, in order of insertion *)
| VConstr (c : constr)               (* a Constraint interface value *)
| VObj (c : constr)                  (* a constraint of static type, as a receiver *)
| VRx (src : string)                 (* *regexp.Regexp *)
| VLock | VRegistry | VResolver | VMaybeIf | VFlag (b : bool)
| VProp (p : propinfo)
| VSI (props : list (string * propinfo))   (* StructInfo *)
| VField (f : finfo) (x : gval)            (* reflect.StructField; x: a value of its type *)
| VTag (s : string)
| VMaybe (m : maybe)                       (* a MaybeX struct *)
| VTime (t : Z)
| VErrIM (x : val)                         (* ErrInvalidMaybeValue{x} *)
| VBuf (s : string)
| VJSVal (name addr : string) (root : constr).

Definition scope := list (string * val).
Record st := { env_ : list scope; doc : gval; ord_w : orc; ord_u : orc }.
Definition with_env (e : list scope) (s : st) : st := {| env_ := e; doc := doc s; ord_w := ord_w s; ord_u := ord_u s |}.
Definition with_doc (d : gval) (s : st) : st := {| env_ := env_ s; doc := d; ord_w := ord_w s; ord_u := ord_u s |}.
Definition with_ord (w u : orc) (s : st) : st := {| env_ := env_ s; doc := doc s; ord_w := w; ord_u := u |}.

(** result of an expression: values, abnormal end (panic, or the fuel of a child's
    Validate used up), or no meaning *)
Inductive ev (A : Type) := Ok (a : A) (s : st) | Ab (r : res) (s : st) | Stk (m : string).
Arguments Ok {A}. Arguments Ab {A}. Arguments Stk {A}.
Definition andthen {A B} (x : ev A) (f : A -> st -> ev B) : ev B :=
  match x with Ok a s => f a s | Ab r s => Ab r s | Stk m => Stk m end.
Notation "'do' a , s <- x ; y" := (andthen x (fun a s => y)) (at level 61, a binder, s binder, x at next level, right associativity).
(** result of a statement *)
Inductive oc := Nx (s : st) | Rt (l : list val) (s : st) | Bk (s : st) | Ct (s : st) | AbS (r : res) (s : st) | StkS (m : string).
Definition lift {A} (x : ev A) (f : A -> st -> oc) : oc :=
  match x with Ok a s => f a s | Ab r s => AbS r s | Stk m => StkS m end.
Notation "'run' a , s <- x ; y" := (lift x (fun a s => y)) (at level 61, a binder, s binder, x at next level, right associativity).

Definition panic {A} (m : string) (s : st) : ev A := Ab (Panic m) s.

(** ** Places *)
Definition rcontent (r : rval) : gval := match r with RZero => GNil | RV _ g => g end.
Fixpoint rread (l : loc) (d : gval) : rval :=
  match l with
  | LRoot => valueOf d
  | LImm r => r
  | LVal l' => valueOf (rcontent (rread l' d))
  | LElem l' => elem (rread l' d)
  | LIdx l' i =>
      match rread l' d with
      | RV false (GSlice _ ifc (Some xs)) => RV ifc (nth i xs GNil)
      | _ => RZero
      end
  | LKey l' k =>
      match rread l' d with
      | RV false (GMap _ _ ifc _ (Some m)) => match sget k m with Some x => RV ifc x | None => RZero end
      | _ => RZero
      end
  | LFld l' f =>
      match rread l' d with
      | RV false x => match field_by_name x f with Some (_, (fi, y)) => RV (f_iface fi) y | None => RZero end
      | _ => RZero
      end
  end.
Definition content (l : loc) (d : gval) : gval := rcontent (rread l d).

(** the document after the value at the place is replaced *)
Fixpoint rwrite (l : loc) (y : gval) (d : gval) : gval :=
  match l with
  | LRoot => y
  | LImm _ => d
  | LVal l' => rwrite l' y d
  | LElem l' =>
      match rread l' d with
      | RV true _ => rwrite l' y d
      | RV false (GPtr T a (Some (i, _))) => rwrite l' (GPtr T a (Some (i, y))) d
      | _ => d
      end
  | LIdx l' i =>
      match rread l' d with
      | RV false (GSlice T ifc (Some xs)) => rwrite l' (GSlice T ifc (Some (set_nth i y xs))) d
      | _ => d
      end
  | LKey l' k =>
      match rread l' d with
      | RV false (GMap T kk ifc ET (Some m)) => rwrite l' (GMap T kk ifc ET (Some (supd k y m))) d
      | _ => d
      end
  | LFld l' f =>
      match rread l' d with
      | RV false x => match field_by_name x f with Some (path, _) => rwrite l' (set_path path y x) d | None => d end
      | _ => d
      end
  end.

(** reflect.Value.CanAddr *)
Fixpoint addressable (l : loc) (d : gval) : bool :=
  match l with
  | LElem l' => match rread l' d with RV false (GPtr _ _ (Some _)) => true | _ => false end
  | LIdx l' _ => match rread l' d with RV false (GSlice _ _ _) => true | _ => false end
  | LFld l' _ => addressable l' d
  | _ => false
  end.

(** ** Variables *)
Fixpoint sc_get (x : string) (l : scope) : option val :=
  match l with [] => None | (y, v) :: r => if String.eqb x y then Some v else sc_get x r end.
Fixpoint sc_set (x : string) (v : val) (l : scope) : option scope :=
  match l with
  | [] => None
  | (y, u) :: r => if String.eqb x y then Some ((y, v) :: r) else option_map (cons (y, u)) (sc_set x v r)
  end.
Fixpoint get_var (x : string) (e : list scope) : option val :=
  match e with [] => None | l :: r => match sc_get x l with Some v => Some v | None => get_var x r end end.
Fixpoint set_var (x : string) (v : val) (e : list scope) : option (list scope) :=
  match e with
  | [] => None
  | l :: r => match sc_set x v l with Some l' => Some (l' :: r) | None => option_map (cons l) (set_var x v r) end
  end.
(** x := v: in the innermost scope, assigning if it is there already *)
Definition def_var (x : string) (v : val) (e : list scope) : list scope :=
  if String.eqb x "_" then e
  else match e with
       | [] => [[(x, v)]]
       | l :: r => match sc_set x v l with Some l' => l' :: r | None => ((x, v) :: l) :: r end
       end.
Definition push (s : st) : st := with_env ([] :: env_ s) s.
Definition pop (s : st) : st := with_env (tl (env_ s)) s.

(** ** Maps of the program *)
Definition key_eqb (a b : val) : bool :=
  match a, b with VStr x, VStr y => String.eqb x y | VRx x, VRx y => false | _, _ => false end.
Fixpoint m_get (k : val) (m : list (val * val)) : option val :=
  match m with [] => None | (k', v) :: r => if key_eqb k k' then Some v else m_get k r end.
(** a new key goes to the end *)
Fixpoint m_put (k v : val) (m : list (val * val)) : list (val * val) :=
  match m with [] => [(k, v)] | (k', v') :: r => if key_eqb k k' then (k', v) :: r else (k', v') :: m_put k v r end.
Fixpoint m_del (k : val) (m : list (val * val)) : list (val * val) :=
  match m with [] => [] | (k', v') :: r => if key_eqb k k' then m_del k r else (k', v') :: m_del k r end.
Definition is_str (v : val) : bool := match v with VStr _ => true | _ => false end.

(** ** Constraints as values *)
Definition is_cnil (c : constr) : bool := match c with CNil => true | _ => false end.
Definition of_if (g : gval) : val := VIf (LImm (valueOf g)).
Definition values {A} (f : A -> val) (l : list A) : list val := map f l.
Definition entries {A} (f : A -> val) (m : list (string * A)) : list (val * val) := map (fun kv => (VStr (fst kv), f (snd kv))) m.
Definition str_map {A} (f : A -> val) (m : list (string * A)) : val := VMap (entries f m).
Definition pat_entries (l : list (nat * string * constr)) : list (val * val) :=
  map (fun pc => (VRx (snd (fst pc)), VConstr (snd pc))) l.
Definition enum_val (e : option (list gval)) : val := match e with None => VNil | Some l => VObj (CEnum l) end.

(** struct fields of the constraints (interface.go:49-143, reference.go:57-64) *)
Definition num_field (d : option gval) (c : numcfg) (f : string) : option val :=
  match f with
  | "applyMinimum" => Some (VBool (n_amin c))
  | "applyMaximum" => Some (VBool (n_amax c))
  | "applyMultipleOf" => Some (VBool (n_amul c))
  | "minimum" => Some (VFloat (n_min c))
  | "maximum" => Some (VFloat (n_max c))
  | "multipleOf" => Some (VFloat (n_mul c))
  | "exclusiveMinimum" => Some (VBool (n_xmin c))
  | "exclusiveMaximum" => Some (VBool (n_xmax c))
  | "enums" => Some (enum_val (n_enum c))
  | _ => None
  end.
(** defaultValue{initialized, value} *)
Definition default_field (d : option gval) (f : string) : option val :=
  match f with
  | "initialized" => Some (VBool (match d with Some _ => true | None => false end))
  | "value" => Some (match d with Some g => of_if g | None => VNil end)
  | _ => None
  end.
Definition obj_field (c : constr) (f : string) : option val :=
  match c with
  | CBool d => default_field d f
  | CStr d s =>
      match f with
      | "maxLength" => Some (VInt (s_max s))
      | "minLength" => Some (VInt (s_min s))
      | "format" => Some (VStr (s_fmt s))
      | "regexp" => Some (match s_rx s with None => VNil | Some r => VRx r end)
      | "enums" => Some (enum_val (s_enum s))
      | _ => default_field d f
      end
  | CNum d n => match num_field d n f with Some v => Some v | None => default_field d f end
  | CInt d n =>
      if String.eqb f "NumberConstraint" then Some (VObj (CNum d n))
      else match num_field d n f with Some v => Some v | None => default_field d f end
  | CArr a =>
      match f with
      | "items" => Some (VConstr (a_items a))
      | "positionalItems" => Some (VList (values VConstr (a_pos a)))
      | "additionalItems" => Some (VConstr (a_add a))
      | "minItems" => Some (VInt (a_min a))
      | "maxItems" => Some (VInt (a_max a))
      | "uniqueItems" => Some (VBool (a_uniq a))
      | _ => default_field None f
      end
  | CObj o =>
      match f with
      | "additionalProperties" => Some (VConstr (o_add o))
      | "deplock" | "proplock" | "reqlock" => Some VLock
      | "patternProperties" => Some (VMap (pat_entries (o_pats o)))
      | "properties" => Some (str_map VConstr (o_props o))
      | "propdeps" => Some (str_map (fun l => VList (values VStr l)) (o_propdeps o))
      | "required" => Some (str_map (fun _ => VUnit) (o_req o))
      | "minProperties" => Some (VInt (o_min o))
      | "maxProperties" => Some (VInt (o_max o))
      | "schemadeps" => Some (str_map VConstr (o_sdeps o))
      | _ => default_field None f
      end
  | CEnum l => match f with "enums" => Some (VList (values of_if l)) | _ => None end
  | CAny l | CAll l | COneOf l => match f with "constraints" => Some (VList (values VConstr l)) | _ => None end
  | CNot c' => match f with "child" => Some (VConstr c') | _ => None end
  | CRef name =>
      match f with
      | "reference" => Some (VStr name)
      | "lock" => Some VLock
      | "resolver" => Some VResolver
      | "resolved" => Some VNil
      | _ => None
      end
  | CNil | CEmpty | CNull => None
  end.

(** the method a call of the interface Constraint runs, by dynamic type; HasDefault and
    DefaultValue of types without their own come from the embedded struct
    (interface.go:44-143) *)
Definition type_name (c : constr) : string :=
  match c with
  | CNil => "" | CEmpty => "emptyConstraint" | CNull => "nullConstraint" | CBool _ => "BooleanConstraint"
  | CStr _ _ => "StringConstraint" | CNum _ _ => "NumberConstraint" | CInt _ _ => "IntegerConstraint"
  | CArr _ => "ArrayConstraint" | CObj _ => "ObjectConstraint" | CEnum _ => "EnumConstraint"
  | CAny _ => "AnyConstraint" | CAll _ => "AllConstraint" | COneOf _ => "OneOfConstraint"
  | CNot _ => "NotConstraint" | CRef _ => "ReferenceConstraint"
  end.
(** "Type.Method" *)
Fixpoint dotted (a b : string) : string := match a with EmptyString => String "." b | String c r => String c (dotted r b) end.
Definition default_owner (c : constr) : string :=
  match c with
  | CNil => ""
  | CNull => "nullConstraint" | CNot _ => "NotConstraint" | CRef _ => "ReferenceConstraint"
  | CBool _ | CStr _ _ | CNum _ _ | CInt _ _ | CArr _ | CObj _ => "defaultValue"
  | CEmpty | CEnum _ | CAny _ | CAll _ | COneOf _ => "emptyConstraint"
  end.
Definition method (c : constr) (m : string) : string :=
  if mem m ["HasDefault"; "DefaultValue"] then dotted (default_owner c) m else dotted (type_name c) m.

(** ** What the meaning depends on *)
(** order in which the loop at a line runs over a map: which stream of choices it uses,
    and the list the choices are applied to (a permutation of the entries) *)
Record site := { aux : bool; arrange : list (val * val) -> list (val * val) }.
Record ctx := {
  cx_E : Constraint.env;                                 (* external libraries *)
  cx_rec : constr -> gval -> orc -> orc -> option (res * gval * orc * orc);  (* Validate of a child; None: stuck *)
  cx_gd : constr -> option dres;                         (* HasDefault/DefaultValue of a child *)
  cx_hit : string -> bool;                               (* is this type in the registry? *)
  cx_site : string -> Z -> site                          (* function, line *)
}.

(** ** Library *)
Definition truth (v : val) : option bool := match v with VBool b => Some b | _ => None end.

Definition zero_rv (l : loc) (d : gval) : bool := match rread l d with RZero => true | _ => false end.
(** same type *)
Definition ty_eqb (a b : rval) : bool :=
  match a, b with
  | RV false (GMaybe m), RV false (GMaybe m') => String.eqb (maybe_T m) (maybe_T m')
  | RV false (GMaybe _), _ | _, RV false (GMaybe _) => false
  | RV false x, RV false y => String.eqb (typ x) (typ y)
  | _, _ => false
  end.
(** comparison with nil; None: no meaning *)
Definition is_nil (v : val) (d : gval) : option bool :=
  match v with
  | VNil => Some true
  | VIf l => Some (is_gnil (content l d))
  | VConstr c => Some (is_cnil c)
  | VUnit | VErr _ | VErrIM _ | VObj _ | VRx _ | VMap _ => Some false
  | _ => None
  end.
Definition same_str (a b : string) : bool := String.eqb a b.
(** ==; inl: the result (None: run-time panic), inr: no meaning *)
Definition val_eq (a b : val) (d : gval) : option (option bool) :=
  match a, b with
  | VNil, _ => option_map Some (is_nil b d)
  | _, VNil => option_map Some (is_nil a d)
  | VBool x, VBool y => Some (Some (Bool.eqb x y))
  | VInt x, VInt y => Some (Some (x =? y))
  | VFloat x, VFloat y => Some (Some (feq x y))
  | VFloat x, VInt y => Some (Some (feq x (f64_of_Z y)))    (* untyped constant *)
  | VStr x, VStr y | VKind x, VKind y | VTag x, VStr y => Some (Some (same_str x y))
  | VIf x, VIf y => Some (ieq (content x d) (content y d))
  | VRv x, VRv y =>      (* only comparison with the zero Value is known *)
      match rread x d, rread y d with
      | RZero, RZero => Some (Some true)
      | RZero, _ | _, RZero => Some (Some false)
      | _, _ => None
      end
  | VMeth _ _, VRv y | VAddr _, VRv y => if zero_rv y d then Some (Some false) else None
  | VType x, VType y => Some (Some (ty_eqb x y))
  | _, _ => None
  end.
Definition binop (op : string) (a b : val) (s : st) : ev val :=
  match op with
  | "==" => match val_eq a b (doc s) with Some (Some r) => Ok (VBool r) s | Some None => panic "comparing uncomparable type" s | None => Stk "==" end
  | "!=" => match val_eq a b (doc s) with Some (Some r) => Ok (VBool (negb r)) s | Some None => panic "comparing uncomparable type" s | None => Stk "!=" end
  | "+" =>
      match a, b with
      | VStr x, VStr y => Ok (VStr (x +++ y)) s
      | VInt x, VInt y => Ok (VInt (x + y)) s
      | _, _ => Stk "+"
      end
  | "-" => match a, b with VInt x, VInt y => Ok (VInt (x - y)) s | _, _ => Stk "-" end
  | "<" => match a, b with VInt x, VInt y => Ok (VBool (x <? y)) s | VFloat x, VFloat y => Ok (VBool (flt x y)) s | _, _ => Stk "<" end
  | ">" => match a, b with VInt x, VInt y => Ok (VBool (y <? x)) s | VFloat x, VFloat y => Ok (VBool (flt y x)) s | _, _ => Stk ">" end
  | "<=" => match a, b with VInt x, VInt y => Ok (VBool (x <=? y)) s | VFloat x, VFloat y => Ok (VBool (fle x y)) s | _, _ => Stk "<=" end
  | ">=" => match a, b with VInt x, VInt y => Ok (VBool (y <=? x)) s | VFloat x, VFloat y => Ok (VBool (fle y x)) s | _, _ => Stk ">=" end
  | _ => Stk op
  end.

(** length of a value, for len *)
Definition len_of (v : val) : option Z :=
  match v with
  | VNil => Some 0
  | VStr s | VTag s => Some (slen s)
  | VList l => Some (Z.of_nat (List.length l))
  | VMap m => Some (Z.of_nat (List.length m))
  | _ => None
  end.

(** byte of a string *)
Definition byte_at (i : Z) (s : string) : option Z :=
  if i <? 0 then None else option_map byte (String.get (Z.to_nat i) s).

(** e[i]: the element and whether it is there; None: no meaning *)
Inductive idx := IVal (v : val) | IOut | IBad.
Definition index (a i : val) : idx :=
  match a, i with
  | VList l, VInt z => if z <? 0 then IOut else match nth_error l (Z.to_nat z) with Some v => IVal v | None => IOut end
  | VStr s, VInt z | VTag s, VInt z => match byte_at z s with Some b => IVal (VInt b) | None => IOut end
  | _, _ => IBad
  end.

(** reflect.Type.Implements(maybeif) *)
Definition implements (t : val) : option bool :=
  match t with
  | VType (RV false (GPtr T _ _)) => Some (maybe_ptr_T T)
  | VType (RV _ _) => Some false
  | VPtrTo (RV false (GMaybe _)) => Some true
  | VPtrTo (RV _ _) => Some false
  | _ => None
  end.

(** the fields of a struct type, given by a value of it; time.Time has three unexported
    ones, the Maybe types embed ValidFlag (maybe.go:57-73) *)
Definition unexported (n : string) : finfo * gval :=
  ({| f_name := n; f_exported := false; f_anon := false; f_tag := ""; f_iface := false |}, GInt "int64" Kint64 0).
Definition type_fields (r : rval) : option (list (finfo * gval)) :=
  match r with
  | RV false (GStruct _ fs) => Some fs
  | RV false (GTime _) => Some [unexported "wall"; unexported "ext"; unexported "loc"]
  | RV false (GMaybe m) =>
      Some [({| f_name := "ValidFlag"; f_exported := true; f_anon := true; f_tag := ""; f_iface := false |}, GBool "jsval.ValidFlag" (m_valid m));
            ({| f_name := "Value"; f_exported := true; f_anon := false; f_tag := ""; f_iface := false |}, m_value m)]
  | _ => None
  end.

(** key of a document's map as MapKeys returns it *)
Definition key_value (kk : keykind) (k : string) : rval :=
  match kk with
  | KString => RV false (gstr k)
  | KNamedString => RV false (GStr "main.Key" k)
  | KIface => RV true (gstr k)
  | KOther => RV false (GOther "key" Kunsafe false 0)
  end.

(** reflect: ConvertibleTo and Convert between scalars (Validate.v [to_field]), and to
    interface types *)
Definition convertible (d : gval) (t : rval) : bool :=
  match t with
  | RV true _ => true
  | RV false f =>
      match f, d with
      | GInt _ _ _, GInt _ _ _ | GInt _ _ _, GUint _ _ _ | GInt _ _ _, GFloat _ _ _
      | GUint _ _ _, GInt _ _ _ | GUint _ _ _, GUint _ _ _ | GUint _ _ _, GFloat _ _ _
      | GFloat _ _ _, GInt _ _ _ | GFloat _ _ _, GUint _ _ _ | GFloat _ _ _, GFloat _ _ _
      | GStr _ _, GStr _ _ | GBool _ _, GBool _ _ => true
      | _, _ => false
      end
  | RZero => false
  end.
Definition convert (d : gval) (t : rval) : rval :=
  match t with RV true _ => RV true d | RV false f => RV false (to_field d f) | RZero => RZero end.

(** methods of a reflect.Value, without arguments or with the given ones *)
Definition rv_method (cx : ctx) (l : loc) (m : string) (args : list val) (s : st) : ev val :=
  let r := rread l (doc s) in
  match m, args with
  | "Kind", [] => Ok (VKind (kind r)) s
  | "Elem", [] => if same_str (kind r) "ptr" || same_str (kind r) "interface" then Ok (VRv (LElem l)) s else panic "Elem" s
  | "Interface", [] => match r with RZero => panic "Interface of zero Value" s | _ => Ok (VIf l) s end
  | "Type", [] => match r with RZero => panic "Type of zero Value" s | _ => Ok (VType r) s end
  | "Int", [] => match r with RV false (GInt _ _ z) => Ok (VInt z) s | _ => panic "Int" s end
  | "Uint", [] => match r with RV false (GUint _ _ z) => Ok (VInt z) s | _ => panic "Uint" s end
  | "Float", [] => match r with RV false (GFloat _ is32 f) => Ok (VFloat (rv_float is32 f)) s | _ => panic "Float" s end
  | "Bool", [] => match r with RV false (GBool _ b) => Ok (VBool b) s | _ => panic "Bool" s end
  | "String", [] => match r with RV false (GStr _ x) => Ok (VStr x) s | _ => Stk "String of other kind" end
  | "Len", [] => match r with RV false (GSlice _ _ x) => Ok (VInt (Z.of_nat (match x with Some x => List.length x | None => O end))) s | _ => Stk "Len" end
  | "Index", [VInt i] =>
      match r with
      | RV false (GSlice _ _ (Some x)) => if (0 <=? i) && (i <? Z.of_nat (List.length x)) then Ok (VRv (LIdx l (Z.to_nat i))) s else panic "Index" s
      | _ => panic "Index" s
      end
  | "IsNil", [] =>
      match r with
      | RV true x => Ok (VBool (is_gnil x)) s
      | RV false (GSlice _ _ x) => Ok (VBool (match x with None => true | _ => false end)) s
      | RV false (GMap _ _ _ _ x) => Ok (VBool (match x with None => true | _ => false end)) s
      | RV false (GPtr _ _ x) => Ok (VBool (match x with None => true | _ => false end)) s
      | RV false (GOther _ Kchan x _) | RV false (GOther _ Kfunc x _) | RV false (GOther _ Kunsafe x _) => Ok (VBool x) s
      | _ => panic "IsNil" s
      end
  | "MapKeys", [] =>
      match r with
      | RV false (GMap _ kk _ _ x) =>
          let '(ks, u) := shuffle (ord_u s) (match x with Some x => keys x | None => [] end) in
          Ok (VList (values (fun k => VRv (LImm (key_value kk k))) ks)) (with_ord (ord_w s) u s)
      | _ => panic "MapKeys" s
      end
  | "MapIndex", [VRv k] =>
      match r, rread k (doc s) with
      | RV false (GMap _ kk _ _ x), RV false (GStr _ k) =>
          match kk with
          | KNamedString | KOther => panic "MapIndex: key not assignable" s
          | _ =>
              match x with
              | None => Ok (VRv (LImm RZero)) s
              | Some x => match sget k x with Some _ => Ok (VRv (LKey l k)) s | None => Ok (VRv (LImm RZero)) s end
              end
          end
      | _, _ => panic "MapIndex" s
      end
  | "SetMapIndex", [VRv k; VRv y] =>
      match r, rread k (doc s) with
      | RV false (GMap T kk ifc ET x), RV false (GStr _ k) =>
          match kk with
          | KNamedString | KOther => panic "SetMapIndex: key not assignable" s
          | _ =>
              match rread y (doc s) with
              | RZero =>      (* deletes; nothing happens on a nil map *)
                  Ok VNil (with_doc (rwrite l (GMap T kk ifc ET (match x with None => None | Some x => Some (sdel k x) end)) (doc s)) s)
              | RV _ g =>
                  if ifc || same_str (typ g) ET then
                    match x with
                    | None => panic "assignment to entry in nil map" s
                    | Some x => Ok VNil (with_doc (rwrite l (GMap T kk ifc ET (Some (sset k g x))) (doc s)) s)
                    end
                  else panic "SetMapIndex: value not assignable" s
              end
          end
      | _, _ => panic "SetMapIndex" s
      end
  | "FieldByName", [VStr f] =>
      match r with
      | RV false x =>
          if same_str (kind r) "struct" then
            match field_by_name x f with Some _ => Ok (VRv (LFld l f)) s | None => Ok (VRv (LImm RZero)) s end
          else panic "FieldByName" s
      | _ => panic "FieldByName" s
      end
  | "MethodByName", [VStr f] =>
      match r with
      | RZero => panic "MethodByName of zero Value" s
      | _ =>
          if mem f ["Valid"; "Value"] && is_maybe r then Ok (VMeth l f) s
          else if String.eqb f "Set" && is_maybe r then
            match r with RV false (GPtr _ _ _) => Ok (VMeth l f) s | _ => Ok (VRv (LImm RZero)) s end
          else Ok (VRv (LImm RZero)) s
      end
  | "Call", _ => panic "Call of zero Value" s
  | "CanAddr", [] => Ok (VBool (addressable l (doc s))) s
  | "Addr", [] => if addressable l (doc s) then Ok (VAddr l) s else panic "Addr" s
  | "Convert", [VType t] => match r with RZero => panic "Convert" s | RV _ d => Ok (VRv (LImm (convert d t))) s end
  | "Set", [VRv y] =>
      match r, rread y (doc s) with
      | RV ifc f, RV _ g =>
          if negb (addressable l (doc s)) then panic "Set using unaddressable value" s
          else if ifc || same_str (typ g) (typ f) then Ok VNil (with_doc (rwrite l g (doc s)) s)
          else panic "Set: value not assignable" s
      | _, _ => panic "Set" s
      end
  | _, _ => Stk ("reflect.Value." +++ m)
  end.

(** mv.Call(..) of a method of a Maybe: its result, as a slice of one reflect.Value *)
Definition call_maybe (cx : ctx) (l : loc) (m : string) (args : list val) (s : st) : ev val :=
  let r := rread l (doc s) in
  match m, args with
  | "Valid", [VNil] =>
      match maybe_of r with
      | Some x => Ok (VList [VRv (LImm (RV false (gbool (m_valid x))))]) s
      | None => panic "Valid" s
      end
  | "Value", [VNil] =>
      match maybe_of r with
      | Some x => Ok (VList [VRv (LImm (RV true (m_value x)))]) s
      | None => panic "Value" s
      end
  | "Set", [VList [VRv y]] =>       (* l: a *MaybeX, or the addressable MaybeX itself *)
      let d := rcontent (rread y (doc s)) in
      match r with
      | RV false (GMaybe x) =>
          match m_set (e_time (cx_E cx)) x d with
          | inl x' => Ok (VList [VErrRv None]) (with_doc (rwrite l (GMaybe x') (doc s)) s)
          | inr e => Ok (VList [VErrRv (Some e)]) s
          end
      | RV false (GPtr _ _ (Some (_, GMaybe x))) =>
          match m_set (e_time (cx_E cx)) x d with
          | inl x' => Ok (VList [VErrRv None]) (with_doc (rwrite (LElem l) (GMaybe x') (doc s)) s)
          | inr e => Ok (VList [VErrRv (Some e)]) s
          end
      | _ => panic "Set" s
      end
  | _, _ => Stk ("Maybe." +++ m)
  end.

(** an argument passed as interface{} *)
Definition as_if (v : val) : option loc :=
  match v with
  | VIf l => Some l
  | VNil => Some (LImm RZero)
  | VStr x => Some (LImm (RV false (gstr x)))
  | VFloat f => Some (LImm (RV false (gfloat f)))
  | VBool b => Some (LImm (RV false (gbool b)))
  | _ => None
  end.

(** c.Validate(x), c.HasDefault(), c.DefaultValue() of an interface value *)
Definition child (cx : ctx) (c : constr) (m : string) (args : list val) (s : st) : ev val :=
  match m, args with
  | "Validate", [x] =>
      match as_if x with
      | Some l =>
          match cx_rec cx c (content l (doc s)) (ord_w s) (ord_u s) with
          | None => Stk "Validate"
          | Some (r, y, w, u) =>
              let s' := with_ord w u (with_doc (rwrite l y (doc s)) s) in
              match r with
              | Pass => Ok VNil s'
              | Fail e => Ok (VErr e) s'
              | r => Ab r s'
              end
          end
      | None => Stk "Validate: argument"
      end
  | "HasDefault", [] =>
      match cx_gd cx c with
      | Some DNone => Ok (VBool false) s
      | Some (DSome _) => Ok (VBool true) s
      | Some DPanic => panic "nil Constraint" s
      | Some DOOF => Ab OOF s
      | None => Stk "HasDefault"
      end
  | "DefaultValue", [] =>
      match cx_gd cx c with
      | Some DNone => Ok VNil s
      | Some (DSome g) => Ok (of_if g) s
      | Some DPanic => panic "nil Constraint" s
      | Some DOOF => Ab OOF s
      | None => Stk "DefaultValue"
      end
  | _, _ => Stk ("Constraint." +++ m)
  end.

(** functions of other packages *)
Definition pkg_call (cx : ctx) (p f : string) (args : list val) (s : st) : ev (list val) :=
  match p, f, args with
  | "pdebug", "Printf", _ => Ok [] s
  | "reflect", "ValueOf", [v] => match as_if v with Some l => Ok [VRv (LVal l)] s | None => Stk "ValueOf" end
  | "reflect", "PtrTo", [VType r] => Ok [VPtrTo r] s
  | "reflect", "TypeOf", [VIf l] => Ok [match rread (LVal l) (doc s) with RZero => VNil | r => VType r end] s
  | "errors", "New", [VStr m] => Ok [VErr m] s
  | "errors", "Wrapf", [VNil; VStr _; _] => Ok [VNil] s
  | "errors", "Wrapf", [VErr e; VStr "validator %s failed"; VStr n] => Ok [VErr ("validator " +++ n +++ " failed: " +++ e)] s
  | "errors", "Wrapf", [VErr e; VStr "validator %p failed"; VJSVal _ a _] => Ok [VErr ("validator " +++ a +++ " failed: " +++ e)] s
  | "fmt", "Sprintf", [VStr "%s"; VIf l] => Ok [VStr (sprint (cx_E cx) true (content l (doc s)))] s
  | "math", "Mod", [VFloat x; VFloat y] => Ok [VFloat (fmod x y)] s
  | "math", "Floor", [VFloat x] => Ok [VFloat (ffloor x)] s
  | "strconv", "Itoa", [VInt z] => Ok [VStr (dec_Z z)] s
  | "time", "Parse", [VKind "RFC3339"; VStr x] =>
      match e_time (cx_E cx) x with inl t => Ok [VTime t; VNil] s | inr e => Ok [VTime 0; VErr e] s end
  | "mail", "ParseAddress", [VStr x] => match e_email (cx_E cx) x with None => Ok [VUnit; VNil] s | Some e => Ok [VNil; VErr e] s end
  | "net", "ParseIP", [VStr x] => Ok [if e_ip (cx_E cx) x then VUnit else VNil] s
  | "url", "Parse", [VStr x] => if e_uri (cx_E cx) x then Ok [VUnit; VNil] s else Ok [VNil; VErr ""] s
  | _, _, _ => Stk (p +++ "." +++ f)
  end.
Definition pkg_value (p x : string) : option val :=
  match p, x with
  | "pdebug", "Enabled" => Some (VBool false)
  | "time", "RFC3339" => Some (VKind "RFC3339")
  | "reflect", _ =>
      option_map (fun p => VKind (snd p)) (find (fun p => String.eqb (fst p) x)
        [("Bool", "bool"); ("Int", "int"); ("Int8", "int8"); ("Int16", "int16"); ("Int32", "int32"); ("Int64", "int64");
         ("Uint", "uint"); ("Uint8", "uint8"); ("Uint16", "uint16"); ("Uint32", "uint32"); ("Uint64", "uint64"); ("Uintptr", "uintptr");
         ("Float32", "float32"); ("Float64", "float64"); ("String", "string"); ("Slice", "slice"); ("Map", "map"); ("Ptr", "ptr");
         ("Struct", "struct"); ("Interface", "interface"); ("Chan", "chan"); ("Func", "func")])
  | _, _ => None
  end.
(** package-level variables and predeclared identifiers (interface.go:11, structinfo.go:112,
    object.go:156, 201-206) *)
Definition global (x : string) : option val :=
  match x with
  | "nil" => Some VNil
  | "true" => Some (VBool true)
  | "false" => Some (VBool false)
  | "zeroval" => Some (VRv (LImm RZero))
  | "maybeif" => Some VMaybeIf
  | "structInfoRegistry" => Some VRegistry
  | "maybefloatT" => Some (VType (RV false (GMaybe zero_MFloat)))
  | "maybeintT" => Some (VType (RV false (GMaybe zero_MInt)))
  | "floatT" => Some (VType (RV false (gfloat fzero)))
  | "intT" => Some (VType (RV false (GInt "int64" Kint64 0)))
  | _ => None
  end.

(** the interfaces objects may implement to name their own properties (object.go:11-19);
    Custom.v is about objects that do *)
Definition no_such_method (t : option ty) : bool :=
  match t with Some (TName x) => mem x ["getPropNameser"; "getPropValuer"] | _ => false end.

(** x.(T) for the basic types and time.Time, exact dynamic type (maybe.go) *)
Definition assert_basic (T : string) (g : gval) : option val :=
  match g with
  | GBool T' b => if String.eqb T T' && String.eqb T "bool" then Some (VBool b) else None
  | GInt T' k z => if String.eqb T T' && String.eqb T (ikind_s k) then Some (VInt z) else None
  | GUint T' k z => if String.eqb T T' && String.eqb T (ukind_s k) then Some (VInt z) else None
  | GFloat T' is32 f => if String.eqb T T' && String.eqb T (if is32 then "float32" else "float64") then Some (VFloat (rv_float is32 f)) else None
  | GStr T' x => if String.eqb T T' && String.eqb T "string" then Some (VStr x) else None
  | GTime t => if String.eqb T "time.Time" then Some (VTime t) else None
  | _ => None
  end.
Definition type_text (t : ty) : string := match t with TName x => x | TQual p x => dotted p x | _ => "" end.

(** field selection *)
Definition select (v : val) (x : string) : option val :=
  match v with
  | VObj c => obj_field c x
  | VSI props => match x with "props" => Some (str_map VProp props) | "lock" => Some VLock | _ => None end
  | VProp p => match x with "FieldName" => Some (VStr (p_field p)) | "IsMaybe" => Some (VBool (p_maybe p)) | _ => None end
  | VField f g =>
      match x with
      | "Anonymous" => Some (VBool (f_anon f))
      | "PkgPath" => Some (VStr (if f_exported f then "" else "pkg"))
      | "Name" => Some (VStr (f_name f))
      | "Tag" => Some (VTag (f_tag f))
      | "Type" => Some (VType (RV (f_iface f) g))
      | _ => None
      end
  | VMaybe m =>
      match m, x with
      | _, "ValidFlag" => Some (VFlag (m_valid m))
      | MBool _ b, "Bool" => Some (VBool b)
      | MFloat _ f, "Float" => Some (VFloat f)
      | MInt _ z, "Int" => Some (VInt z)
      | MString _ z, "String" => Some (VStr z)
      | MTime _ z, "Time" => Some (VTime z)
      | MUint _ z, "Uint" => Some (VInt z)
      | _, _ => None
      end
  | VErrIM y => match x with "Value" => Some y | _ => None end
  | VJSVal n a r => match x with "Name" => Some (VStr n) | "root" => Some (VConstr r) | _ => None end
  | _ => None
  end.
(** v.x = y on a receiver *)
Definition assign_field (v : val) (x : string) (y : val) : option val :=
  match v, x, y with
  | VObj (CRef n), "resolved", _ => Some v
  | VMaybe (MBool f b), "ValidFlag", VBool g => Some (VMaybe (MBool g b))
  | VMaybe (MFloat f b), "ValidFlag", VBool g => Some (VMaybe (MFloat g b))
  | VMaybe (MInt f b), "ValidFlag", VBool g => Some (VMaybe (MInt g b))
  | VMaybe (MString f b), "ValidFlag", VBool g => Some (VMaybe (MString g b))
  | VMaybe (MTime f b), "ValidFlag", VBool g => Some (VMaybe (MTime g b))
  | VMaybe (MUint f b), "ValidFlag", VBool g => Some (VMaybe (MUint g b))
  | VMaybe (MBool f _), "Bool", VBool b => Some (VMaybe (MBool f b))
  | VMaybe (MFloat f _), "Float", VFloat b => Some (VMaybe (MFloat f b))
  | VMaybe (MInt f _), "Int", VInt b => Some (VMaybe (MInt f b))
  | VMaybe (MString f _), "String", VStr b => Some (VMaybe (MString f b))
  | VMaybe (MTime f _), "Time", VTime b => Some (VMaybe (MTime f b))
  | VMaybe (MUint f _), "Uint", VInt b => Some (VMaybe (MUint f b))
  | _, _, _ => None
  end.

(** conversions T(x) *)
Definition conversion (T : string) (v : val) : option val :=
  match T, v with
  | "float64", VInt z => Some (VFloat (f64_of_Z z))
  | "float64", VFloat f => Some (VFloat f)
  | "int64", VInt z => Some (VInt (wrap 64 z))
  | "int64", VFloat f => Some (VInt (f64_to_int64 f))
  | "uint64", VInt z => Some (VInt (z mod 2 ^ 64))
  | "uint64", VFloat f => Some (VInt (f64_to_uint64 f))
  | "byte", VInt z => Some (VInt z)
  | "bool", VFlag b => Some (VBool b)
  | _, _ => None
  end.

(** methods of all other values *)
Definition method_call (cx : ctx) (call : string -> list val -> st -> ev (list val)) (v : val) (m : string) (args : list val) (s : st)
  : ev (list val) :=
  let one (x : ev val) : ev (list val) := do a, s <- x; Ok [a] s in
  match v with
  | VLock => if mem m ["Lock"; "Unlock"; "RLock"; "RUnlock"] then Ok [] s else Stk m
  | VRv l => one (rv_method cx l m args s)
  | VMeth l f => match m with "Call" => one (call_maybe cx l f args s) | _ => Stk m end
  | VErrRv e =>
      match m, e with
      | "IsNil", None => Ok [VBool true] s
      | "IsNil", Some _ => Ok [VBool false] s
      | "Interface", Some e => Ok [VErr e] s
      | _, _ => Stk m
      end
  | VAddr l =>
      match m, args with
      | "Type", [] => Ok [VPtrTo (rread l (doc s))] s
      | "MethodByName", [VStr f] =>
          match rread l (doc s) with
          | RV false (GMaybe _) => Ok [VMeth l f] s
          | _ => Ok [VRv (LImm RZero)] s
          end
      | _, _ => Stk m
      end
  | VKind k => match m with "String" => Ok [VStr k] s | _ => Stk m end
  | VType r =>
      match m, args with
      | "String", [] => match r with RV false g => Ok [VStr (typ g)] s | _ => Stk m end
      | "Implements", [VMaybeIf] => match implements v with Some b => Ok [VBool b] s | None => Stk m end
      | "ConvertibleTo", [VType t] => Ok [VBool (convertible (rcontent r) t)] s
      | "NumField", [] => match type_fields r with Some fs => Ok [VInt (Z.of_nat (List.length fs))] s | None => panic "NumField" s end
      | "Field", [VInt i] =>
          match type_fields r with
          | Some fs => if i <? 0 then panic "Field" s else match nth_error fs (Z.to_nat i) with Some (f, g) => Ok [VField f g] s | None => panic "Field" s end
          | None => panic "Field" s
          end
      | _, _ => Stk m
      end
  | VPtrTo r => match m, args with "Implements", [VMaybeIf] => match implements v with Some b => Ok [VBool b] s | None => Stk m end | _, _ => Stk m end
  | VErr e => match m with "Error" => Ok [VStr e] s | _ => Stk m end
  | VRx r =>
      match m, args with
      | "String", [] => Ok [VStr r] s
      | "MatchString", [VStr x] => Ok [VBool (e_rx (cx_E cx) r x)] s
      | _, _ => Stk m
      end
  | VConstr c => one (child cx c m args s)
  | VNil => one (child cx CNil m args s)
  | VObj c => call (method c m) (v :: args) s
  | VSI _ => call (dotted "StructInfo" m) (v :: args) s
  | VRegistry =>
      match m, args with
      | "Lookup", [VType (RV false g)] =>
          match extract g with
          | Some props => if cx_hit cx (typ g) then Ok [VSI props; VBool true] s else Ok [VNil; VBool false] s
          | None => Ok [VNil; VBool false] s
          end
      | "Register", [VType (RV false g)] =>
          match extract g with Some props => Ok [VSI props] s | None => panic "NumField" s end
      | _, _ => Stk m
      end
  | VResolver =>
      match m, args with
      | "GetReference", [VStr name] =>
          match e_refs (cx_E cx) name with
          | Some c => Ok [VConstr c; VNil] s
          | None => Ok [VNil; VErr ("reference '" +++ name +++ "' not found")] s
          end
      | _, _ => Stk m
      end
  | VTag t => match m, args with "Get", [VStr "json"] => Ok [VStr t] s | _, _ => Stk m end
  | VErrIM y => call (dotted "ErrInvalidMaybeValue" m) (v :: args) s
  | _ => Stk m
  end.

(** a map in a variable may only be used in place: passing or storing it would make a
    second reference to it *)
Definition fresh (e : expr) : bool := match e with ECall _ _ | ELit _ _ => true | _ => false end.
Definition no_map (v : val) : bool := match v with VMap _ => false | _ => true end.
Definition single (l : list val) : option val := match l with [v] => Some v | _ => None end.

(** ** Expressions.  [two]: the form with the extra boolean result is meant *)
Section Eval.
  Variable cx : ctx.
  Variable call : string -> list val -> st -> ev (list val).

  Definition ok1 (v : val) (s : st) : ev (list val) := Ok [v] s.
  Definition the (x : ev (list val)) : ev val :=
    do l, s <- x; match single l with Some v => Ok v s | None => Stk "one value expected" end.

  Definition eval_args (eval : expr -> st -> ev (list val)) :=
    fix go (l : list expr) (s : st) : ev (list val) :=
      match l with
      | [] => Ok [] s
      | e :: r =>
          do v, s <- the (eval e s);
          if no_map v then do vs, s <- go r s; Ok (v :: vs) s else Stk "map passed on"
      end.
  Definition eval_elems (eval : expr -> st -> ev (list val)) :=
    fix go (l : list (option string * expr)) (s : st) : ev (list (option string * val)) :=
      match l with
      | [] => Ok [] s
      | (k, e) :: r =>
          do v, s <- the (eval e s);
          if no_map v then do vs, s <- go r s; Ok ((k, v) :: vs) s else Stk "map stored"
      end.

  Definition composite (t : ty) (l : list (option string * val)) : option val :=
    match t, l with
    | TMap _ _, [] => Some (VMap [])
    | TStruct, [] => Some VUnit
    | TSlice _, _ => Some (VList (map snd l))
    | TName "PropInfo", [(Some "FieldName", VStr f); (Some "IsMaybe", VBool b)] => Some (VProp {| p_field := f; p_maybe := b |})
    | TName "ErrInvalidMaybeValue", [(Some "Value", v)] => Some (VErrIM v)
    | TQual "bytes" "Buffer", [] => Some (VBuf "")
    | _, _ => None
    end.

  Definition builtin (f : string) (args : list val) (s : st) : ev (list val) :=
    match f, args with
    | "len", [v] => match len_of v with Some n => ok1 (VInt n) s | None => Stk "len" end
    | "append", [VList l; v] => ok1 (VList (l ++ [v])) s
    | "append", [VNil; v] => ok1 (VList [v]) s
    | _, [v] => match conversion f v with Some v => ok1 v s | None => call f args s end
    | _, _ => call f args s
    end.

  Definition make (t : ty) (args : list val) (s : st) : ev (list val) :=
    match t, args with
    | TMap _ _, [] => ok1 (VMap []) s
    | TSlice (TName "string"), VInt n :: _ => if n <? 0 then panic "makeslice" s else ok1 (VList (repeat (VStr "") (Z.to_nat n))) s
    | _, _ => Stk "make"
    end.

  Fixpoint eval (two : bool) (e : expr) (s : st) {struct e} : ev (list val) :=
    match e with
    | EId x =>
        match get_var x (env_ s) with
        | Some v => ok1 v s
        | None => match global x with Some v => ok1 v s | None => Stk ("unbound " +++ x) end
        end
    | EStr x => ok1 (VStr x) s
    | ENum z | EChr z => ok1 (VInt z) s
    | ESel (EId p) x =>
        match get_var p (env_ s) with
        | Some v => match select v x with Some v => ok1 v s | None => Stk ("field " +++ x) end
        | None => match pkg_value p x with Some v => ok1 v s | None => Stk (p +++ "." +++ x) end
        end
    | ESel e' x =>
        do v, s <- the (eval false e' s);
        match select v x with Some v => ok1 v s | None => Stk ("field " +++ x) end
    | ECall (EId "make") (EType t :: args) => do vs, s <- eval_args (eval false) args s; make t vs s
    | ECall (EId "len") [a] =>        (* the argument may be a map *)
        do v, s <- the (eval false a s); builtin "len" [v] s
    | ECall (EId f) args => do vs, s <- eval_args (eval false) args s; builtin f vs s
    | ECall (ESel (EId p) m) args =>
        match get_var p (env_ s) with
        | None =>
            match global p with
            | Some v => do vs, s <- eval_args (eval false) args s; method_call cx call v m vs s
            | None => do vs, s <- eval_args (eval false) args s; pkg_call cx p m vs s
            end
        | Some v => do vs, s <- eval_args (eval false) args s; method_call cx call v m vs s
        end
    | ECall (ESel e' m) args =>
        do v, s <- the (eval false e' s);
        do vs, s <- eval_args (eval false) args s;
        method_call cx call v m vs s
    | ECall _ _ => Stk "call"
    | EIdx a i =>
        do v, s <- the (eval false a s);
        do k, s <- the (eval false i s);
        match v with
        | VMap m =>
            if negb (is_str k) then Stk "map key" else
            match two, m_get k m with
            | true, Some x => Ok [x; VBool true] s
            | true, None => Ok [VNil; VBool false] s
            | false, Some x => ok1 x s
            | false, None => Stk "missing map entry"
            end
        | _ => match index v k with IVal x => ok1 x s | IOut => panic "index out of range" s | IBad => Stk "index" end
        end
    | ESub a None (Some hi) =>
        do v, s <- the (eval false a s);
        do k, s <- the (eval false hi s);
        match v, k with
        | VStr x, VInt n => if (0 <=? n) && (n <=? slen x) then ok1 (VStr (String.substring 0 (Z.to_nat n) x)) s else panic "slice bounds" s
        | _, _ => Stk "slice"
        end
    | ESub _ _ _ => Stk "slice"
    | EUn "-" a => do v, s <- the (eval false a s); match v with VInt z => ok1 (VInt (- z)) s | _ => Stk "-" end
    | EUn "!" a => do v, s <- the (eval false a s); match v with VBool b => ok1 (VBool (negb b)) s | _ => Stk "!" end
    | EUn op _ => Stk op
    | EBin "&&" a b =>
        do v, s <- the (eval false a s);
        match v with
        | VBool true => do v, s <- the (eval false b s); match v with VBool b => ok1 (VBool b) s | _ => Stk "&&" end
        | VBool false => ok1 (VBool false) s
        | _ => Stk "&&"
        end
    | EBin "||" a b =>
        do v, s <- the (eval false a s);
        match v with
        | VBool false => do v, s <- the (eval false b s); match v with VBool b => ok1 (VBool b) s | _ => Stk "||" end
        | VBool true => ok1 (VBool true) s
        | _ => Stk "||"
        end
    | EBin op a b =>
        do v, s <- the (eval false a s);
        do u, s <- the (eval false b s);
        do r, s <- binop op v u s; ok1 r s
    | EAs a t =>
        do v, s <- the (eval false a s);
        if no_such_method t && two then Ok [VNil; VBool false] s
        else match v, t with
        | VErr m, Some (TName "error") => if two then Stk "assertion" else ok1 v s
        | VIf l, Some t =>
            match assert_basic (type_text t) (content l (doc s)), two with
            | Some v, true => Ok [v; VBool true] s
            | Some v, false => ok1 v s
            | None, true => Ok [VNil; VBool false] s
            | None, false => panic "interface conversion" s
            end
        | _, _ => Stk "assertion"
        end
    | ELit t l =>
        do vs, s <- eval_elems (eval false) l s;
        match composite t vs with Some v => ok1 v s | None => Stk "composite literal" end
    | EType _ | EFunc => Stk "expression"
    end.
End Eval.

(** ** Statements *)
(** an upper bound for the number of rounds of a counting loop: the sizes of the values in
    scope.  Only a device for termination: a loop that runs longer is stuck. *)
Definition val_size (v : val) : nat :=
  match v with
  | VInt z => Z.abs_nat z
  | VStr s | VTag s => String.length s
  | VType r => match type_fields r with Some fs => List.length fs | None => 0 end
  | _ => 0
  end%nat.
Definition env_size (e : list scope) : nat := list_sum (map (fun l => list_sum (map (fun p => val_size (snd p)) l)) e).

Definition zero_value (t : ty) : option val :=
  match t with
  | TMap _ _ | TSlice _ | TIface => Some VNil
  | TName "string" => Some (VStr "")
  | TQual "reflect" "Value" => Some (VRv (LImm RZero))
  | _ => None
  end.

(** entries of a list with their indices *)
Fixpoint indexed (i : Z) (l : list val) : list (val * val) :=
  match l with [] => [] | v :: r => (VInt i, v) :: indexed (i + 1) r end.

(** entries of a string; the code never uses the byte offsets *)
Definition rune_entries (x : string) : list (val * val) := map (fun r => (VUnit, VInt r)) (runes x).

Section Exec.
  Variable cx : ctx.
  Variable call : string -> list val -> st -> ev (list val).
  Variable fname : string.     (* the function being executed; loops are told apart by it *)
  Notation eval := (eval cx call).

  Definition assign1 (def : bool) (lhs : expr) (v : val) (s : st) : oc :=
    match lhs with
    | EId "_" => Nx s
    | EId x =>
        if def then Nx (with_env (def_var x v (env_ s)) s)
        else match set_var x v (env_ s) with Some e => Nx (with_env e s) | None => StkS ("assign " +++ x) end
    | EIdx (EId x) i =>
        run k, s <- the (eval false i s);
        match get_var x (env_ s) with
        | Some (VMap m) =>
            if negb (is_str k) then StkS "map key" else
            match set_var x (VMap (m_put k v m)) (env_ s) with Some e => Nx (with_env e s) | None => StkS "assign" end
        | Some (VList l) =>
            match k with
            | VInt i =>
                if (0 <=? i) && (i <? Z.of_nat (List.length l))
                then match set_var x (VList (set_nth (Z.to_nat i) v l)) (env_ s) with Some e => Nx (with_env e s) | None => StkS "assign" end
                else AbS (Panic "index out of range") s
            | _ => StkS "index"
            end
        | _ => StkS "indexed assignment"
        end
    | ESel (EId x) f =>
        match get_var x (env_ s) with
        | Some r =>
            match assign_field r f v with
            | Some r' => match set_var x r' (env_ s) with Some e => Nx (with_env e s) | None => StkS "assign" end
            | None => StkS ("field " +++ f)
            end
        | None => StkS ("assign " +++ x)
        end
    | _ => StkS "assignment"
    end.
  Definition ends_here (o : oc) (k : st -> oc) : oc := match o with Nx s => k s | o => o end.
  (** values to places, left to right *)
  Fixpoint assign_all (def : bool) (lhs : list expr) (vs : list val) (s : st) : oc :=
    match lhs, vs with
    | [], [] => Nx s
    | e :: r, v :: vs' => ends_here (assign1 def e v s) (assign_all def r vs')
    | _, _ => StkS "assignment"
    end.

  Definition assign (lhs : list expr) (op : string) (rhs : list expr) (s : st) : oc :=
    let def := String.eqb op ":=" in
    if negb (mem op [":="; "="]) then StkS op
    else match lhs, rhs with
    | [l], [r] =>
        run v, s <- the (eval false r s);
        if no_map v || fresh r then assign1 def l v s else StkS "map assigned"
    | [_; _], [r] =>
        run vs, s <- eval true r s;
        if forallb no_map vs then assign_all def lhs vs s else StkS "map assigned"
    | _, _ => StkS "assignment"
    end.

  (** the entries a range statement runs over, and the state after choosing their order *)
  Definition items (line : Z) (v : val) (s : st) : option (list (val * val) * st) :=
    match v with
    | VNil => Some ([], s)
    | VList l => Some (indexed 0 l, s)
    | VStr x => Some (rune_entries x, s)
    | VMap m =>
        let k := cx_site cx fname line in
        if aux k then let '(l, u) := shuffle (ord_u s) (arrange k m) in Some (l, with_ord (ord_w s) u s)
        else let '(l, w) := shuffle (ord_w s) (arrange k m) in Some (l, with_ord w (ord_u s) s)
    | _ => None
    end.
  (** is the entry still there? *)
  Definition still (e : expr) (k : val) (s : st) : bool :=
    match e with
    | EId x => match get_var x (env_ s) with Some (VMap m) => match m_get k m with Some _ => true | None => false end | _ => true end
    | _ => true
    end.

  Definition bind_range (def : bool) (k v : option string) (a b : val) (s : st) : oc :=
    if negb def then match k, v with None, None => Nx s | _, _ => StkS "range" end
    else Nx (with_env (match v with Some x => def_var x b | None => fun e => e end
                        (match k with Some x => def_var x a | None => fun e => e end (env_ s))) s).

  Definition run_list (exec : stmt -> st -> oc) :=
    fix go (l : list stmt) (s : st) : oc :=
      match l with
      | [] => Nx s
      | x :: r => ends_here (exec x s) (go r)
      end.
  (** a block has its own scope *)
  Definition leave (o : oc) : oc :=
    match o with Nx s => Nx (pop s) | Bk s => Bk (pop s) | Ct s => Ct (pop s) | o => o end.
  Definition block (exec : stmt -> st -> oc) (l : list stmt) (s : st) : oc := leave (run_list exec l (push s)).

  (** the rounds of a range statement *)
  Fixpoint rounds (body : st -> oc) (e : expr) (def : bool) (k v : option string) (l : list (val * val)) (s : st) : oc :=
    match l with
    | [] => Nx s
    | (a, b) :: r =>
        if still e a s then
          match leave (ends_here (bind_range def k v a b (push s)) body) with
          | Nx s | Ct s => rounds body e def k v r s
          | Bk s => Nx s
          | o => o
          end
        else rounds body e def k v r s
    end.
  (** the rounds of a counting loop *)
  Fixpoint loop (cond : st -> ev val) (post body : st -> oc) (n : nat) (s : st) : oc :=
    match n with
    | O => StkS "loop"
    | S n' =>
        run b, s <- cond s;
        match b with
        | VBool true =>
            match body s with
            | Nx s | Ct s => ends_here (post s) (loop cond post body n')
            | Bk s => Nx s
            | o => o
            end
        | VBool false => Nx s
        | _ => StkS "condition"
        end
    end.

  (** does one of the case expressions equal the tag? *)
  Definition matches (tag : option val) :=
    fix go (l : list expr) (s : st) : ev bool :=
      match l with
      | [] => Ok false s
      | e :: r =>
          do v, s <- the (eval false e s);
          do b, s <- match tag with
                     | None => Ok v s
                     | Some t => binop "==" t v s
                     end;
          match b with VBool true => Ok true s | VBool false => go r s | _ => Stk "case" end
      end.
  Definition no_break (o : oc) : oc := match o with Bk s => Nx s | o => o end.
  Definition default_clause (cls : list (option (list expr) * list stmt)) : list stmt :=
    match find (fun c => match fst c with None => true | _ => false end) cls with Some (_, b) => b | None => [] end.
  Definition pick (tag : option val) :=
    fix go (cls : list (option (list expr) * list stmt)) (s : st) : ev (option nat) :=
      match cls with
      | [] => Ok None s
      | (None, _) :: r => do o, s <- go r s; Ok (option_map S o) s
      | (Some l, _) :: r =>
          do b, s <- matches tag l s;
          if b then Ok (Some O) s else do o, s <- go r s; Ok (option_map S o) s
      end.
  Fixpoint default_at {A} (cls : list (option A * list stmt)) : option nat :=
    match cls with [] => None | (None, _) :: _ => Some O | _ :: r => option_map S (default_at r) end.
  (** run the clause at that position *)
  Definition clause {A} (go_in : list stmt -> st -> oc) :=
    fix go (cls : list (option A * list stmt)) (o : option nat) (s : st) : oc :=
      match cls, o with
      | (_, b) :: _, Some O => no_break (go_in b s)
      | _ :: r, Some (S i) => go r (Some i) s
      | _, _ => Nx s
      end.
  (** position of the clause of a type switch on basic types *)
  Fixpoint tpick (g : gval) (cls : list (option (list ty) * list stmt)) : option nat :=
    match cls with
    | [] => None
    | (Some l, _) :: r =>
        if existsb (fun t => match assert_basic (type_text t) g with Some _ => true | None => false end) l
        then Some O else option_map S (tpick g r)
    | (None, _) :: r => option_map S (tpick g r)
    end.

  (** only unlocking is deferred *)
  Definition unlocking (e : expr) : bool :=
    match e with ECall (ESel _ m) [] => mem m ["Unlock"; "RUnlock"] | _ => false end.

  Definition opt_stmt (exec : stmt -> st -> oc) (o : option stmt) (s : st) : oc :=
    match o with None => Nx s | Some x => exec x s end.

  Fixpoint exec (x : stmt) (s : st) {struct x} : oc :=
    match x with
    | SExpr (ECall (EId "delete") [EId m; k]) =>
        run k, s <- the (eval false k s);
        match get_var m (env_ s) with
        | Some (VMap l) => match set_var m (VMap (m_del k l)) (env_ s) with Some e => Nx (with_env e s) | None => StkS "delete" end
        | _ => StkS "delete"
        end
    | SExpr e => run _, s <- eval false e s; Nx s
    | SAssign lhs op rhs => assign lhs op rhs s
    | SInc (EId x) "++" =>
        match get_var x (env_ s) with
        | Some (VInt z) => match set_var x (VInt (z + 1)) (env_ s) with Some e => Nx (with_env e s) | None => StkS "++" end
        | _ => StkS "++"
        end
    | SInc _ _ => StkS "++"
    | SVar x _ (Some e) => run v, s <- the (eval false e s); if no_map v || fresh e then Nx (with_env (def_var x v (env_ s)) s) else StkS "map assigned"
    | SVar x (Some t) None => match zero_value t with Some v => Nx (with_env (def_var x v (env_ s)) s) | None => StkS "var" end
    | SVar x None None => StkS "var"
    | SIf i c a b =>
        leave (ends_here (opt_stmt exec i (push s)) (fun s =>
          run v, s <- the (eval false c s);
          match truth v with
          | Some b' => if b' then block exec a s else block exec b s
          | None => StkS "condition"
          end))
    | SFor line i c p body =>
        leave (ends_here (opt_stmt exec i (push s)) (fun s =>
          match c with
          | Some c =>
              loop (fun s => the (eval false c s)) (opt_stmt exec p) (block exec body) (S (env_size (env_ s))) s
          | None => StkS "for"
          end))
    | SRange line k v def e body =>
        run x, s <- the (eval false e s);
        match items line x s with
        | Some (l, s) => rounds (run_list exec body) e def k v l s
        | None => StkS "range"
        end
    | SSwitch tag cls =>
        run t, s <- match tag with None => Ok None s | Some e => do v, s <- the (eval false e s); Ok (Some v) s end;
        run o, s <- pick t cls s;
        clause (block exec) cls (match o with Some i => Some i | None => default_at cls end) s
    | STSwitch e cls =>
        run v, s <- the (eval false e s);
        match v with
        | VIf l =>
            clause (block exec) cls (match tpick (content l (doc s)) cls with Some i => Some i | None => default_at cls end) s
        | _ => StkS "type switch"
        end
    | SReturn [e] => run vs, s <- eval false e s; Rt vs s      (* several values: return f() *)
    | SReturn [e1; e2] => run v, s <- the (eval false e1 s); run u, s <- the (eval false e2 s); Rt [v; u] s
    | SReturn _ => StkS "return"
    | SBreak => Bk s
    | SContinue => Ct s
    | SDefer e => if unlocking e then Nx s else StkS "defer"
    end.
End Exec.

(** ** Functions *)
(** one function call: parameters and named results are the outermost scope of the body *)
(** a value passed as interface{} *)
Definition passed (t : ty) (v : val) : val :=
  match t with TIface => match as_if v with Some l => VIf l | None => v end | _ => v end.
Definition passed_all (f : func) (args : list val) : list val :=
  match fn_recv f, args with
  | Some _, r :: l => r :: map (fun p => passed (fst p) (snd p)) (combine (fn_types f) l)
  | _, l => map (fun p => passed (fst p) (snd p)) (combine (fn_types f) l)
  end.
Definition frame (f : func) (args : list val) : scope :=
  combine (match fn_recv f with Some (x, _) => [x] | None => [] end ++ fn_params f) (passed_all f args)
  ++ map (fun x => (x, VNil)) (fn_results f).
Definition arity (f : func) : nat := (match fn_recv f with Some _ => 1 | None => 0 end + List.length (fn_params f))%nat.

Definition call_func (cx : ctx) (call : string -> list val -> st -> ev (list val)) (name : string) (f : func) (args : list val) (s : st) : ev (list val) :=
  if negb (Nat.eqb (List.length args) (arity f)) then Stk "arguments" else
  match run_list (exec cx call name) (fn_body f) (with_env [frame f args] s) with
  | Rt vs s' => Ok vs (with_env (env_ s) s')
  | Nx s' => Ok [] (with_env (env_ s) s')
  | AbS r s' => Ab r (with_env (env_ s) s')
  | StkS m => Stk m
  | Bk _ | Ct _ => Stk "break"
  end.

(** calls nested at most [k] deep, of the functions of a program *)
Fixpoint call_in (funcs : string -> option func) (cx : ctx) (k : nat) (f : string) (args : list val) (s : st) : ev (list val) :=
  match k with
  | O => Stk "depth"
  | S k' => match funcs f with Some g => call_func cx (call_in funcs cx k') f g args s | None => Stk ("function " +++ f) end
  end.
