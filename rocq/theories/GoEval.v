(** Running a generated file: the jsval API calls it makes (the constructors and setters of
    array.go, bool.go, basic.go, combinations.go, number.go, object.go, reference.go,
    string.go, jsval.go; their effects are those of Constraint.v).  The language side follows
    the Go specification: constants are exact until they get a type, an untyped integer
    constant passed as interface{} becomes an int, a floating-point one a float64.
    Simplified: static types are checked only where a call or an assignment uses the value, a
    variable that was never assigned cannot be used, and only one ConstraintMap is allocated. *)
From Coq Require Import DecimalString.
From Verif Require Import Base GoFloat GoValue Formats Constraint Builder GoText GoLang.
Open Scope Z_scope.

(** jsval.go:15-55: name, does it use the shared ConstraintMap, root *)
Record jsv := { j_name : string; j_map : bool; j_root : constr }.

(** constants (an integer; n / 10^k; string; bool), constraints, slices of them, the
    ConstraintMap, validators, nothing *)
Inductive value :=
| VInt (z : Z) | VDec (n : Z) (k : nat) | VString (s : string) | VBool (b : bool)
| VC (c : constr) | VCs (l : list constr) | VM | VJ (j : jsv) | VUnit.

Record estate := { e_vars : list (string * value); e_cmap : option refs; e_next : nat }.

(** ** Constants *)
(** the float64 nearest to n / 10^k; None: it overflows *)
Definition dec_f64 (n : Z) (k : nat) : option f64 :=
  match n with
  | Z0 => Some (S754_zero false)
  | Zpos p =>
      match SFdiv 53 1024 (S754_finite false p 0) (S754_finite false (Z.to_pos (10 ^ Z.of_nat k)) 0) with
      | S754_infinity _ => None | f => Some f
      end
  | Zneg p =>
      match SFdiv 53 1024 (S754_finite true p 0) (S754_finite false (Z.to_pos (10 ^ Z.of_nat k)) 0) with
      | S754_infinity _ => None | f => Some f
      end
  end.

Definition digits (s : string) : option Z := option_map Z.of_uint (NilZero.uint_of_string s).
(** split at the first point *)
Fixpoint split_dot (acc s : string) : option (string * string) :=
  match s with
  | EmptyString => None
  | String c r => if Ascii.eqb c "." then Some (acc, r) else split_dot (acc +++ String c "") r
  end.
Definition number_value (s : string) : option value :=
  match split_dot "" s with
  | None => option_map VInt (digits s)
  | Some (a, b) =>
      match digits a, digits b with
      | Some x, Some y => Some (VDec (x * 10 ^ Z.of_nat (String.length b) + y) (String.length b))
      | _, _ => None
      end
  end.
Definition negate (v : value) : option value :=
  match v with VInt z => Some (VInt (- z)) | VDec n k => Some (VDec (- n) k) | _ => None end.

Definition in_int (z : Z) : bool := (min_int64 <=? z) && (z <=? max_int64).
Definition as_int (v : value) : option Z := match v with VInt z => if in_int z then Some z else None | _ => None end.
Definition as_float (v : value) : option f64 :=
  match v with VInt z => Some (f64_of_Z z) | VDec n k => dec_f64 n k | _ => None end.
Definition as_iface (v : value) : option gval :=
  match v with
  | VInt z => if in_int z then Some (GInt "int" Kint z) else None
  | VDec n k => option_map gfloat (dec_f64 n k)
  | VString s => Some (gstr s)
  | VBool b => Some (gbool b)
  | _ => None
  end.
Definition as_string (v : value) : option string := match v with VString s => Some s | _ => None end.
Fixpoint all_some {A B} (f : A -> option B) (l : list A) : option (list B) :=
  match l with
  | [] => Some []
  | x :: r => match f x, all_some f r with Some y, Some ys => Some (y :: ys) | _, _ => None end
  end.

(** ** Calls *)
Definition call_fun (f : string) (args : list value) : option value :=
  match args with
  | [] =>
      if String.eqb f "New" then Some (VJ {| j_name := ""; j_map := false; j_root := CNil |})
      else if String.eqb f "Object" then Some (VC (CObj new_obj))
      else if String.eqb f "Array" then Some (VC (CArr new_arr))
      else if String.eqb f "String" then Some (VC (CStr None new_str))
      else if String.eqb f "Number" then Some (VC (CNum None new_num))
      else if String.eqb f "Integer" then Some (VC (CInt None new_num))
      else if String.eqb f "Boolean" then Some (VC (CBool None))
      else if String.eqb f "Any" then Some (VC (CAny []))
      else if String.eqb f "All" then Some (VC (CAll []))
      else if String.eqb f "OneOf" then Some (VC (COneOf []))
      else None
  | [VC c] => if String.eqb f "Not" then Some (VC (CNot c)) else None
  | [VM] => if String.eqb f "Reference" then Some (VC (CRef "")) else None
  | _ => None
  end.

Definition obj_method (o : objcfg) (m : string) (args : list value) (next : nat) : option (objcfg * nat) :=
  if String.eqb m "Required" then option_map (fun l => (obj_required l o, next)) (all_some as_string args)
  else if String.eqb m "AdditionalProperties" then
    match args with [VC c] => Some (obj_additional c o, next) | _ => None end
  else if String.eqb m "AddProp" then
    match args with [VString k; VC c] => Some (obj_addProp k c o, next) | _ => None end
  else if String.eqb m "PatternPropertiesString" then
    match args with [VString s; VC c] => Some (obj_pattern (next, s) c o, S next) | _ => None end
  else if String.eqb m "PropDependency" then
    match args with
    | VString k :: l => option_map (fun l => (obj_propDep k l o, next)) (all_some as_string l)
    | _ => None
    end
  else if String.eqb m "SchemaDependency" then
    match args with [VString k; VC c] => Some (obj_schemaDep k c o, next) | _ => None end
  else if String.eqb m "MinProperties" then
    match args with [v] => option_map (fun z => (obj_min z o, next)) (as_int v) | _ => None end
  else if String.eqb m "MaxProperties" then
    match args with [v] => option_map (fun z => (obj_max z o, next)) (as_int v) | _ => None end
  else None.

Definition arr_method (a : arrcfg) (m : string) (args : list value) : option arrcfg :=
  match args with
  | [VC c] =>
      if String.eqb m "Items" then Some (arr_items c a)
      else if String.eqb m "AdditionalItems" then Some (arr_additional c a) else None
  | [VCs l] => if String.eqb m "PositionalItems" then Some (arr_positional l a) else None
  | [VBool b] => if String.eqb m "UniqueItems" then Some (arr_unique b a) else None
  | [VInt z] =>
      if negb (in_int z) then None
      else if String.eqb m "MinItems" then Some (arr_min z a)
      else if String.eqb m "MaxItems" then Some (arr_max z a) else None
  | _ => None
  end.

Definition str_method (d : option gval) (c : strcfg) (m : string) (args : list value) : option constr :=
  if String.eqb m "Enum" then option_map (fun l => CStr d (str_enum l c)) (all_some as_iface args)
  else match args with
  | [v] =>
      if String.eqb m "MaxLength" then option_map (fun z => CStr d (str_maxLength z c)) (as_int v)
      else if String.eqb m "MinLength" then option_map (fun z => CStr d (str_minLength z c)) (as_int v)
      else if String.eqb m "Format" then option_map (fun s => CStr d (str_format s c)) (as_string v)
      else if String.eqb m "RegexpString" then option_map (fun s => CStr d (str_regexp s c)) (as_string v)
      else if String.eqb m "Default" then option_map (fun x => CStr (Some x) c) (as_iface v)
      else None
  | _ => None
  end.

(** [is_int]: methods of *IntegerConstraint; those it inherits return a *NumberConstraint *)
Definition num_method (is_int : bool) (d : option gval) (c : numcfg) (m : string) (args : list value) : option constr :=
  let back d c := if is_int then CInt d c else CNum d c in
  if String.eqb m "Enum" then option_map (fun l => CNum d (num_enum l c)) (all_some as_iface args)
  else match args with
  | [v] =>
      if String.eqb m "Minimum" then option_map (fun f => back d (num_minimum f c)) (as_float v)
      else if String.eqb m "Maximum" then option_map (fun f => back d (num_maximum f c)) (as_float v)
      else if String.eqb m "MultipleOf" then option_map (fun f => CNum d (num_multipleOf f c)) (as_float v)
      else if String.eqb m "ExclusiveMinimum" then
        match v with VBool b => Some (back d (num_exclMin b c)) | _ => None end
      else if String.eqb m "ExclusiveMaximum" then
        match v with VBool b => Some (back d (num_exclMax b c)) | _ => None end
      else if String.eqb m "Default" then option_map (fun x => back (Some x) c) (as_iface v)
      else None
  | _ => None
  end.

Definition call_method (v : value) (m : string) (args : list value) (st : estate) : option (value * estate) :=
  let keep r := option_map (fun c => (VC c, st)) r in
  match v with
  | VC (CObj o) =>
      match obj_method o m args (e_next st) with
      | Some (o', n) => Some (VC (CObj o'), {| e_vars := e_vars st; e_cmap := e_cmap st; e_next := n |})
      | None => None
      end
  | VC (CArr a) => keep (option_map (@CArr) (arr_method a m args))
  | VC (CStr d c) => keep (str_method d c m args)
  | VC (CNum d c) => keep (num_method false d c m args)
  | VC (CInt d c) => keep (num_method true d c m args)
  | VC (CBool d) =>
      match args with
      | [x] => if String.eqb m "Default" then keep (option_map (fun y => CBool (Some y)) (as_iface x)) else None
      | _ => None
      end
  | VC (CAny l) => match args with [VC c] => if String.eqb m "Add" then keep (Some (CAny (add_child c l))) else None | _ => None end
  | VC (CAll l) => match args with [VC c] => if String.eqb m "Add" then keep (Some (CAll (add_child c l))) else None | _ => None end
  | VC (COneOf l) => match args with [VC c] => if String.eqb m "Add" then keep (Some (COneOf (add_child c l))) else None | _ => None end
  | VC (CRef _) => match args with [VString s] => if String.eqb m "RefersTo" then keep (Some (CRef s)) else None | _ => None end
  | VJ j =>
      match args with
      | [VString s] => if String.eqb m "SetName" then Some (VJ {| j_name := s; j_map := j_map j; j_root := j_root j |}, st) else None
      | [VM] => if String.eqb m "SetConstraintMap" then Some (VJ {| j_name := j_name j; j_map := true; j_root := j_root j |}, st) else None
      | [VC c] => if String.eqb m "SetRoot" then Some (VJ {| j_name := j_name j; j_map := j_map j; j_root := c |}, st) else None
      | _ => None
      end
  | VM =>
      match args, e_cmap st with
      | [VString s; VC c], Some r =>
          if String.eqb m "SetReference"
          then Some (VUnit, {| e_vars := e_vars st; e_cmap := Some (sset s c r); e_next := e_next st |}) else None
      | _, _ => None
      end
  | _ => None
  end.

Definition is_pkg (e : expr) : bool := match e with EId x => String.eqb x "jsval" | _ => false end.

Definition evals (eval : expr -> estate -> option (value * estate)) : list expr -> estate -> option (list value * estate) :=
  fix go l st :=
    match l with
    | [] => Some ([], st)
    | e :: r =>
        match eval e st with
        | None => None
        | Some (v, st') => match go r st' with Some (vs, st2) => Some (v :: vs, st2) | None => None end
        end
    end.

Definition as_constr (v : value) : option constr := match v with VC c => Some c | _ => None end.

Fixpoint eval (e : expr) (st : estate) : option (value * estate) :=
  match e with
  | EId x =>
      if String.eqb x "true" then Some (VBool true, st)
      else if String.eqb x "false" then Some (VBool false, st)
      else match sget x (e_vars st) with Some v => Some (v, st) | None => None end
  | EStr s => Some (VString s, st)
  | ENum s => option_map (fun v => (v, st)) (number_value s)
  | ENeg e1 =>
      match eval e1 st with
      | Some (v, st') => option_map (fun v' => (v', st')) (negate v)
      | None => None
      end
  | ESel r x =>
      if is_pkg r then
        if String.eqb x "EmptyConstraint" then Some (VC CEmpty, st)
        else if String.eqb x "NullConstraint" then Some (VC CNull, st)
        else None
      else None
  | ECall (ESel r m) l =>
      if is_pkg r then
        match evals eval l st with
        | Some (vs, st') => option_map (fun v => (v, st')) (call_fun m vs)
        | None => None
        end
      else
        match eval r st with
        | Some (v, st1) =>
            match evals eval l st1 with
            | Some (vs, st2) => call_method v m vs st2
            | None => None
            end
        | None => None
        end
  | ECall _ _ => None
  | ESlice p t l =>
      if String.eqb p "jsval" && String.eqb t "Constraint" then
        match evals eval l st with
        | Some (vs, st') => option_map (fun cs => (VCs cs, st')) (all_some as_constr vs)
        | None => None
        end
      else None
  | EAddr p t =>
      if String.eqb p "jsval" && String.eqb t "ConstraintMap" then
        match e_cmap st with
        | None => Some (VM, {| e_vars := e_vars st; e_cmap := Some []; e_next := e_next st |})
        | Some _ => None
        end
      else None
  end.

(** ** Statements and files *)
Definition fits (d : decl) (v : value) : bool :=
  String.eqb (d_pkg d) "jsval" &&
  match v with
  | VJ _ => d_ptr d && String.eqb (d_type d) "JSVal"
  | VM => d_ptr d && String.eqb (d_type d) "ConstraintMap"
  | VC _ => negb (d_ptr d) && String.eqb (d_type d) "Constraint"
  | _ => false
  end.

Definition exec (ds : list decl) (s : stmt) (st : estate) : option estate :=
  match s with
  | SAssign (EId x) e =>
      match find (fun d => String.eqb (d_name d) x) ds, eval e st with
      | Some d, Some (v, st') =>
          if fits d v
          then Some {| e_vars := sset x v (e_vars st'); e_cmap := e_cmap st'; e_next := e_next st' |} else None
      | _, _ => None
      end
  | SAssign _ _ => None
  | SExpr (ECall f l) => match eval (ECall f l) st with Some (_, st') => Some st' | None => None end
  | SExpr _ => None
  end.

Fixpoint execs (ds : list decl) (l : list stmt) (st : estate) : option estate :=
  match l with
  | [] => Some st
  | s :: r => match exec ds s st with Some st' => execs ds r st' | None => None end
  end.

Fixpoint nodup_b (l : list string) : bool :=
  match l with [] => true | x :: r => negb (mem x r) && nodup_b r end.
Definition reserved (x : string) : bool := mem x ["jsval"; "init"; "true"; "false"]%string.

(** compile and run: no name is declared twice or hides a name the file needs *)
Definition run_file (f : file) : option estate :=
  let names := map d_name (f_decls f) in
  if nodup_b names && forallb (fun x => negb (reserved x)) names
  then execs (f_decls f) (f_body f) {| e_vars := []; e_cmap := None; e_next := 0 |}
  else None.

(** the validators and references a text defines when run *)
Definition run_go (text : string) : option estate :=
  match parse_go text with None => None | Some f => run_file f end.
