(** Constraint objects (interface.go:27-178, reference.go:57-64) and the fluent API. *)
From Verif Require Import Base GoFloat GoValue.
Open Scope Z_scope.

(** interface.go:60-69; the enum list of the embedded *EnumConstraint (None = nil) *)
Record strcfg := {
  s_max : Z; s_min : Z;
  s_rx : option string;          (* regexp source *)
  s_fmt : string;
  s_enum : option (list gval)
}.

(** interface.go:71-84 *)
Record numcfg := {
  n_amin : bool; n_amax : bool; n_amul : bool;
  n_min : f64; n_max : f64; n_mul : f64;
  n_xmin : bool; n_xmax : bool;
  n_enum : option (list gval)
}.

(** interface.go:94-104 *)
Record arrcfg_ (C : Type) := {
  a_items : C; a_pos : list C; a_add : C;
  a_min : Z; a_max : Z; a_uniq : bool
}.
Arguments a_items {C}. Arguments a_pos {C}. Arguments a_add {C}.
Arguments a_min {C}. Arguments a_max {C}. Arguments a_uniq {C}.
Arguments Build_arrcfg_ {C}.

(** interface.go:106-120.  Patterns are keyed by the *Regexp pointer: (id, source).
    Object and Array constraints have no Default method, so they carry no default. *)
Record objcfg_ (C : Type) := {
  o_add : C;
  o_pats : list ((nat * string) * C);
  o_props : list (string * C);
  o_propdeps : list (string * list string);
  o_req : list (string * unit);
  o_min : Z; o_max : Z;
  o_sdeps : list (string * C)
}.
Arguments o_add {C}. Arguments o_pats {C}. Arguments o_props {C}. Arguments o_propdeps {C}.
Arguments o_req {C}. Arguments o_min {C}. Arguments o_max {C}. Arguments o_sdeps {C}.
Arguments Build_objcfg_ {C}.

(** [CNil] is the nil Constraint interface.  The option of the scalar constraints is
    defaultValue (interface.go:49-52): None = not initialized.  All references of one
    validator resolve through one ConstraintMap (field [e_refs] of the environment). *)
Inductive constr :=
| CNil
| CEmpty
| CNull
| CBool (d : option gval)
| CStr (d : option gval) (c : strcfg)
| CNum (d : option gval) (c : numcfg)
| CInt (d : option gval) (c : numcfg)
| CArr (a : arrcfg_ constr)
| CObj (o : objcfg_ constr)
| CEnum (l : list gval)
| CAny (l : list constr)
| CAll (l : list constr)
| COneOf (l : list constr)
| CNot (c : constr)
| CRef (name : string).

Notation arrcfg := (arrcfg_ constr).
Notation objcfg := (objcfg_ constr).

(** External behaviour the validator depends on. *)
Record env := {
  e_rx : string -> string -> bool;         (* regexp source, subject: MatchString *)
  e_time : string -> Z + string;           (* time.Parse(time.RFC3339, .) *)
  e_email : string -> option string;       (* mail.ParseAddress: None ok, Some error text *)
  e_uri : string -> bool;                  (* url.Parse succeeds *)
  e_ip : string -> bool;                   (* net.ParseIP(.) != nil *)
  e_ffmt : f64 -> string;                  (* fmt %v of a float64 *)
  e_sprint : gval -> string;               (* fmt %s of values outside the modelled ones *)
  e_refs : string -> option constr         (* the ConstraintMap *)
}.

(** ** Constructors *)
Definition new_str : strcfg :=   (* string.go:225-229: minLength is Go's zero *)
  {| s_max := -1; s_min := 0; s_rx := None; s_fmt := ""; s_enum := None |}.
Definition new_num : numcfg :=   (* number.go:143-148,151-156 *)
  {| n_amin := false; n_amax := false; n_amul := false;
     n_min := fzero; n_max := fzero; n_mul := fzero;
     n_xmin := false; n_xmax := false; n_enum := None |}.
Definition new_arr : arrcfg :=   (* array.go:12-18 *)
  {| a_items := CNil; a_pos := []; a_add := CEmpty; a_min := -1; a_max := -1; a_uniq := false |}.
Definition new_obj : objcfg :=   (* object.go:22-33 *)
  {| o_add := CNil; o_pats := []; o_props := []; o_propdeps := []; o_req := [];
     o_min := -1; o_max := -1; o_sdeps := [] |}.

(** ** Setters: string.go:184-221 *)
Definition str_maxLength (n : Z) (c : strcfg) : strcfg :=
  {| s_max := n; s_min := s_min c; s_rx := s_rx c; s_fmt := s_fmt c; s_enum := s_enum c |}.
Definition str_minLength (n : Z) (c : strcfg) : strcfg :=
  {| s_max := s_max c; s_min := n; s_rx := s_rx c; s_fmt := s_fmt c; s_enum := s_enum c |}.
Definition str_regexp (r : string) (c : strcfg) : strcfg :=
  {| s_max := s_max c; s_min := s_min c; s_rx := Some r; s_fmt := s_fmt c; s_enum := s_enum c |}.
Definition str_format (f : string) (c : strcfg) : strcfg :=
  {| s_max := s_max c; s_min := s_min c; s_rx := s_rx c; s_fmt := f; s_enum := s_enum c |}.
Definition str_enum (l : list gval) (c : strcfg) : strcfg :=
  {| s_max := s_max c; s_min := s_min c; s_rx := s_rx c; s_fmt := s_fmt c; s_enum := Some l |}.

(** number.go:12-62 *)
Definition num_minimum (f : f64) (c : numcfg) : numcfg :=
  {| n_amin := true; n_amax := n_amax c; n_amul := n_amul c; n_min := f; n_max := n_max c;
     n_mul := n_mul c; n_xmin := n_xmin c; n_xmax := n_xmax c; n_enum := n_enum c |}.
Definition num_maximum (f : f64) (c : numcfg) : numcfg :=
  {| n_amin := n_amin c; n_amax := true; n_amul := n_amul c; n_min := n_min c; n_max := f;
     n_mul := n_mul c; n_xmin := n_xmin c; n_xmax := n_xmax c; n_enum := n_enum c |}.
Definition num_multipleOf (f : f64) (c : numcfg) : numcfg :=
  {| n_amin := n_amin c; n_amax := n_amax c; n_amul := true; n_min := n_min c; n_max := n_max c;
     n_mul := f; n_xmin := n_xmin c; n_xmax := n_xmax c; n_enum := n_enum c |}.
Definition num_exclMin (b : bool) (c : numcfg) : numcfg :=
  {| n_amin := n_amin c; n_amax := n_amax c; n_amul := n_amul c; n_min := n_min c; n_max := n_max c;
     n_mul := n_mul c; n_xmin := b; n_xmax := n_xmax c; n_enum := n_enum c |}.
Definition num_exclMax (b : bool) (c : numcfg) : numcfg :=
  {| n_amin := n_amin c; n_amax := n_amax c; n_amul := n_amul c; n_min := n_min c; n_max := n_max c;
     n_mul := n_mul c; n_xmin := n_xmin c; n_xmax := b; n_enum := n_enum c |}.
Definition num_enum (l : list gval) (c : numcfg) : numcfg :=
  {| n_amin := n_amin c; n_amax := n_amax c; n_amul := n_amul c; n_min := n_min c; n_max := n_max c;
     n_mul := n_mul c; n_xmin := n_xmin c; n_xmax := n_xmax c; n_enum := Some l |}.

(** array.go:125-171 *)
Definition arr_items (x : constr) (a : arrcfg) : arrcfg :=
  {| a_items := x; a_pos := a_pos a; a_add := a_add a; a_min := a_min a; a_max := a_max a; a_uniq := a_uniq a |}.
Definition arr_positional (l : list constr) (a : arrcfg) : arrcfg :=
  {| a_items := a_items a; a_pos := l; a_add := a_add a; a_min := a_min a; a_max := a_max a; a_uniq := a_uniq a |}.
Definition arr_additional (x : constr) (a : arrcfg) : arrcfg :=
  {| a_items := a_items a; a_pos := a_pos a; a_add := x; a_min := a_min a; a_max := a_max a; a_uniq := a_uniq a |}.
Definition arr_min (n : Z) (a : arrcfg) : arrcfg :=
  {| a_items := a_items a; a_pos := a_pos a; a_add := a_add a; a_min := n; a_max := a_max a; a_uniq := a_uniq a |}.
Definition arr_max (n : Z) (a : arrcfg) : arrcfg :=
  {| a_items := a_items a; a_pos := a_pos a; a_add := a_add a; a_min := a_min a; a_max := n; a_uniq := a_uniq a |}.
Definition arr_unique (b : bool) (a : arrcfg) : arrcfg :=
  {| a_items := a_items a; a_pos := a_pos a; a_add := a_add a; a_min := a_min a; a_max := a_max a; a_uniq := b |}.

(** object.go:36-126 *)
Definition obj_required (l : list string) (o : objcfg) : objcfg :=
  {| o_add := o_add o; o_pats := o_pats o; o_props := o_props o; o_propdeps := o_propdeps o;
     o_req := fold_left (fun m k => sset k tt m) l (o_req o);
     o_min := o_min o; o_max := o_max o; o_sdeps := o_sdeps o |}.
Definition obj_min (n : Z) (o : objcfg) : objcfg :=
  {| o_add := o_add o; o_pats := o_pats o; o_props := o_props o; o_propdeps := o_propdeps o;
     o_req := o_req o; o_min := n; o_max := o_max o; o_sdeps := o_sdeps o |}.
Definition obj_max (n : Z) (o : objcfg) : objcfg :=
  {| o_add := o_add o; o_pats := o_pats o; o_props := o_props o; o_propdeps := o_propdeps o;
     o_req := o_req o; o_min := o_min o; o_max := n; o_sdeps := o_sdeps o |}.
Definition obj_additional (c : constr) (o : objcfg) : objcfg :=
  {| o_add := c; o_pats := o_pats o; o_props := o_props o; o_propdeps := o_propdeps o;
     o_req := o_req o; o_min := o_min o; o_max := o_max o; o_sdeps := o_sdeps o |}.
Definition obj_addProp (k : string) (c : constr) (o : objcfg) : objcfg :=
  {| o_add := o_add o; o_pats := o_pats o; o_props := sset k c (o_props o); o_propdeps := o_propdeps o;
     o_req := o_req o; o_min := o_min o; o_max := o_max o; o_sdeps := o_sdeps o |}.
(** o.patternProperties[key] = c, a map keyed by pointer: kept sorted by the pointer's id *)
Fixpoint pat_set (k : nat * string) (c : constr) (l : list ((nat * string) * constr)) :=
  match l with
  | [] => [(k, c)]
  | (k', c') :: r =>
      match Nat.compare (fst k) (fst k') with
      | Lt => (k, c) :: l
      | Eq => (k, c) :: r
      | Gt => (k', c') :: pat_set k c r
      end
  end.
Definition obj_pattern (k : nat * string) (c : constr) (o : objcfg) : objcfg :=
  {| o_add := o_add o; o_pats := pat_set k c (o_pats o); o_props := o_props o; o_propdeps := o_propdeps o;
     o_req := o_req o; o_min := o_min o; o_max := o_max o; o_sdeps := o_sdeps o |}.
Definition obj_propDep (from : string) (to : list string) (o : objcfg) : objcfg :=
  {| o_add := o_add o; o_pats := o_pats o; o_props := o_props o;
     o_propdeps := sset from (match sget from (o_propdeps o) with Some l => l | None => [] end ++ to) (o_propdeps o);
     o_req := o_req o; o_min := o_min o; o_max := o_max o; o_sdeps := o_sdeps o |}.
Definition obj_schemaDep (from : string) (c : constr) (o : objcfg) : objcfg :=
  {| o_add := o_add o; o_pats := o_pats o; o_props := o_props o; o_propdeps := o_propdeps o;
     o_req := o_req o; o_min := o_min o; o_max := o_max o; o_sdeps := sset from c (o_sdeps o) |}.

(** object.go:48-54 IsPropRequired; 130-154 GetPropDependencies, GetSchemaDependency *)
Definition is_required (o : objcfg) (k : string) : bool :=
  match sget k (o_req o) with Some _ => true | None => false end.
Definition prop_deps (o : objcfg) (k : string) : list string :=
  match sget k (o_propdeps o) with Some l => l | None => [] end.
Definition schema_dep (o : objcfg) (k : string) : constr :=
  match sget k (o_sdeps o) with Some c => c | None => CNil end.

(** combinations.go:9-11 Add; 17-26 reduceCombined *)
Definition add_child (c : constr) (l : list constr) : list constr := l ++ [c].
Definition reduce (c : constr) : constr :=
  match c with
  | CAny [x] | CAll [x] | COneOf [x] => x
  | _ => c
  end.

(** Results of Validate *)
Inductive res := Pass | Fail (msg : string) | Panic (msg : string) | OOF.
