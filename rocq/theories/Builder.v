(** The builder package: from schemas to constraints (builder/*.go). *)
From Verif Require Import Base GoFloat GoValue Maybe Formats Constraint StructInfo Validate.
Open Scope Z_scope.

(** ** Schemas (github.com/lestrrat-go/jsschema.Schema, the fields the builder reads).
    The package is not in /repo; the fields and their Go types are read off their uses in
    builder/*.go.  Number, Integer and Bool fields are a value with an Initialized flag:
    an option here.  Maps are association lists sorted by key; patternProperties is keyed
    by *Regexp pointer: (id, source), sorted by id. *)
Inductive ptype := TNull | TInteger | TString | TObject | TArray | TBoolean | TNumber | TOther (code : nat).

Record schema_ (C : Type) := {
  sc_ref : string;
  sc_not : C; sc_allOf : list C; sc_anyOf : list C; sc_oneOf : list C;
  sc_type : list ptype;
  sc_enum : list gval;
  sc_default : gval;
  sc_min : option f64; sc_max : option f64; sc_mult : option f64;
  sc_xmin : option bool; sc_xmax : option bool;
  sc_minLen : option Z; sc_maxLen : option Z; sc_pattern : option string; sc_format : string;
  sc_items : option (bool * list C);      (* TupleMode, Schemas *)
  sc_addItems : option C;                 (* None: nil pointer; Schema inside, SNil if nil *)
  sc_minItems : option Z; sc_maxItems : option Z; sc_unique : option bool;
  sc_required : list string; sc_minProps : option Z; sc_maxProps : option Z;
  sc_props : list (string * C);
  sc_pats : list ((nat * string) * C);
  sc_addProps : option C;
  sc_depNames : list (string * list string);
  sc_depSchemas : list (string * C)
}.
Arguments Build_schema_ {C}.
Arguments sc_ref {C}. Arguments sc_not {C}. Arguments sc_allOf {C}. Arguments sc_anyOf {C}. Arguments sc_oneOf {C}.
Arguments sc_type {C}. Arguments sc_enum {C}. Arguments sc_default {C}. Arguments sc_min {C}. Arguments sc_max {C}.
Arguments sc_mult {C}. Arguments sc_xmin {C}. Arguments sc_xmax {C}. Arguments sc_minLen {C}. Arguments sc_maxLen {C}.
Arguments sc_pattern {C}. Arguments sc_format {C}. Arguments sc_items {C}. Arguments sc_addItems {C}.
Arguments sc_minItems {C}. Arguments sc_maxItems {C}. Arguments sc_unique {C}. Arguments sc_required {C}.
Arguments sc_minProps {C}. Arguments sc_maxProps {C}. Arguments sc_props {C}. Arguments sc_pats {C}.
Arguments sc_addProps {C}. Arguments sc_depNames {C}. Arguments sc_depSchemas {C}.

(** [SNil] is the nil *Schema pointer *)
Inductive schema := SNil | Sch (c : schema_ schema).
Notation scfg := (schema_ schema).

Definition nonnil (s : schema) : bool := match s with SNil => false | Sch _ => true end.
Definition initialized {A} (o : option A) : bool := match o with None => false | Some _ => true end.

(** ** Guessing the type (builder/builder.go:291-505) *)
(** reflect kinds of enumeration values *)
Definition is_map_like (v : gval) : bool := match v with GMap _ _ _ _ _ | GStruct _ _ | GMaybe _ | GTime _ => true | _ => false end.
Definition is_slice_like (v : gval) : bool := match v with GSlice _ _ _ => true | _ => false end.
Definition is_string_like (v : gval) : bool := match v with GStr _ _ => true | _ => false end.
Definition is_bool_like (v : gval) : bool := match v with GBool _ _ => true | _ => false end.

(** builder/builder.go:340-378 *)
Definition looks_object (c : scfg) : bool :=
  match sc_props c with _ :: _ => true | [] => false end ||
  match sc_addProps c with None => true | Some s => nonnil s end ||
  initialized (sc_minProps c) || initialized (sc_maxProps c) ||
  match sc_required c with _ :: _ => true | [] => false end ||
  match sc_pats c with _ :: _ => true | [] => false end ||
  existsb is_map_like (sc_enum c).

(** builder/builder.go:380-418 *)
Definition looks_array (c : scfg) : bool :=
  initialized (sc_items c) ||
  match sc_addItems c with None => true | Some s => nonnil s end ||
  initialized (sc_minItems c) || initialized (sc_maxItems c) || initialized (sc_unique c) ||
  existsb is_slice_like (sc_enum c).

(** builder/builder.go:420-447; the values of the schema.Format* constants are those of JSON Schema *)
Definition known_formats : list string := ["date-time"; "email"; "hostname"; "ipv4"; "ipv6"; "uri"]%string.
Definition looks_string (c : scfg) : bool :=
  initialized (sc_minLen c) || initialized (sc_maxLen c) || initialized (sc_pattern c) ||
  mem (sc_format c) known_formats || existsb is_string_like (sc_enum c).

(** builder/builder.go:449-451 *)
Definition is_integer (f : f64) : bool := feq (ffloor f) f.
Definition int_or_num (f : f64) : ptype := if is_integer f then TInteger else TNumber.

(** builder/builder.go:453-494 *)
Fixpoint enum_number (l : list gval) : option ptype :=
  match l with
  | [] => None
  | GInt _ _ _ :: _ => Some TInteger
  | GFloat _ _ _ :: _ => Some TNumber
  | _ :: r => enum_number r
  end.
Definition looks_number (c : scfg) : option ptype :=
  match sc_mult c with
  | Some f => Some (int_or_num f)
  | None =>
      match sc_min c with
      | Some f => Some (int_or_num f)
      | None =>
          match sc_max c with
          | Some f => Some (int_or_num f)
          | None =>
              if initialized (sc_xmin c) || initialized (sc_xmax c) then Some TNumber
              else enum_number (sc_enum c)
          end
      end
  end.

(** builder/builder.go:291-338, 496-505 *)
Definition guess (c : scfg) : list ptype :=
  (if looks_object c then [TObject] else []) ++
  (if looks_array c then [TArray] else []) ++
  (if looks_string c then [TString] else []) ++
  match looks_number c with Some t => [t] | None => [] end ++
  (if existsb is_bool_like (sc_enum c) then [TBoolean] else []).

(** sort.Sort on schema.PrimitiveTypes: by the numeric value of the constants *)
Definition rank (t : ptype) : nat :=
  match t with
  | TNull => 1 | TInteger => 2 | TString => 3 | TObject => 4 | TArray => 5 | TBoolean => 6 | TNumber => 7
  | TOther 0 => 0 | TOther n => 8 + n
  end%nat.
Fixpoint insert_t (t : ptype) (l : list ptype) : list ptype :=
  match l with
  | [] => [t]
  | t' :: r => if Nat.leb (rank t) (rank t') then t :: l else t' :: insert_t t r
  end.
Definition sort_t (l : list ptype) : list ptype := fold_right insert_t [] l.

(** ** Building.  A builder step threads the names of references used (ctx.R) and the
    iteration-order oracle. *)
Definition names := list (string * unit).
Definition bm (A : Type) := names -> orc -> gres (A * names * orc).
Definition ret {A} (x : A) : bm A := fun R w => GOk (x, R, w).
Definition bad {A} (m : string) : bm A := fun _ _ => GErr m.
Definition boom {A} (m : string) : bm A := fun _ _ => GPanic m.
Definition bind {A B} (m : bm A) (f : A -> bm B) : bm B := fun R w =>
  match m R w with
  | GOk (x, R', w') => f x R' w'
  | GErr e => GErr e
  | GPanic e => GPanic e
  end.
Notation "'do' x <- m ; f" := (bind m (fun x => f)) (at level 60, x name, right associativity).

(** one after the other, stopping at the first error *)
Fixpoint seqM {A} (l : list (bm A)) : bm (list A) :=
  match l with
  | [] => ret []
  | m :: r => do x <- m; do xs <- seqM r; ret (x :: xs)
  end.
Definition keyM {K A} (e : K * bm A) : bm (K * A) := do x <- snd e; ret (fst e, x).
(** range over a map *)
Definition rangeM {K A} (l : list (K * bm A)) : bm (list (K * A)) := fun R w =>
  let '(p, w') := shuffle w l in seqM (map keyM p) R w'.

(** builder/string.go:10-42; [s.Type.Contains(..)] holds whenever this is called *)
Definition set_opt {A C} (f : A -> C -> C) (o : option A) (c : C) : C := match o with None => c | Some x => f x c end.
Definition default_of (c : scfg) : option gval := match sc_default c with GNil => None | d => Some d end.
Definition build_string (c : scfg) : constr :=
  CStr (default_of c)
   ((match sc_enum c with [] => id | l => str_enum l end)
    ((if String.eqb (sc_format c) "" then id else str_format (sc_format c))
     (set_opt str_regexp (sc_pattern c)
      (set_opt str_minLength (sc_minLen c)
       (set_opt str_maxLength (sc_maxLen c) new_str))))).

(** builder/number.go:10-79, common part *)
Definition build_numeric (c : scfg) : numcfg :=
  set_opt num_multipleOf (sc_mult c)
   ((match sc_max c with None => id | Some f => fun m => set_opt num_exclMax (sc_xmax c) (num_maximum f m) end)
    ((match sc_min c with None => id | Some f => fun m => set_opt num_exclMin (sc_xmin c) (num_minimum f m) end) new_num)).
(** builder/number.go:10-43: Enum(lst...) *)
Definition build_integer (c : scfg) : constr :=
  CInt (default_of c) ((match sc_enum c with [] => id | l => num_enum l end) (build_numeric c)).
(** builder/number.go:45-79: Enum(lst), the whole list as the only value *)
Definition build_number (c : scfg) : constr :=
  CNum (default_of c)
    ((match sc_enum c with [] => id | l => num_enum [GSlice "[]interface {}" true (Some l)] end) (build_numeric c)).

(** builder/bool.go:8-14 *)
Definition build_boolean (c : scfg) : constr :=
  CBool (match sc_default c with GBool "bool" b => Some (GBool "bool" b) | _ => None end).

(** builder/array.go:9-76.  [items]: one builder step per schema of items.Schemas *)
Definition build_array (c : scfg) (items : list (bm constr)) (additional : bm constr) : bm constr :=
  let finish a :=
    ret (CArr (set_opt arr_unique (sc_unique c) (set_opt arr_max (sc_maxItems c) (set_opt arr_min (sc_minItems c) a)))) in
  match sc_items c with
  | None => finish new_arr
  | Some (false, _) =>
      match items with
      | [] => boom "index out of range"
      | m :: _ => do x <- m; finish (arr_items x new_arr)
      end
  | Some (true, _) =>
      do l <- seqM items;
      match sc_addItems c with
      | None => finish (arr_additional CNil (arr_positional l new_arr))
      | Some SNil => finish (arr_additional CEmpty (arr_positional l new_arr))
      | Some _ => do x <- additional; finish (arr_additional x (arr_positional l new_arr))
      end
  end.

(** builder/object.go:9-72 *)
Definition build_object (c : scfg) (props : list (string * bm constr)) (pats : list ((nat * string) * bm constr))
    (additional : bm constr) (deps : list (string * bm constr)) : bm constr :=
  let o0 := set_opt obj_max (sc_maxProps c) (set_opt obj_min (sc_minProps c)
             (match sc_required c with [] => new_obj | l => obj_required l new_obj end)) in
  do ps <- rangeM props;
  let o1 := fold_left (fun o e => obj_addProp (fst e) (snd e) o) ps o0 in
  do pts <- rangeM pats;
  let o2 := fold_left (fun o e => obj_pattern (fst e) (snd e) o) pts o1 in
  do o3 <- match sc_addProps c with
           | None => ret o2
           | Some SNil => ret (obj_additional CEmpty o2)
           | Some _ => do x <- additional; ret (obj_additional x o2)
           end;
  do dn <- (fun R w => let '(p, w') := shuffle w (sc_depNames c) in GOk (p, R, w'));
  let o4 := fold_left (fun o e => obj_propDep (fst e) (snd e) o) dn o3 in
  do ds <- rangeM deps;
  ret (CObj (fold_left (fun o e => obj_schemaDep (fst e) (snd e) o) ds o4)).

(** builder/builder.go:156-289 *)
Fixpoint build (s : schema) : bm constr :=
  match s with
  | SNil => boom "nil pointer dereference"
  | Sch c =>
      if negb (String.eqb (sc_ref c) "") then fun R w => GOk (CRef (sc_ref c), sset (sc_ref c) tt R, w)
      else
        let comb : bm (list constr) :=
          match sc_not c with
          | Sch _ => do x <- build (sc_not c); ret [CNot x]
          | SNil =>
              match sc_allOf c with
              | _ :: _ => do l <- seqM (map build (sc_allOf c)); ret [reduce (CAll l)]
              | [] =>
                  match sc_anyOf c with
                  | _ :: _ => do l <- seqM (map build (sc_anyOf c)); ret [reduce (CAny l)]
                  | [] =>
                      match sc_oneOf c with
                      | _ :: _ => do l <- seqM (map build (sc_oneOf c)); ret [reduce (COneOf l)]
                      | [] => ret []
                      end
                  end
              end
          end in
        let item := match sc_items c with Some (_, l) => map build l | None => [] end in
        let addItem := match sc_addItems c with Some x => build x | None => ret CNil end in
        let props := map (fun e => (fst e, build (snd e))) (sc_props c) in
        let pats := map (fun e => (fst e, build (snd e))) (sc_pats c) in
        let addProp := match sc_addProps c with Some x => build x | None => ret CNil end in
        let deps := map (fun e => (fst e, build (snd e))) (sc_depSchemas c) in
        let one (t : ptype) : bm constr :=
          match t with
          | TString => ret (build_string c)
          | TNumber => ret (build_number c)
          | TInteger => ret (build_integer c)
          | TBoolean => ret (build_boolean c)
          | TArray => build_array c item addItem
          | TObject => build_object c props pats addProp deps
          | TNull => ret CNull
          | TOther _ => bad "unknown type: "   (* the type's name follows; not modelled *)
          end in
        let sts := sort_t (match sc_type c with [] => guess c | l => l end) in
        do cs <- comb;
        do ts <- match sts with
                 | [] => ret (match sc_enum c with [] => [] | l => [CEnum l] end)
                 | _ :: _ => do l <- seqM (map one sts); ret [reduce (CAny l)]
                 end;
        ret (reduce (CAll (cs ++ ts)))
  end.

(** ** References (builder/builder.go:57-154) *)
(** what jsref's Resolve returns for a reference: an error, a *schema.Schema, a map from
    which schema.Extract reads a schema (or fails), or something else.  The resolver is not
    in /repo: it is a parameter, a function of the reference text. *)
Inductive thing := RError (m : string) | RSchema (s : schema) | RMap (s : schema + string) | ROther.
Definition resolver := string -> thing.

Definition refs := list (string * constr).
(** state: registered references, ctx.R, oracle, and (ghost) the references built so far *)
Record cstate := { c_refs : refs; c_R : names; c_w : orc; c_log : list string }.

Inductive cres := COk (s : cstate) | CErr (m : string) | CPanic (m : string) | COOF.

(** range over ctx.R while the loop body may add keys: keys present at the start are
    visited once each, keys added meanwhile may or may not be visited *)
Fixpoint range_refs (n : nat) (body : string -> cstate -> cres) (start visited : list string) (st : cstate) : cres :=
  match n with
  | O => COOF
  | S n' =>
      let todo := filter (fun k => negb (mem k visited)) (keys (c_R st)) in
      let due := filter (fun k => mem k start) todo in
      let '(i, w') := next (c_w st) in
      let st' := {| c_refs := c_refs st; c_R := c_R st; c_w := w'; c_log := c_log st |} in
      let visit k := match body k st' with COk st2 => range_refs n' body start (k :: visited) st2 | r => r end in
      match due with
      | [] => match nth_error todo i with None => COk st' | Some k => visit k end
      | d :: _ => visit (nth i todo d)
      end
  end.

(** builder/builder.go:110-154 *)
Fixpoint compile (n : nat) (D : resolver) (ref : string) (st : cstate) : cres :=
  match n with
  | O => COOF
  | S n' =>
      match sget ref (c_refs st) with
      | Some _ => COk st
      | None =>
          let built :=
            match D ref with
            | RError m => GErr m
            | RSchema s => build s (c_R st) (c_w st)
            | RMap (inr m) => GErr m
            | RMap (inl s) => build s (c_R st) (c_w st)
            | ROther => build SNil (c_R st) (c_w st)
            end in
          match built with
          | GErr m => CErr m
          | GPanic m => CPanic m
          | GOk (c, R', w') =>
              let st1 := {| c_refs := sset ref c (c_refs st); c_R := R'; c_w := w'; c_log := ref :: c_log st |} in
              range_refs n' (compile n' D) (keys R') [] st1
          end
      end
  end.

(** builder/builder.go:57-108; the validator: its root and registered references *)
Inductive bres := Built (root : constr) (r : refs) (log : list string) | BErr (m : string) | BPanic (m : string) | BOOF.
Definition build_with (n : nat) (D : resolver) (s : schema) (w : orc) : bres :=
  match s with
  | SNil => BErr "nil schema"
  | Sch _ =>
      match build s [] w with
      | GErr m => BErr m
      | GPanic m => BPanic m
      | GOk (c, R, w1) =>
          let '(rf, R1) := match sget "#" R with
                           | Some _ => ([("#"%string, c)], sdel "#" R)
                           | None => ([], R)
                           end in
          match R1 with
          | [] => Built c rf []
          | _ :: _ =>
              match range_refs n (compile n D) (keys R1) [] {| c_refs := rf; c_R := R1; c_w := w1; c_log := [] |} with
              | COk st => Built c (c_refs st) (c_log st)
              | CErr m => BErr m
              | CPanic m => BPanic m
              | COOF => BOOF
              end
          end
      end
  end.
(** builder/builder.go:34-51: the context to resolve in is the schema itself *)
Definition build_schema := build_with.

(** the validator built: its environment *)
Definition with_refs (E : env) (r : refs) : env :=
  {| e_rx := e_rx E; e_time := e_time E; e_email := e_email E; e_uri := e_uri E; e_ip := e_ip E;
     e_ffmt := e_ffmt E; e_sprint := e_sprint E; e_refs := fun n => sget n r |}.
