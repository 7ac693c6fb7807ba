(** What building a schema should give, without builder steps, iteration orders or state:
    the schemas visited, the faults, the references used and the resulting constraint. *)
From Verif Require Import Base GoFloat GoValue Maybe Formats Constraint StructInfo Validate Builder.
Open Scope Z_scope.

(** types a schema is built for, sorted *)
Definition types_of (c : scfg) : list ptype := sort_t (match sc_type c with [] => guess c | l => l end).

(** the combinator keyword that is used: the first of not, allOf, anyOf, oneOf *)
Definition comb_kids (c : scfg) : list schema :=
  match sc_not c with
  | Sch _ => [sc_not c]
  | SNil => match sc_allOf c, sc_anyOf c with
            | _ :: _, _ => sc_allOf c
            | [], _ :: _ => sc_anyOf c
            | [], [] => sc_oneOf c
            end
  end.
Definition array_kids (c : scfg) : list schema :=
  match sc_items c with
  | None => []
  | Some (false, l) => firstn 1 l
  | Some (true, l) => l ++ match sc_addItems c with Some (Sch x) => [Sch x] | _ => [] end
  end.
Definition object_kids (c : scfg) : list schema :=
  map snd (sc_props c) ++ map snd (sc_pats c) ++
  match sc_addProps c with Some (Sch x) => [Sch x] | _ => [] end ++ map snd (sc_depSchemas c).

(** x is a schema visited while building c *)
Inductive Kid (c : scfg) : schema -> Prop :=
| kid_comb x : In x (comb_kids c) -> Kid c x
| kid_array x : In TArray (types_of c) -> In x (array_kids c) -> Kid c x
| kid_object x : In TObject (types_of c) -> In x (object_kids c) -> Kid c x.

(** faults *)
Inductive Unknown : schema -> Prop :=       (* a type that does not exist *)
| un_here c k : sc_ref c = ""%string -> In (TOther k) (types_of c) -> Unknown (Sch c)
| un_kid c x : sc_ref c = ""%string -> Kid c x -> Unknown x -> Unknown (Sch c).
Inductive Nilish : schema -> Prop :=        (* a nil schema, or items without a schema *)
| ni_nil : Nilish SNil
| ni_items c : sc_ref c = ""%string -> In TArray (types_of c) -> sc_items c = Some (false, []) -> Nilish (Sch c)
| ni_kid c x : sc_ref c = ""%string -> Kid c x -> Nilish x -> Nilish (Sch c).
Definition Good (s : schema) : Prop := ~ Unknown s /\ ~ Nilish s.

(** references used *)
Inductive Used : schema -> string -> Prop :=
| us_here c : sc_ref c <> ""%string -> Used (Sch c) (sc_ref c)
| us_kid c x n : sc_ref c = ""%string -> Kid c x -> Used x n -> Used (Sch c) n.

(** maps in canonical form, hereditarily (a representation invariant: every Go map has it) *)
Definition psorted {C} (l : list ((nat * string) * C)) : Prop := StronglySorted lt (map (fun e => fst (fst e)) l).
Inductive Sorted : schema -> Prop :=
| so_nil : Sorted SNil
| so_sch c : ssorted (sc_props c) -> psorted (sc_pats c) -> ssorted (sc_depNames c) -> ssorted (sc_depSchemas c) ->
    (forall x, In x (comb_kids c ++ array_kids c ++ object_kids c) -> Sorted x) -> Sorted (Sch c).

(** the constraint *)
Definition bound (o : option Z) : Z := match o with Some z => z | None => -1 end.
Definition bc_array (c : scfg) (items : list constr) (additional : constr) : constr :=
  CArr {| a_items := match sc_items c with Some (false, _) => hd CNil items | _ => CNil end;
          a_pos := match sc_items c with Some (true, _) => items | _ => [] end;
          a_add := match sc_items c with
                   | Some (true, _) => match sc_addItems c with None => CNil | Some SNil => CEmpty | Some _ => additional end
                   | _ => CEmpty
                   end;
          a_min := bound (sc_minItems c); a_max := bound (sc_maxItems c);
          a_uniq := match sc_unique c with Some b => b | None => false end |}.
Definition bc_object (c : scfg) (props : list (string * constr)) (pats : list ((nat * string) * constr))
    (additional : constr) (deps : list (string * constr)) : constr :=
  CObj {| o_add := match sc_addProps c with None => CNil | Some SNil => CEmpty | Some _ => additional end;
          o_pats := pats; o_props := props; o_propdeps := sc_depNames c;
          o_req := fold_left (fun m k => sset k tt m) (sc_required c) [];
          o_min := bound (sc_minProps c); o_max := bound (sc_maxProps c); o_sdeps := deps |}.

Fixpoint bc (s : schema) : constr :=
  match s with
  | SNil => CNil
  | Sch c =>
      if negb (String.eqb (sc_ref c) "") then CRef (sc_ref c)
      else
        let comb :=
          match sc_not c with
          | Sch _ => [CNot (bc (sc_not c))]
          | SNil =>
              match sc_allOf c with
              | _ :: _ => [reduce (CAll (map bc (sc_allOf c)))]
              | [] =>
                  match sc_anyOf c with
                  | _ :: _ => [reduce (CAny (map bc (sc_anyOf c)))]
                  | [] =>
                      match sc_oneOf c with
                      | _ :: _ => [reduce (COneOf (map bc (sc_oneOf c)))]
                      | [] => []
                      end
                  end
              end
          end in
        let one t :=
          match t with
          | TString => build_string c
          | TNumber => build_number c
          | TInteger => build_integer c
          | TBoolean => build_boolean c
          | TArray => bc_array c (match sc_items c with Some (_, l) => map bc l | None => [] end)
                        (match sc_addItems c with Some x => bc x | None => CNil end)
          | TObject => bc_object c (map (fun e => (fst e, bc (snd e))) (sc_props c))
                        (map (fun e => (fst e, bc (snd e))) (sc_pats c))
                        (match sc_addProps c with Some x => bc x | None => CNil end)
                        (map (fun e => (fst e, bc (snd e))) (sc_depSchemas c))
          | _ => CNull
          end in
        let ts := match types_of c with
                  | [] => match sc_enum c with [] => [] | l => [CEnum l] end
                  | l => [reduce (CAny (map one l))]
                  end in
        reduce (CAll (comb ++ ts))
  end.

(** the schema a reference stands for *)
Definition lookup (D : resolver) (n : string) : option schema :=
  match D n with
  | RError _ | RMap (inr _) => None
  | RSchema s | RMap (inl s) => Some s
  | ROther => Some SNil
  end.

(** the schema meant by a name in a document with root s: "#", when the root uses it, is
    the root; other names are resolved *)
Inductive Def (D : resolver) (s : schema) : string -> schema -> Prop :=
| def_root : Used s "#" -> Def D s "#" s
| def_look n s' : ~ (n = "#"%string /\ Used s "#") -> lookup D n = Some s' -> Def D s n s'.

(** names referred to by the root, directly or through definitions *)
Inductive Referred (D : resolver) (s : schema) : string -> Prop :=
| rf_root n : Used s n -> Referred D s n
| rf_def m s' n : Referred D s m -> Def D s m s' -> Used s' n -> Referred D s n.

(** references mentioned in a constraint *)
Definition parts (c : constr) : list constr :=
  match c with
  | CArr a => a_items a :: a_add a :: a_pos a
  | CObj o => o_add o :: map snd (o_pats o) ++ map snd (o_props o) ++ map snd (o_sdeps o)
  | CAny l | CAll l | COneOf l => l
  | CNot x => [x]
  | _ => []
  end.
Inductive Mentions : constr -> string -> Prop :=
| men_ref n : Mentions (CRef n) n
| men_part c x n : In x (parts c) -> Mentions x n -> Mentions c n.
