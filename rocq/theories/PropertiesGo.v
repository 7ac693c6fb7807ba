(** Structs, Maybe values and the fluent API

    Only statements: each theorem is proved in the file named above it. *)

From Coq Require Import List String ZArith Bool SpecFloat QArith.
From Verif Require Import Base GoFloat FloatSpec FloatProofs GoValue Formats Maybe HostSpec
  Constraint StructInfo Validate Fuel Reach ReadOnly Frame Preserve
  Spec SpecSound SpecObj SpecMain ConstrInd Terminate Scalars Structure
  Composite Refuted DocSpec Linear RefConc RegConc Server Fluent
  MaybeProofs Simulate StructProofs DefaultProofs StructCases NoPanic Repeat Cases
  DocDeviates Builder BuildSpec BuildProofs Local BuildRefs BuildErr Height
  SchemaSpec SchemaForm SchemaRegular SchemaMeans SchemaMain BuildCases Extras GoText
  GoLang GoEval Generator GenLex GenParse GenCode GenLike GenSpec
  GenFaith GenRound GenObj GenMain GenProcess GenTheorems GenLoss GenDet
  GenCases EndToEnd EndCases Cli CliProofs CliCases Heap HeapProofs
  HeapCases Custom CustomProofs CustomCases Witness WitnessBuild.
Import ListNotations.
Open Scope nat_scope.
Open Scope string_scope.
Open Scope list_scope.

(** ** C34. Struct property names follow the json tags

    For a struct type with exported, non-embedded fields and distinct property names, the property names jsval uses are exactly: the part of the json tag before the first comma when non-empty, the Go field name otherwise, and fields tagged ''-'' and unexported fields have none; looking a name up finds exactly the field it came from.
    Status: proved.  *)

(* StructProofs.v *)
Theorem C34_struct_property_last :
  forall (T : string) (fs : list (finfo * gval)) (k : string),
  no_embedded fs ->
  distinct_fields fs ->
  get_prop (RV false (GStruct T fs)) k =
  Some match last_field k fs with
       | Some (fi, x) => RV (f_iface fi) x
       | None => RZero
       end.
Proof. exact (@StructProofs.struct_property_last). Qed.
Print Assumptions C34_struct_property_last.

(* StructProofs.v *)
Theorem C34_struct_property :
  forall (T : string) (fs : list (finfo * gval)) (k : string) (fi : finfo) (x : gval),
  no_embedded fs ->
  distinct_fields fs ->
  distinct_props fs ->
  In (fi, x) fs ->
  json_name fi = Some k -> get_prop (RV false (GStruct T fs)) k = Some (RV (f_iface fi) x).
Proof. exact (@StructProofs.struct_property). Qed.
Print Assumptions C34_struct_property.

(* StructProofs.v *)
Theorem C34_struct_no_property :
  forall (T : string) (fs : list (finfo * gval)) (k : string),
  no_embedded fs ->
  distinct_fields fs ->
  (forall (fi : finfo) (x : gval), In (fi, x) fs -> json_name fi <> Some k) ->
  get_prop (RV false (GStruct T fs)) k = Some RZero.
Proof. exact (@StructProofs.struct_no_property). Qed.
Print Assumptions C34_struct_no_property.

(* StructProofs.v *)
Theorem C34_struct_names :
  forall (T : string) (fs : list (finfo * gval)),
  no_embedded fs ->
  distinct_fields fs ->
  distinct_props fs ->
  maybes_readable fs ->
  exists l : list string,
    get_names (RV false (GStruct T fs)) = GOk l /\
    NoDup l /\
    (forall k : string,
     In k l <->
     (exists e : finfo * gval, In e fs /\ json_name (fst e) = Some k /\ shown e = Some true)).
Proof. exact (@StructProofs.struct_names). Qed.
Print Assumptions C34_struct_names.

(* StructCases.v *)
Example C34_person_names :
  map json_name (map fst (StructCases.person (MString true "ann") 3)) =
  [Some "name"; Some "Age"; None; None].
Proof. exact (@StructCases.person_names). Qed.

(** ** C35. Validating a struct equals validating the corresponding map

    For a pointer to (or value of) a struct with non-embedded fields, an Object constraint without defaults gives the same verdict as on the map from property names to field values, where invalid Maybe fields are absent and valid ones are unwrapped.
    Status: partial. REFUTED as stated; exact guard proved. *)

(* StructProofs.v *)
Theorem C35_struct_as_map_partial :
  forall (E : env) (n : nat) (c : constr) (T : string) (fs : list (finfo * gval)) 
    (v : gval) (w : orc),
  no_embedded fs ->
  distinct_fields fs ->
  distinct_props fs ->
  maybes_readable fs ->
  struct_or_pointer T fs v ->
  pure E c ->
  (forall l : list gval, ~ Applied E c (CEnum l)) ->
  maybes_declared E c fs ->
  same_verdict (fst (fst (validate n E c v w))) (fst (fst (validate n E c (map_value fs) w))).
Proof. exact (@StructProofs.struct_as_map). Qed.
Print Assumptions C35_struct_as_map_partial.

(* StructCases.v *)
Theorem C35_struct_as_map_refuted :
  ~ (forall (E : env) (c : constr) (T : string) (fs : list (finfo * gval)) (v : gval) 
     (w : orc) (o : out),
   no_embedded fs ->
   distinct_fields fs ->
   distinct_props fs ->
   maybes_readable fs ->
   struct_or_pointer T fs v ->
   pure E c ->
   (forall l : list gval, ~ Applied E c (CEnum l)) ->
   Runs E c (map_value fs) w o ->
   exists o' : out, Runs E c v w o' /\ same_verdict (fst (fst o')) (fst (fst o))).
Proof. exact (@StructCases.struct_as_map_refuted). Qed.
Print Assumptions C35_struct_as_map_refuted.

(* StructCases.v *)
Example C35_person_as_map :
  (forall (n : nat) (w : orc) (name : maybe) (age : Z),
   same_verdict
     (fst
        (fst
           (validate n (env0 no_refs) (CObj person_schema)
              (person_ptr (StructCases.person name age)) w)))
     (fst
        (fst
           (validate n (env0 no_refs) (CObj person_schema)
              (map_value (StructCases.person name age)) w)))) /\
  map_value (StructCases.person (MString false "") 3) = jobj [("Age", GInt "int" Kint 3)] /\
  map_value (StructCases.person (MString true "ann") 3) =
  jobj [("Age", GInt "int" Kint 3); ("name", gstr "ann")].
Proof. exact (@StructCases.person_as_map). Qed.

(** ** C36. Maybe values

    For each Maybe type, after any history of Set and Reset, Valid is true iff the last successful Set is more recent than the last Reset, Value is the (converted) argument of the last successful Set, and Set succeeds exactly on the listed Go types and otherwise changes nothing.
    Status: proved.  *)

(* MaybeProofs.v *)
Theorem C36_set_exact :
  forall (tp : string -> Z + string) (m : maybe) (x : gval) (m' : maybe),
  m_set tp m x = inl m' <->
  m_valid m' = true /\ kind_of m' = kind_of m /\ Takes tp (kind_of m) x (m_value m').
Proof. exact (@MaybeProofs.set_exact). Qed.
Print Assumptions C36_set_exact.

(* MaybeProofs.v *)
Theorem C36_set_fails :
  forall (tp : string -> Z + string) (m : maybe) (x : gval),
  (exists e : string, m_set tp m x = inr e) <-> (forall y : gval, ~ Takes tp (kind_of m) x y).
Proof. exact (@MaybeProofs.set_fails). Qed.
Print Assumptions C36_set_fails.

(* MaybeProofs.v *)
Theorem C36_maybe_history :
  forall (tp : string -> Z + string) (m : maybe) (h : list MaybeProofs.mcall),
  m_valid m = false ->
  exists (b : bool) (o : option gval),
    Outcome tp (kind_of m) h b o /\
    (let m' := fold_left (m_do tp) h m in
     kind_of m' = kind_of m /\
     m_valid m' = b /\ m_value m' = match o with
                                    | Some y => y
                                    | None => m_value m
                                    end).
Proof. exact (@MaybeProofs.maybe_history). Qed.
Print Assumptions C36_maybe_history.

(* MaybeProofs.v *)
Theorem C36_outcome_unique :
  forall (tp : string -> Z + string) (k : mkind) (h : list MaybeProofs.mcall) 
    (b : bool) (o : option gval) (b' : bool) (o' : option gval),
  Outcome tp k h b o -> Outcome tp k h b' o' -> b = b' /\ o = o'.
Proof. exact (@MaybeProofs.outcome_unique). Qed.
Print Assumptions C36_outcome_unique.

(* MaybeProofs.v *)
Example C36_history_example :
  forall tp : string -> Z + string,
  let h :=
    [MSet (GInt "int8" Kint8 7); MSet (GStr "string" "x"); MReset; MSet (GBool "bool" true)]
    in
  Outcome tp MaybeProofs.KInt h false (Some (GInt "int64" Kint64 7)) /\
  fold_left (m_do tp) h zero_MInt = MInt false 7.
Proof. exact (@MaybeProofs.history_example). Qed.

(** ** C37. Maybe JSON round trip

    Encoding a valid Maybe and decoding the result gives a valid Maybe with the same value. (False of the code for MaybeTime, whose decoder never marks the value valid.) Decoding JSON null marks the other Maybe types valid with the zero value.
    Status: partial. REFUTED as stated; exact guard proved. *)

(* MaybeProofs.v *)
Theorem C37_maybe_json_refuted :
  ~ (forall (tp : string -> Z + string) (tf : Z -> string) (m m0 : maybe) (j : Maybe.json),
   time_prints tp tf m ->
   in_range m ->
   m_valid m = true ->
   kind_of m0 = kind_of m ->
   m_valid m0 = false -> m_marshal tf m = Some j -> m_unmarshal tp m0 j = Some m).
Proof. exact (@MaybeProofs.maybe_json_refuted). Qed.
Print Assumptions C37_maybe_json_refuted.

(* MaybeProofs.v *)
Theorem C37_maybe_json_partial :
  forall (tp : string -> Z + string) (tf : Z -> string) (m m0 : maybe) (j : Maybe.json),
  kind_of m <> KTime ->
  in_range m ->
  m_valid m = true ->
  kind_of m0 = kind_of m -> m_marshal tf m = Some j -> m_unmarshal tp m0 j = Some m.
Proof. exact (@MaybeProofs.maybe_json). Qed.
Print Assumptions C37_maybe_json_partial.

(* MaybeProofs.v *)
Theorem C37_time_json_stays_partial :
  forall (tp : string -> Z + string) (tf : Z -> string) (v : bool) 
    (t : Z) (v0 : bool) (t0 : Z),
  tp (json_string (tf t)) = inl t ->
  exists j : Maybe.json,
    m_marshal tf (MTime v t) = Some j /\
    m_unmarshal tp (MTime v0 t0) j = Some (MTime v0 t) /\
    (v0 = false -> look_prop (RV false (GMaybe (MTime v0 t))) = LMissing).
Proof. exact (@MaybeProofs.time_json_stays). Qed.
Print Assumptions C37_time_json_stays_partial.

(* MaybeProofs.v *)
Theorem C37_null_json_partial :
  forall (tp : string -> Z + string) (m : maybe),
  (forall t : Z, tp "" <> inl t) ->
  m_unmarshal tp m JNull =
  match kind_of m with
  | MaybeProofs.KBool => Some (MBool true false)
  | KFloat => Some (MFloat true fzero)
  | MaybeProofs.KInt => Some (MInt true 0)
  | KString => Some (MString true "")
  | KTime => None
  | KUint => Some (MUint true 0)
  end.
Proof. exact (@MaybeProofs.null_json). Qed.
Print Assumptions C37_null_json_partial.

(* MaybeProofs.v *)
Theorem C37_string_json_needs_utf8_partial :
  exists s : string,
    forall (tp : string -> Z + string) (tf : Z -> string),
    match m_marshal tf (MString true s) with
    | Some j => m_unmarshal tp zero_MString j <> Some (MString true s)
    | None => False
    end.
Proof. exact (@MaybeProofs.string_json_needs_utf8). Qed.
Print Assumptions C37_string_json_needs_utf8_partial.

(* WitnessBuild.v *)
Example C37_json_case :
  forall (tp : string -> Z + string) (tf : Z -> string),
  in_range (MInt true (-7)) /\
  in_range (MString true "ann") /\
  (exists j : Maybe.json,
     m_marshal tf (MInt true (-7)) = Some j /\
     m_unmarshal tp zero_MInt j = Some (MInt true (-7))) /\
  (exists j : Maybe.json,
     m_marshal tf (MString true "ann") = Some j /\
     m_unmarshal tp zero_MString j = Some (MString true "ann")).
Proof. exact (@WitnessBuild.json_case). Qed.

(** ** C38. Defaults reach Maybe fields through a pointer

    Validating a pointer to a struct with an invalid Maybe field whose property has a (convertible) default and is not required makes the field valid with that default when it passes. Passing the struct by value, or nesting it by value, panics instead.
    Status: proved.  *)

(* DefaultProofs.v *)
Theorem C38_default_reaches_field :
  forall (E : env) (n : nat) (o : objcfg) (PT : string) (a : Z) (T : string)
    (fs : list (finfo * gval)) (w : orc) (v' : gval) (w' : orc) (j : nat) 
    (fi : finfo) (m : maybe) (k : string) (c : constr) (d : gval),
  no_embedded fs ->
  distinct_fields fs ->
  distinct_props fs ->
  NoDup (map fst (o_props o)) ->
  nth_error fs j = Some (fi, GMaybe m) ->
  f_iface fi = false ->
  m_valid m = false ->
  json_name fi = Some k ->
  In (k, c) (o_props o) ->
  is_required o k = false ->
  Default E c d ->
  in_kind d ->
  validate n E (CObj o) (GPtr PT a (Some (false, GStruct T fs))) w = (Pass, v', w') ->
  exists (fs' : list (finfo * gval)) (m' : maybe),
    v' = GPtr PT a (Some (false, GStruct T fs')) /\
    map fst fs' = map fst fs /\
    nth_error fs' j = Some (fi, GMaybe m') /\
    m_valid m' = true /\
    kind_of m' = kind_of m /\ Stored (e_time E) (kind_of m) d (m_value m').
Proof. exact (@DefaultProofs.default_reaches_field). Qed.
Print Assumptions C38_default_reaches_field.

(* DefaultProofs.v *)
Theorem C38_by_value_never_passes :
  forall (E : env) (n : nat) (o : objcfg) (T : string) (fs : list (finfo * gval)) 
    (w : orc) (v' : gval) (w' : orc) (j : nat) (fi : finfo) (m : maybe) 
    (k : string) (c : constr) (d : gval),
  no_embedded fs ->
  distinct_fields fs ->
  distinct_props fs ->
  NoDup (map fst (o_props o)) ->
  nth_error fs j = Some (fi, GMaybe m) ->
  f_iface fi = false ->
  m_valid m = false ->
  json_name fi = Some k ->
  In (k, c) (o_props o) ->
  is_required o k = false ->
  Default E c d -> validate n E (CObj o) (GStruct T fs) w <> (Pass, v', w').
Proof. exact (@DefaultProofs.by_value_never_passes). Qed.
Print Assumptions C38_by_value_never_passes.

(* StructCases.v *)
Example C38_default_into_person :
  Runs (env0 no_refs) (CObj person_defaults)
    (person_ptr (StructCases.person (MString false "") 3)) []
    (Pass, person_ptr (StructCases.person (MString true "bob") 3), []) /\
  Runs (env0 no_refs) (CObj person_defaults)
    (GStruct "Person" (StructCases.person (MString false "") 3)) []
    (Panic "reflect: Set using unaddressable value",
     GStruct "Person" (StructCases.person (MString false "") 3), []) /\
  Default (env0 no_refs) (str_def (gstr "bob")) (gstr "bob") /\ in_kind (gstr "bob").
Proof. exact (@StructCases.default_into_person). Qed.

(** ** C40. Fluent setters

    Each setter changes only its own aspect: setters for different aspects commute, the last call of a setter wins, Required and AddProp accumulate, AddProp overrides an earlier AddProp of the same name, PropDependency accumulates.
    Status: proved.  *)

(* Fluent.v *)
Theorem C40_str_chain_exact :
  forall l : list str_call,
  fst (str_chain l) = last_arg s_default l /\
  s_max (snd (str_chain l)) = last_or s_maxl l (-1)%Z /\
  s_min (snd (str_chain l)) = last_or s_minl l 0%Z /\
  s_rx (snd (str_chain l)) = last_arg s_regex l /\
  s_fmt (snd (str_chain l)) = last_or s_form l "" /\
  s_enum (snd (str_chain l)) = last_arg s_enums l.
Proof. exact (@Fluent.str_chain_exact). Qed.
Print Assumptions C40_str_chain_exact.

(* Fluent.v *)
Theorem C40_num_chain_exact :
  forall l : list num_call,
  let
  '(d, c) := num_chain l in
   d = last_arg n_default l /\
   n_amax c = is_some (last_arg n_maxi l) /\
   n_max c = last_or n_maxi l fzero /\
   n_amin c = is_some (last_arg n_mini l) /\
   n_min c = last_or n_mini l fzero /\
   n_amul c = is_some (last_arg n_mult l) /\
   n_mul c = last_or n_mult l fzero /\
   n_xmin c = last_or n_exmin l false /\
   n_xmax c = last_or n_exmax l false /\ n_enum c = last_arg n_enums l.
Proof. exact (@Fluent.num_chain_exact). Qed.
Print Assumptions C40_num_chain_exact.

(* Fluent.v *)
Theorem C40_arr_chain_exact :
  forall l : list arr_call,
  a_items (arr_chain l) = last_or a_itemsc l CNil /\
  a_pos (arr_chain l) = last_or a_posc l [] /\
  a_add (arr_chain l) = last_or a_addc l CEmpty /\
  a_min (arr_chain l) = last_or a_minc l (-1)%Z /\
  a_max (arr_chain l) = last_or a_maxc l (-1)%Z /\
  a_uniq (arr_chain l) = last_or a_uniqc l false.
Proof. exact (@Fluent.arr_chain_exact). Qed.
Print Assumptions C40_arr_chain_exact.

(* Fluent.v *)
Theorem C40_obj_chain_exact :
  forall l : list obj_call,
  o_min (obj_chain l) = last_or o_minc l (-1)%Z /\
  o_max (obj_chain l) = last_or o_maxc l (-1)%Z /\
  o_add (obj_chain l) = last_or o_addc l CNil /\
  (forall k : string, sget k (o_props (obj_chain l)) = last_arg (o_propc k) l) /\
  (forall k : string, sget k (o_sdeps (obj_chain l)) = last_arg (o_sdepc k) l) /\
  (forall i : nat, pat_get i (o_pats (obj_chain l)) = last_arg (o_patc i) l) /\
  (forall k : string, is_required (obj_chain l) k = true <-> Fluent.required_in k l) /\
  (forall k : string, prop_deps (obj_chain l) k = deps_of k l).
Proof. exact (@Fluent.obj_chain_exact). Qed.
Print Assumptions C40_obj_chain_exact.

(* Fluent.v *)
Theorem C40_setters_commute :
  (forall (s : option gval * strcfg) (a b : str_call),
   str_aspect a <> str_aspect b -> str_step (str_step s a) b = str_step (str_step s b) a) /\
  (forall (s : option gval * numcfg) (a b : num_call),
   num_aspect a <> num_aspect b -> num_step (num_step s a) b = num_step (num_step s b) a) /\
  (forall (s : arrcfg) (a b : arr_call),
   arr_aspect a <> arr_aspect b -> arr_step (arr_step s a) b = arr_step (arr_step s b) a) /\
  (forall (s : objcfg) (a b : obj_call),
   obj_aspect a <> obj_aspect b -> obj_step (obj_step s a) b = obj_step (obj_step s b) a).
Proof. exact (@Fluent.setters_commute). Qed.
Print Assumptions C40_setters_commute.

(* Fluent.v *)
Example C40_chain_example :
  prop_deps
    (obj_chain
       [OAddProp "a" CNull; ORequired ["b"]; OPropDep "a" ["b"]; OAddProp "a" CEmpty;
        OPropDep "a" ["c"]; ORequired ["c"]]) "a" = ["b"; "c"] /\
  sget "a" (o_props (obj_chain [OAddProp "a" CNull; OAddProp "a" CEmpty])) = Some CEmpty.
Proof. exact (@Fluent.chain_example). Qed.

(** ** C55. Integer() chains stay integers

    A chain of setters on Integer() yields a constraint that rejects fractional numbers. (False of the code: MultipleOf and Enum are promoted from the embedded NumberConstraint and return it, so a chain containing them yields a number constraint.) Exactly the chains without those two are integer constraints.
    Status: partial. REFUTED as stated; exact guard proved. *)

(* Fluent.v *)
Theorem C55_integer_chain_refuted :
  ~ (forall (E : env) (l : list num_call) (n : nat) (f : f64) (w : orc),
   0 < n ->
   ffloor f <> f ->
   feq (ffloor f) f = false -> fst (fst (validate n E (int_chain l) (gfloat f) w)) <> Pass).
Proof. exact (@Fluent.integer_chain_refuted). Qed.
Print Assumptions C55_integer_chain_refuted.

(* Fluent.v *)
Theorem C55_integer_chain_exact_partial :
  forall l : list num_call,
  int_chain_is_int l = true <->
  (forall c : num_call,
   In c l -> (forall f : f64, c <> NMultipleOf f) /\ (forall e : list gval, c <> NEnum e)).
Proof. exact (@Fluent.integer_chain_exact). Qed.
Print Assumptions C55_integer_chain_exact_partial.

(* Fluent.v *)
Theorem C55_integer_chain_guarded_partial :
  forall (E : env) (l : list num_call) (n : nat) (f : f64) (w : orc),
  int_chain_is_int l = true ->
  feq (ffloor f) f = false -> fst (fst (validate (S n) E (int_chain l) (gfloat f) w)) <> Pass.
Proof. exact (@Fluent.integer_chain_guarded). Qed.
Print Assumptions C55_integer_chain_guarded_partial.

(* WitnessBuild.v *)
Example C55_chain_case :
  forall (n : nat) (w : orc),
  int_chain_is_int [NMinimum (f64_of_Z 0); NExclusiveMinimum true; NMaximum (f64_of_Z 9)] =
  true /\
  feq (ffloor two_half) two_half = false /\
  fst
    (fst
       (validate (S n) env1
          (int_chain [NMinimum (f64_of_Z 0); NExclusiveMinimum true; NMaximum (f64_of_Z 9)])
          (gfloat two_half) w)) <> Pass /\
  fst
    (fst
       (validate 1 env1
          (int_chain [NMinimum (f64_of_Z 0); NExclusiveMinimum true; NMaximum (f64_of_Z 9)])
          (num 3) [])) = Pass.
Proof. exact (@WitnessBuild.chain_case). Qed.

(** ** C57. Unspecified AdditionalItems

    If AdditionalItems was not specified, extra items beyond PositionalItems are not allowed (as documented). (False of the code: the default is EmptyConstraint, so every extra item is allowed; only an explicit nil forbids them.)
    Status: partial. REFUTED as stated; exact guard proved. *)

(* Extras.v *)
Theorem C57_extra_items_refuted :
  ~ (forall (E : env) (cs : list constr) (T : string) (i : bool) (l : list gval) 
     (w : orc) (v' : gval) (w' : orc),
   cs <> [] ->
   Runs E (CArr (arr_positional cs new_arr)) (GSlice T i (Some l)) w (Pass, v', w') ->
   Datatypes.length l <= Datatypes.length cs).
Proof. exact (@Extras.extra_items_refuted). Qed.
Print Assumptions C57_extra_items_refuted.

(* Extras.v *)
Theorem C57_extra_items_free_partial :
  forall (E : env) (cs : list constr) (T : string) (i : bool) (l : list gval) 
    (w : orc) (m : string) (v' : gval) (w' : orc),
  (forall (j : nat) (c : constr) (x : gval),
   nth_error cs j = Some c -> nth_error l j = Some x -> ~ Fails E c x) ->
  ~ Runs E (CArr (arr_positional cs new_arr)) (GSlice T i (Some l)) w (Fail m, v', w').
Proof. exact (@Extras.extra_items_free). Qed.
Print Assumptions C57_extra_items_free_partial.

(* Extras.v *)
Theorem C57_extra_items_nil_partial :
  forall (E : env) (cs : list constr) (T : string) (i : bool) (l : list gval) 
    (w : orc) (v' : gval) (w' : orc),
  cs <> [] ->
  Runs E (CArr (arr_additional CNil (arr_positional cs new_arr))) 
    (GSlice T i (Some l)) w (Pass, v', w') -> Datatypes.length l <= Datatypes.length cs.
Proof. exact (@Extras.extra_items_nil). Qed.
Print Assumptions C57_extra_items_nil_partial.

(* Extras.v *)
Example C57_extra_items_case :
  (forall (j : nat) (c : constr) (x : gval),
   nth_error [str] j = Some c ->
   nth_error [gstr "a"; num 1] j = Some x -> ~ Fails (env0 no_refs) c x) /\
  (exists (m : string) (v' : gval) (w' : orc),
     Runs (env0 no_refs) (CArr (arr_additional CNil (arr_positional [str] new_arr)))
       (jarr [gstr "a"; num 1]) [] (Fail m, v', w')).
Proof. exact (@Extras.extra_items_case). Qed.

(** ** C73. An object is validated like the map its methods describe

    A struct whose GetPropNames, GetPropValue and SetPropValue methods describe a map gets the verdict of that map and afterwards describes what the map would have become. (False of the code: a null member counts as missing but its name stays on the list, which panics or reports it as not allowed; a nil default panics; a Maybe handed out by GetPropValue is opened.) Exact for every implementation when no member and no default is nil or a Maybe, and no enumeration the object itself is compared with holds maps or structs of its type.
    Status: partial. REFUTED as stated; exact guard proved. Properties' values are ordinary values, not themselves objects with methods. *)

(* CustomCases.v *)
Theorem C73_described_refuted :
  ~ (forall (S : Type) (C : custom S) (D : S -> list (string * gval) -> Prop) 
     (E : env) (n : nat) (c : constr) (s : S) (m : list (string * gval)) (w : orc),
   faithful C (fun _ : gval => True) D ->
   D s m -> same_verdict (fst (fst (cvalidate C n E c s w))) (fst (fst (validate n E c (gmap m) w)))).
Proof. exact (@CustomCases.described_refuted). Qed.
Print Assumptions C73_described_refuted.

(* CustomProofs.v *)
Theorem C73_custom_verdict_partial :
  forall (S : Type) (C : custom S) (D : S -> list (string * gval) -> Prop) 
    (E : env) (n : nat) (c : constr) (s : S) (m : list (string * gval)) 
    (w : orc) (r : res) (s' : S) (w' : orc) (r1 : res) (v1 : gval) 
    (w1 : orc),
  faithful C present D ->
  (forall (l : list gval) (e : gval), Applied E c (CEnum l) -> In e l -> foreign C e) ->
  (forall (o : objcfg) (k : string) (p : constr) (d : gval),
   Applied E c (CObj o) -> In (k, p) (o_props o) -> Default E p d -> present d) ->
  D s m ->
  cvalidate C n E c s w = (r, s', w') ->
  validate n E c (gmap m) w = (r1, v1, w1) ->
  same_verdict r r1 /\ w' = w1 /\ (exists m' : list (string * gval), v1 = gmap m' /\ D s' m').
Proof. exact (@CustomProofs.custom_verdict). Qed.
Print Assumptions C73_custom_verdict_partial.

(* CustomCases.v *)
Theorem C73_custom_calm_partial :
  forall (S : Type) (C : custom S) (D : S -> list (string * gval) -> Prop) 
    (E : env) (n : nat) (c : constr) (s : S) (m : list (string * gval)) 
    (w : orc),
  faithful C present D ->
  (forall (l : list gval) (e : gval), Applied E c (CEnum l) -> In e l -> foreign C e) ->
  (forall (o : objcfg) (k : string) (p : constr) (d : gval),
   Applied E c (CObj o) -> In (k, p) (o_props o) -> Default E p d -> present d) ->
  D s m -> sane E c -> jdoc (gmap m) -> calm (fst (fst (cvalidate C n E c s w))).
Proof. exact (@CustomCases.custom_calm). Qed.
Print Assumptions C73_custom_calm_partial.

(* CustomCases.v *)
Theorem C73_crate_agrees_partial :
  forall (n : nat) (w : orc) (r : res) (s' : list (string * gval)) 
    (w' : orc) (r1 : res) (v1 : gval) (w1 : orc),
  cvalidate store n (env0 crate_refs) crate crate_doc w = (r, s', w') ->
  validate n (env0 crate_refs) crate (gmap crate_doc) w = (r1, v1, w1) ->
  same_verdict r r1 /\ w' = w1 /\ v1 = gmap s'.
Proof. exact (@CustomCases.crate_agrees). Qed.
Print Assumptions C73_crate_agrees_partial.

(* CustomCases.v *)
Example C73_null_property :
  fst (fst (validate 3 (env0 no_refs) (objectc [("a", CNull)] CNil) (gmap [("a", GNil)]) [])) =
  Pass /\
  fst (fst (cvalidate store 3 (env0 no_refs) (objectc [("a", CNull)] CNil) [("a", GNil)] [])) =
  Fail "additional properties are not allowed".
Proof. exact (@CustomCases.null_property). Qed.

(* CustomCases.v *)
Example C73_null_default :
  fst (fst (validate 3 (env0 no_refs) (objectc [("a", str_def GNil)] CNil) (gmap []) [])) =
  Pass /\
  fst (fst (cvalidate store 3 (env0 no_refs) (objectc [("a", str_def GNil)] CNil) [] [])) =
  Panic "reflect: Call using zero Value argument".
Proof. exact (@CustomCases.null_default). Qed.

(* CustomCases.v *)
Example C73_maybe_member :
  fst
    (fst
       (validate 3 (env0 no_refs) (objectc [("a", str)] CNil)
          (gmap [("a", GMaybe (MString true "x"))]) [])) =
  Fail "object property 'a' validation failed: value is not a string (Kind: struct)" /\
  fst
    (fst
       (cvalidate store 3 (env0 no_refs) (objectc [("a", str)] CNil)
          [("a", GMaybe (MString true "x"))] [])) = Pass.
Proof. exact (@CustomCases.maybe_member). Qed.

(* CustomCases.v *)
Example C73_map_enum :
  fst (fst (validate 3 (env0 no_refs) (CEnum [gmap []]) (gmap []) [])) =
  Panic "comparing uncomparable type" /\
  fst (fst (cvalidate store 3 (env0 no_refs) (CEnum [gmap []]) [] [])) =
  Fail "value is not in enumeration".
Proof. exact (@CustomCases.map_enum). Qed.

(** ** C74. Property methods that return errors count for nothing

    A struct whose GetPropNames and GetPropValue methods return errors and which has no SetPropValue method is validated exactly as the same struct without methods: same verdict, same message, same changes.
    Status: proved. half_panics: one working method is enough to be caught between two descriptions. *)

(* CustomProofs.v *)
Theorem C74_mute_verdict :
  forall (S : Type) (C : custom S) (E : env) (n : nat) (c : constr) 
    (s : S) (w : orc) (r : res) (s' : S) (w' : orc),
  mute C ->
  structy (c_self C s) ->
  cvalidate C n E c s w = (r, s', w') -> validate n E c (c_self C s) w = (r, c_self C s', w').
Proof. exact (@CustomProofs.mute_verdict). Qed.
Print Assumptions C74_mute_verdict.

(* CustomCases.v *)
Example C74_person_refusing :
  mute refusing /\
  structy (c_self refusing (person_ptr (StructCases.person (MString false "") 3))) /\
  cvalidate refusing 4 (env0 no_refs)
    (objectc [("Age", integer); ("name", str_def (gstr "bob"))] CNil)
    (person_ptr (StructCases.person (MString false "") 3)) [] =
  (Pass, person_ptr (StructCases.person (MString true "bob") 3), []).
Proof. exact (@CustomCases.person_refusing). Qed.

(* CustomCases.v *)
Example C74_half_panics :
  fst
    (fst
       (validate 3 (env0 no_refs) (objectc [("Age", integer)] CEmpty)
          (person_ptr (StructCases.person (MString false "") 3)) [])) = Pass /\
  fst
    (fst
       (cvalidate CustomCases.half 3 (env0 no_refs) (objectc [("Age", integer)] CEmpty)
          (person_ptr (StructCases.person (MString false "") 3)) [])) =
  Panic "reflect: Interface of zero Value".
Proof. exact (@CustomCases.half_panics). Qed.

