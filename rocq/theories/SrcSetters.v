(** The constructors and setters of the constraints, run from their Go source (the files in
    SrcText.v) with SrcStore.v: what they leave in the store. *)
From Verif Require Import Base GoFloat GoValue Maybe Formats Constraint StructInfo Validate Builder SrcSyntax SrcText SrcTextB SrcProg SrcStore SrcProgB SrcStepB.
Open Scope string_scope.
Open Scope list_scope.
Open Scope Z_scope.

(** ** The structs *)
Definition dv (d : option gval) : bv :=
  BStruct "defaultValue" [("initialized", BBool (initialized d)); ("value", BIf (match d with Some g => g | None => GNil end))].
Definition bool_struct (d : option gval) : bv := BStruct "BooleanConstraint" [("defaultValue", dv d)].
(** [e]: the field enums *)
Definition str_struct (d : option gval) (c : strcfg) (e : bv) : bv :=
  BStruct "StringConstraint" [("defaultValue", dv d); ("enums", e); ("maxLength", BInt (s_max c)); ("minLength", BInt (s_min c));
    ("regexp", match s_rx c with Some r => BPat r | None => BNil end); ("format", BStr (s_fmt c))].
Definition num_struct (d : option gval) (c : numcfg) (e : bv) : bv :=
  BStruct "NumberConstraint" [("defaultValue", dv d); ("applyMinimum", BBool (n_amin c)); ("applyMaximum", BBool (n_amax c));
    ("applyMultipleOf", BBool (n_amul c)); ("minimum", BFloat (n_min c)); ("maximum", BFloat (n_max c)); ("multipleOf", BFloat (n_mul c));
    ("exclusiveMinimum", BBool (n_xmin c)); ("exclusiveMaximum", BBool (n_xmax c)); ("enums", e)].
Definition int_struct (d : option gval) (c : numcfg) (e : bv) : bv :=
  BStruct "IntegerConstraint" [("NumberConstraint", num_struct d c e)].
Definition empty_struct : bv := BStruct "emptyConstraint" [].
Definition null_struct : bv := BStruct "nullConstraint" [].
Definition enum_struct (v : bv) : bv := BStruct "EnumConstraint" [("emptyConstraint", empty_struct); ("enums", v)].
(** [vi], [vp], [va]: the fields items, positionalItems, additionalItems *)
Definition arr_struct (a : arrcfg) (vi vp va : bv) : bv :=
  BStruct "ArrayConstraint" [("defaultValue", dv None); ("items", vi); ("positionalItems", vp); ("additionalItems", va);
    ("minItems", BInt (a_min a)); ("maxItems", BInt (a_max a)); ("uniqueItems", BBool (a_uniq a))].
(** the maps are in cells of their own *)
Record omaps := { om_pats : nat; om_props : nat; om_deps : nat; om_req : nat; om_sdeps : nat }.
Definition obj_struct (lo hi : Z) (va : bv) (m : omaps) : bv :=
  BStruct "ObjectConstraint" [("defaultValue", dv None); ("additionalProperties", va); ("deplock", BUnit);
    ("patternProperties", BMap (om_pats m)); ("proplock", BUnit); ("properties", BMap (om_props m)); ("propdeps", BMap (om_deps m));
    ("reqlock", BUnit); ("required", BMap (om_req m)); ("maxProperties", BInt hi); ("minProperties", BInt lo);
    ("schemadeps", BMap (om_sdeps m)); ("FieldNameFromName", BNil); ("FieldNamesFromStruct", BNil)].
Definition combo_struct (T : string) (vs : bv) : bv :=
  BStruct T [("comboconstraint", BStruct "comboconstraint" [("emptyConstraint", empty_struct); ("constraints", vs)])].
Definition not_struct (v : bv) : bv := BStruct "NotConstraint" [("child", v)].
Definition ref_struct (V : bv) (r : string) : bv :=
  BStruct "ReferenceConstraint" [("resolver", V); ("lock", BUnit); ("resolved", BNil); ("reference", BStr r)].
Definition map_struct (m : bv) : bv := BStruct "ConstraintMap" [("lock", BUnit); ("refs", m)].
Definition val_struct (cm : bv) (name : string) (root : bv) : bv :=
  BStruct "JSVal" [("ConstraintMap", cm); ("Name", BStr name); ("root", root); ("resolver", BNil)].

Notation st e h w := {| vars := e; heap := h; bord := w |}.
Ltac bounds := repeat match goal with H : cell ?a ?h = Some _ |- _ =>
  lazymatch goal with _ : (a < List.length h)%nat |- _ => fail | _ => pose proof (cell_lt _ _ _ H) end end.
Ltac ran := bounds; repeat (open_b; stepsb); reflexivity.

Section S.
  Variable D : bv -> resolver.
  Variable tn : nat -> string.
  Notation P := (prog D tn).
  Variables (vs : list bscope) (h : list bv) (w : orc) (k : nat).
  Notation go f args h' v := (bcall P (S (S k)) f args (st vs h w) = BOk [v] (st vs h' w)).
  Notation new f x := (go f [] (h ++ [x]) (BPtr (List.length h) [])).
  Notation sets f a args x := (go f (BPtr a [] :: args) (put a x h) (BPtr a [])).

  (** bool.go:9-18 *)
  Lemma src_bool_new : new "Boolean" (bool_struct None). Proof. ran. Qed.
  Lemma src_bool_default a d g : cell a h = Some (bool_struct d) -> sets "BooleanConstraint.Default" a [BIf g] (bool_struct (Some g)). Proof. intro. ran. Qed.

  (** string.go:17-21, 184-229 *)
  Lemma src_str_new : new "String" (str_struct None new_str BNil). Proof. ran. Qed.
  Section Str.
    Variables (a : nat) (d : option gval) (c : strcfg) (e : bv).
    Hypothesis Ha : cell a h = Some (str_struct d c e).
    Lemma src_str_default g : sets "StringConstraint.Default" a [BIf g] (str_struct (Some g) c e). Proof. ran. Qed.
    Lemma src_str_maxLength n : sets "StringConstraint.MaxLength" a [BInt n] (str_struct d (str_maxLength n c) e). Proof. ran. Qed.
    Lemma src_str_minLength n : sets "StringConstraint.MinLength" a [BInt n] (str_struct d (str_minLength n c) e). Proof. ran. Qed.
    Lemma src_str_regexp r : sets "StringConstraint.Regexp" a [BPat r] (str_struct d (str_regexp r c) e). Proof. ran. Qed.
    Lemma src_str_format f : sets "StringConstraint.Format" a [BStr f] (str_struct d (str_format f c) e). Proof. ran. Qed.
  End Str.

  (** number.go:12-62, 143-193 *)
  Lemma src_num_new : new "Number" (num_struct None new_num BNil). Proof. ran. Qed.
  Lemma src_int_new : new "Integer" (int_struct None new_num BNil). Proof. ran. Qed.
  Section Num.
    Variables (a : nat) (d : option gval) (c : numcfg) (e : bv).
    Section Number.
      Hypothesis Ha : cell a h = Some (num_struct d c e).
      Lemma src_num_default g : sets "NumberConstraint.Default" a [BIf g] (num_struct (Some g) c e). Proof. ran. Qed.
      Lemma src_num_minimum f : sets "NumberConstraint.Minimum" a [BFloat f] (num_struct d (num_minimum f c) e). Proof. ran. Qed.
      Lemma src_num_maximum f : sets "NumberConstraint.Maximum" a [BFloat f] (num_struct d (num_maximum f c) e). Proof. ran. Qed.
      Lemma src_num_multipleOf f : sets "NumberConstraint.MultipleOf" a [BFloat f] (num_struct d (num_multipleOf f c) e). Proof. ran. Qed.
      Lemma src_num_exclMin b : sets "NumberConstraint.ExclusiveMinimum" a [BBool b] (num_struct d (num_exclMin b c) e). Proof. ran. Qed.
      Lemma src_num_exclMax b : sets "NumberConstraint.ExclusiveMaximum" a [BBool b] (num_struct d (num_exclMax b c) e). Proof. ran. Qed.
    End Number.
    Section Integer.
      Hypothesis Ha : cell a h = Some (int_struct d c e).
      Lemma src_int_minimum f : sets "IntegerConstraint.Minimum" a [BFloat f] (int_struct d (num_minimum f c) e). Proof. ran. Qed.
      Lemma src_int_maximum f : sets "IntegerConstraint.Maximum" a [BFloat f] (int_struct d (num_maximum f c) e). Proof. ran. Qed.
      Lemma src_int_default g : sets "IntegerConstraint.Default" a [BIf g] (int_struct (Some g) c e). Proof. ran. Qed.
      Lemma src_int_exclMin b : sets "IntegerConstraint.ExclusiveMinimum" a [BBool b] (int_struct d (num_exclMin b c) e). Proof. ran. Qed.
      Lemma src_int_exclMax b : sets "IntegerConstraint.ExclusiveMaximum" a [BBool b] (int_struct d (num_exclMax b c) e). Proof. ran. Qed.
      (** promoted from the embedded NumberConstraint: they return a pointer to that *)
      Lemma src_int_multipleOf f :
        go "NumberConstraint.MultipleOf" [BPtr a ["NumberConstraint"]; BFloat f] (put a (int_struct d (num_multipleOf f c) e) h) (BPtr a ["NumberConstraint"]).
      Proof. ran. Qed.
    End Integer.
  End Num.

  (** array.go:125-171, 12-18 *)
  Lemma src_arr_new : new "Array" (arr_struct new_arr BNil BNil empty_struct). Proof. ran. Qed.
  Section Arr.
    Variables (a : nat) (x : arrcfg) (vi vp va : bv).
    Hypothesis Ha : cell a h = Some (arr_struct x vi vp va).
    Lemma src_arr_items v : sets "ArrayConstraint.Items" a [v] (arr_struct x v vp va). Proof. ran. Qed.
    Lemma src_arr_positional v : sets "ArrayConstraint.PositionalItems" a [v] (arr_struct x vi v va). Proof. ran. Qed.
    Lemma src_arr_additional v : sets "ArrayConstraint.AdditionalItems" a [v] (arr_struct x vi vp v). Proof. ran. Qed.
    Lemma src_arr_min n : sets "ArrayConstraint.MinItems" a [BInt n] (arr_struct (arr_min n x) vi vp va). Proof. ran. Qed.
    Lemma src_arr_max n : sets "ArrayConstraint.MaxItems" a [BInt n] (arr_struct (arr_max n x) vi vp va). Proof. ran. Qed.
    Lemma src_arr_unique b : sets "ArrayConstraint.UniqueItems" a [BBool b] (arr_struct (arr_unique b x) vi vp va). Proof. ran. Qed.
  End Arr.

  (** enum.go:10-18 *)
  Lemma src_enum_new v : go "Enum" [BDots v] (h ++ [enum_struct v]) (BPtr (List.length h) []). Proof. ran. Qed.
  Lemma src_enum_set b v0 v : cell b h = Some (enum_struct v0) -> sets "EnumConstraint.Enum" b [BDots v] (enum_struct v). Proof. intro. ran. Qed.
  (** the field enums is made when first needed *)
  Lemma src_str_enum a d c v : cell a h = Some (str_struct d c BNil) ->
    go "StringConstraint.Enum" [BPtr a []; BDots v] (put a (str_struct d c (BPtr (List.length h) [])) (h ++ [enum_struct v])) (BPtr a []).
  Proof. intro. ran. Qed.
  Lemma src_str_enum_again a d c b v0 v : cell a h = Some (str_struct d c (BPtr b [])) -> cell b h = Some (enum_struct v0) ->
    go "StringConstraint.Enum" [BPtr a []; BDots v] (put b (enum_struct v) h) (BPtr a []).
  Proof. intros. ran. Qed.
  Lemma src_num_enum a d c v : cell a h = Some (num_struct d c BNil) ->
    go "NumberConstraint.Enum" [BPtr a []; BDots v] (put a (num_struct d c (BPtr (List.length h) [])) (h ++ [enum_struct v])) (BPtr a []).
  Proof. intro. ran. Qed.
  Lemma src_num_enum_again a d c b v0 v : cell a h = Some (num_struct d c (BPtr b [])) -> cell b h = Some (enum_struct v0) ->
    go "NumberConstraint.Enum" [BPtr a []; BDots v] (put b (enum_struct v) h) (BPtr a []).
  Proof. intros. ran. Qed.
  Lemma src_int_enum a d c v : cell a h = Some (int_struct d c BNil) ->
    go "NumberConstraint.Enum" [BPtr a ["NumberConstraint"]; BDots v] (put a (int_struct d c (BPtr (List.length h) [])) (h ++ [enum_struct v]))
      (BPtr a ["NumberConstraint"]).
  Proof. intro. ran. Qed.
  Lemma src_int_enum_again a d c b v0 v : cell a h = Some (int_struct d c (BPtr b [])) -> cell b h = Some (enum_struct v0) ->
    go "NumberConstraint.Enum" [BPtr a ["NumberConstraint"]; BDots v] (put b (enum_struct v) h) (BPtr a ["NumberConstraint"]).
  Proof. intros. ran. Qed.
  (** a single value, not spread *)
  Lemma src_num_enum_one a d c g : cell a h = Some (num_struct d c BNil) ->
    go "NumberConstraint.Enum" [BPtr a []; BIf g] (put a (num_struct d c (BPtr (List.length h) [])) (h ++ [enum_struct (BList [BIf g])])) (BPtr a []).
  Proof. intro. ran. Qed.

  (** combinations.go *)
  Lemma src_not v : go "Not" [v] (h ++ [not_struct v]) (BPtr (List.length h) []). Proof. ran. Qed.
  Lemma src_any : new "Any" (combo_struct "AnyConstraint" BNil). Proof. ran. Qed.
  Lemma src_all : new "All" (combo_struct "AllConstraint" BNil). Proof. ran. Qed.
  Lemma src_oneOf : new "OneOf" (combo_struct "OneOfConstraint" BNil). Proof. ran. Qed.
End S.

Section C.
  Variable D : bv -> resolver.
  Variable tn : nat -> string.
  Notation P := (prog D tn).
  Variables (vs : list bscope) (h : list bv) (w : orc) (k : nat).
  Notation go f args h' v := (bcall P (S (S (S k))) f args (st vs h w) = BOk [v] (st vs h' w)).
  Definition combo (T : string) : Prop := T = "AnyConstraint" \/ T = "AllConstraint" \/ T = "OneOfConstraint".
  Lemma src_add T a l c : combo T -> cell a h = Some (combo_struct T (BList l)) ->
    go (T +++ ".Add") [BPtr a []; c] (put a (combo_struct T (BList (l ++ [c]))) h) (BPtr a []).
  Proof. intros [->|[->| ->]] H; cbn [String.append]; ran. Qed.
  Lemma src_add_first T a c : combo T -> cell a h = Some (combo_struct T BNil) ->
    go (T +++ ".Add") [BPtr a []; c] (put a (combo_struct T (BList [c])) h) (BPtr a []).
  Proof. intros [->|[->| ->]] H; cbn [String.append]; ran. Qed.
  Lemma one_only {A} (l : list A) : (Z.of_nat (List.length l) =? 1) = match l with [_] => true | _ => false end.
  Proof. destruct l as [|x [|y l]]; [reflexivity|reflexivity|]. apply Z.eqb_neq. cbn [List.length]. lia. Qed.
  Lemma src_reduce T a v l : combo T -> slice_items v = Some l -> cell a h = Some (combo_struct T v) ->
    go (T +++ ".Reduce") [BPtr a []] h (match l with [x] => x | _ => BPtr a [] end).
  Proof.
    intros HT Hv H.
    assert (Hc : v = BNil /\ l = [] \/ v = BList l) by (destruct v; try discriminate Hv; injection Hv as <-; auto).
    destruct Hc as [[-> ->]| ->]; clear Hv; destruct HT as [->|[->| ->]]; cbn [String.append]; bounds; repeat (open_b; stepsb);
      try (change (0 =? 1) with false; stepsb; reflexivity);
      rewrite one_only; (destruct l as [|x [|y l]]; stepsb; reflexivity).
  Qed.

  (** reference.go *)
  Lemma src_ref_new v : go "Reference" [v] (h ++ [ref_struct v ""]) (BPtr (List.length h) []). Proof. ran. Qed.
  Lemma src_refersTo a v r0 r : cell a h = Some (ref_struct v r0) ->
    go "ReferenceConstraint.RefersTo" [BPtr a []; BStr r] (put a (ref_struct v r) h) (BPtr a []).
  Proof. intro. ran. Qed.

  (** jsval.go:13-17 *)
  Lemma src_new :
    go "New" [] ((h ++ [map_struct BNil]) ++ [val_struct (BPtr (List.length h) []) "" BNil]) (BPtr (List.length (h ++ [map_struct BNil])) []).
  Proof. ran. Qed.
  Lemma src_setRoot a cm x r0 r : cell a h = Some (val_struct cm x r0) -> go "JSVal.SetRoot" [BPtr a []; r] (put a (val_struct cm x r) h) (BPtr a []).
  Proof. intro. ran. Qed.
  Lemma src_setName a cm x r y : cell a h = Some (val_struct cm x r) -> go "JSVal.SetName" [BPtr a []; BStr y] (put a (val_struct cm y r) h) (BPtr a []).
  Proof. intro. ran. Qed.
  Lemma src_root a cm x r : cell a h = Some (val_struct cm x r) -> go "JSVal.Root" [BPtr a []] h r.
  Proof. intro. ran. Qed.
  Lemma src_setConstraintMap a cm x r cm' : cell a h = Some (val_struct cm x r) -> go "JSVal.SetConstraintMap" [BPtr a []; cm'] (put a (val_struct cm' x r) h) (BPtr a []).
  Proof. intro. ran. Qed.

  (** reference.go:25-54; the map is made when first needed *)
  Lemma src_setReference a m l x c : a <> m -> cell a h = Some (map_struct (BMap m)) -> cell m h = Some (BMapI l) ->
    bcall P (S (S (S k))) "ConstraintMap.SetReference" [BPtr a []; BStr x; c] (st vs h w) = BOk [] (st vs (put m (BMapI (kput (BStr x) c l)) h) w).
  Proof. intros. ran. Qed.
  Lemma src_setReference_first a x c : cell a h = Some (map_struct BNil) ->
    bcall P (S (S (S k))) "ConstraintMap.SetReference" [BPtr a []; BStr x; c] (st vs h w) =
    BOk [] (st vs (put a (map_struct (BMap (List.length h))) (h ++ [BMapI [(BStr x, c)]])) w).
  Proof. intros. bounds. repeat (open_b; stepsb). reflexivity. Qed.
  Lemma src_getReference a m l x : cell a h = Some (map_struct (BMap m)) -> cell m h = Some (BMapI l) ->
    bcall P (S (S (S k))) "ConstraintMap.GetReference" [BPtr a []; BStr x] (st vs h w) =
    BOk (match kget (BStr x) l with Some c => [c; BNil] | None => [BNil; BMsg ("reference '" +++ x +++ "' not found")] end) (st vs h w).
  Proof. intros. destruct (kget (BStr x) l) as [c|] eqn:E; ran. Qed.
  Lemma src_getReference_first a x : cell a h = Some (map_struct BNil) ->
    bcall P (S (S (S k))) "ConstraintMap.GetReference" [BPtr a []; BStr x] (st vs h w) =
    BOk [BNil; BMsg ("reference '" +++ x +++ "' not found")] (st vs (put a (map_struct (BMap (List.length h))) (h ++ [BMapI []])) w).
  Proof. intros. bounds. repeat (open_b; stepsb). reflexivity. Qed.
End C.

