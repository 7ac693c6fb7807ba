(** The fluent API, run from its Go source: what every expression written with it leaves in
    the store. *)
From Verif Require Import Base GoFloat GoValue Maybe Formats Constraint StructInfo Validate Fluent Builder SrcSyntax SrcText SrcTextB SrcProg SrcAccess SrcStore SrcProgB SrcStepB SrcSetters SrcSetObj SrcRep SrcBuildO.
Open Scope string_scope.
Open Scope list_scope.
Open Scope nat_scope.

(** ** Expressions *)
Inductive which := WAny | WAll | WOneOf.
Inductive fl :=
| FEmpty                          (* EmptyConstraint *)
| FNull                           (* NullConstraint *)
| FBool (l : list gval)           (* Boolean().Default(x)... *)
| FStr (l : list str_call)        (* String().A(..).B(..)... *)
| FNum (l : list num_call)
| FInt (l : list num_call)
| FArr (l : list acall)
| FObj (l : list ocall)
| FEnum (l : list gval)           (* Enum(l...) *)
| FNot (f : fl)
| FCombo (T : which) (l : list fl) (red : bool)   (* Any().Add(x).Add(y)..., with or without .Reduce() *)
| FRef (n : string)               (* Reference(V).RefersTo(n) *)
with acall := AcItems (f : fl) | AcPos (l : list fl) | AcAdd (f : fl) | AcMin (n : Z) | AcMax (n : Z) | AcUnique (b : bool)
with ocall := OcRequired (l : list string) | OcMin (n : Z) | OcMax (n : Z) | OcAdd (f : fl) | OcProp (k : string) (f : fl)
| OcPat (k : nat * string) (f : fl) | OcPropDep (k : string) (l : list string) | OcSchemaDep (k : string) (f : fl).

(** the constraint an expression stands for, by Fluent.v *)
Fixpoint den (f : fl) : constr :=
  match f with
  | FEmpty => CEmpty
  | FNull => CNull
  | FBool l => CBool (fold_left (fun _ g => Some g) l None)
  | FStr l => CStr (fst (str_chain l)) (snd (str_chain l))
  | FNum l => CNum (fst (num_chain l)) (snd (num_chain l))
  | FInt l => int_chain l
  | FArr l => CArr (arr_chain (map den_a l))
  | FObj l => CObj (obj_chain (map den_o l))
  | FEnum l => CEnum l
  | FNot f => CNot (den f)
  | FCombo T l red =>
      let c := match T with WAny => CAny | WAll => CAll | WOneOf => COneOf end (map den l) in
      if red then match map den l with [x] => x | _ => c end else c
  | FRef n => CRef n
  end
with den_a (c : acall) : arr_call :=
  match c with
  | AcItems f => AItems (den f) | AcPos l => APositional (map den l) | AcAdd f => AAdditional (den f)
  | AcMin n => AMin n | AcMax n => AMax n | AcUnique b => AUnique b
  end
with den_o (c : ocall) : obj_call :=
  match c with
  | OcRequired l => ORequired l | OcMin n => OMin n | OcMax n => OMax n | OcAdd f => OAdditional (den f) | OcProp k f => OAddProp k (den f)
  | OcPat k f => OPattern k (den f) | OcPropDep k l => OPropDep k l | OcSchemaDep k f => OSchemaDep k (den f)
  end.

Lemma fold_left_map {A B C} (f : C -> B -> C) (g : A -> B) l c : fold_left f (map g l) c = fold_left (fun c a => f c (g a)) l c.
Proof. revert c. induction l as [|x l IH]; intro c; [reflexivity|]. cbn [map fold_left]. apply IH. Qed.

(** ** Running an expression: receiver, arguments, then the method found by the receiver's
    dynamic type *)
Section Run.
  Context {X : Type} (f : X -> bv -> bst -> bev (list bv)) (g : X -> bst -> bev (list bv)).
  Definition one {B} (x : bev (list bv)) (k : bv -> bst -> bev B) : bev B :=
    match x with BOk [v] s => k v s | BOk _ _ => BStk "values" | BPn m => BPn m | BOf => BOf | BStk m => BStk m end.
  Fixpoint chain (l : list X) (v : bv) (s : bst) : bev (list bv) :=
    match l with [] => BOk [v] s | x :: r => one (f x v s) (fun v' s' => chain r v' s') end.
  Fixpoint each (l : list X) (s : bst) : bev (list bv) :=
    match l with [] => BOk [] s | x :: r => one (g x s) (fun v s' => may vs, s'' <- each r s'; BOk (v :: vs) s'') end.
End Run.
Section Ev.
  Variable D : bv -> resolver.
  Variable tn : nat -> string.
  Notation P := (prog D tn).
  Variables (V : bv) (k : nat).
  Notation call := (bcall P (S (S (S k)))).
  Notation meth := (method_of P call).
  Definition spread (l : list bv) : bv := BDots (BList l).
  Definition str_go (c : str_call) (v : bv) (s : bst) : bev (list bv) :=
    match c with
    | SDefault g => meth v "Default" [BIf g] s
    | SMaxLength n => meth v "MaxLength" [BInt n] s
    | SMinLength n => meth v "MinLength" [BInt n] s
    | SRegexp r => meth v "Regexp" [BPat r] s
    | SFormat f => meth v "Format" [BStr f] s
    | SEnum l => meth v "Enum" [spread (map BIf l)] s
    end.
  Definition num_go (c : num_call) (v : bv) (s : bst) : bev (list bv) :=
    match c with
    | NDefault g => meth v "Default" [BIf g] s
    | NMaximum f => meth v "Maximum" [BFloat f] s
    | NMinimum f => meth v "Minimum" [BFloat f] s
    | NMultipleOf f => meth v "MultipleOf" [BFloat f] s
    | NExclusiveMinimum b => meth v "ExclusiveMinimum" [BBool b] s
    | NExclusiveMaximum b => meth v "ExclusiveMaximum" [BBool b] s
    | NEnum l => meth v "Enum" [spread (map BIf l)] s
    end.
  Fixpoint ev (f : fl) (s : bst) : bev (list bv) :=
    match f with
    | FEmpty => BOk [empty_struct] s
    | FNull => BOk [null_struct] s
    | FBool l => one (call "Boolean" [] s) (chain (fun g v => meth v "Default" [BIf g]) l)
    | FStr l => one (call "String" [] s) (chain str_go l)
    | FNum l => one (call "Number" [] s) (chain num_go l)
    | FInt l => one (call "Integer" [] s) (chain num_go l)
    | FArr l => one (call "Array" [] s) (chain arr_go l)
    | FObj l => one (call "Object" [] s) (chain obj_go l)
    | FEnum l => call "Enum" [spread (map BIf l)] s
    | FNot f => one (ev f s) (fun v => call "Not" [v])
    | FCombo T l red =>
        one (call (match T with WAny => "Any" | WAll => "All" | WOneOf => "OneOf" end) [] s) (fun v s =>
        one (chain (fun f v s => one (ev f s) (fun x => meth v "Add" [x])) l v s) (fun v s => if red then meth v "Reduce" [] s else BOk [v] s))
    | FRef n => one (call "Reference" [V] s) (fun v => meth v "RefersTo" [BStr n])
    end
  with arr_go (c : acall) (v : bv) (s : bst) : bev (list bv) :=
    match c with
    | AcItems f => one (ev f s) (fun x => meth v "Items" [x])
    | AcPos l => may vs, s <- each ev l s; meth v "PositionalItems" [BList vs] s
    | AcAdd f => one (ev f s) (fun x => meth v "AdditionalItems" [x])
    | AcMin n => meth v "MinItems" [BInt n] s
    | AcMax n => meth v "MaxItems" [BInt n] s
    | AcUnique b => meth v "UniqueItems" [BBool b] s
    end
  with obj_go (c : ocall) (v : bv) (s : bst) : bev (list bv) :=
    match c with
    | OcRequired l => meth v "Required" [spread (map BStr l)] s
    | OcMin n => meth v "MinProperties" [BInt n] s
    | OcMax n => meth v "MaxProperties" [BInt n] s
    | OcAdd f => one (ev f s) (fun x => meth v "AdditionalProperties" [x])
    | OcProp p f => one (ev f s) (fun x => meth v "AddProp" [BStr p; x])
    | OcPat p f => one (ev f s) (fun x => meth v "PatternProperties" [BRx p; x])
    | OcPropDep p l => meth v "PropDependency" [BStr p; spread (map BStr l)] s
    | OcSchemaDep p f => one (ev f s) (fun x => meth v "SchemaDependency" [BStr p; x])
    end.

  (** ** Proofs *)
  Definition only (lo : nat) (h h' : list bv) : Prop := List.length h <= List.length h' /\ forall x, x < lo -> cell x h' = cell x h.
  Lemma only_refl lo h : only lo h h. Proof. now split. Qed.
  Lemma only_trans lo h1 h2 h3 : only lo h1 h2 -> only lo h2 h3 -> only lo h1 h3.
  Proof. intros [A B] [C E]. split; [lia|]. intros x Hx. rewrite E by exact Hx. now apply B. Qed.
  Lemma only_less lo lo' h h' : lo' <= lo -> only lo h h' -> only lo' h h'.
  Proof. intros H [A B]. split; [exact A|]. intros x Hx. apply B. lia. Qed.
  Lemma only_app h l : only (List.length h) h (h ++ l).
  Proof. split; [rewrite app_length; lia|]. intros x Hx. now apply cell_old. Qed.
  Lemma only_put a x h : only a h (put a x h).
  Proof. split; [rewrite put_length; lia|]. intros y Hy. apply cell_other. lia. Qed.

  (** what an expression should give *)
  Definition gives (f : fl) : Prop := forall e h w, exists v h', ev f (st e h w) = BOk [v] (st e h' w) /\
    only (List.length h) h h' /\ rep V (List.length h) (List.length h') h' v (den f).

  (** a chain keeps an invariant that every call keeps *)
  Lemma chain_inv {X Y} (f : X -> bv -> bst -> bev (list bv)) (step : Y -> X -> Y) (I : Y -> bv -> list bv -> Prop) e w lo l :
    (forall x v y h, In x l -> I y v h -> exists v' h', f x v (st e h w) = BOk [v'] (st e h' w) /\ I (step y x) v' h' /\ only lo h h') ->
    forall y v h, I y v h -> exists v' h', chain f l v (st e h w) = BOk [v'] (st e h' w) /\ I (fold_left step l y) v' h' /\ only lo h h'.
  Proof.
    induction l as [|x l IH]; intros Hs y v h Hy; cbn [chain fold_left].
    - exists v, h. split; [reflexivity|]. split; [exact Hy|apply only_refl].
    - destruct (Hs x v y h (or_introl eq_refl) Hy) as (v1 & h1 & -> & H1 & O1). cbn [one].
      destruct (IH (fun x' v' y' h' Hx => Hs x' v' y' h' (or_intror Hx)) _ _ _ H1) as (v2 & h2 & H2 & H3 & O2).
      exists v2, h2. split; [exact H2|]. split; [exact H3|]. eapply only_trans; eassumption.
  Qed.
  (** method selection *)
  Lemma meth_at a T fs m f args s : cell a (heap s) = Some (BStruct T fs) -> method_path P 4 T m = Some ([], f) -> meth (BPtr a []) m args s = call f (BPtr a [] :: args) s.
  Proof. intros H1 H2. unfold method_of, load. rewrite H1. cbn [pget]. rewrite H2. reflexivity. Qed.

  Definition str_inv (a : nat) (y : option gval * strcfg) (v : bv) (h : list bv) : Prop :=
    v = BPtr a [] /\ exists e, cell a h = Some (str_struct (fst y) (snd y) e) /\ erep a (List.length h) h e (s_enum (snd y)).
  Lemma str_cell_enum a d c e b v h : cell a h = Some (str_struct d c e) -> cell b h = Some (enum_struct v) -> a <> b.
  Proof. intros H1 H2 ->. rewrite H1 in H2. discriminate. Qed.
  Lemma erep_put a b x h e o : erep a (List.length h) h e o -> cell b h <> None -> (forall v, cell b h <> Some (enum_struct v)) -> erep a (List.length (put b x h)) (put b x h) e o.
  Proof.
    intros [|b' v l H1 H2 H3] _ Hb; [constructor|]. econstructor; [rewrite put_length; exact H1| |exact H3].
    rewrite cell_other; [exact H2|]. intros ->. now apply (Hb v).
  Qed.
  Lemma enum_first a x h l : a < List.length h -> let h' := put a x (h ++ [enum_struct (BList (map BIf l))]) in
    cell a h' = Some x /\ erep a (List.length h') h' (BPtr (List.length h) []) (Some l) /\ only a h h'.
  Proof.
    intros Hl h'. unfold h'. split; [apply cell_put; rewrite app_length; lia|]. split.
    - econstructor; [rewrite put_length, app_length; cbn; lia|rewrite cell_other by lia; apply cell_new|reflexivity].
    - eapply only_trans; [eapply only_less; [|apply only_app]; lia|apply only_put].
  Qed.
  Lemma enum_again a b h l : a <= b < List.length h -> let h' := put b (enum_struct (BList (map BIf l))) h in
    erep a (List.length h') h' (BPtr b []) (Some l) /\ only a h h'.
  Proof.
    intros Hl h'. unfold h'. split; [|eapply only_less; [|apply only_put]; lia].
    econstructor; [rewrite put_length; lia|apply cell_put; lia|reflexivity].
  Qed.
  Ltac found := erewrite meth_at; [|eassumption|reflexivity].
  Lemma str_steps a e w x v y h : str_inv a y v h -> exists v' h', str_go x v (st e h w) = BOk [v'] (st e h' w) /\ str_inv a (str_step y x) v' h' /\ only a h h'.
  Proof.
    intros (-> & en & Hc & He). destruct y as [d c]. cbn [fst snd] in *. pose proof (cell_lt _ _ _ Hc) as Hl.
    assert (Hn : forall z, cell a h <> Some (enum_struct z)) by (intros z; rewrite Hc; discriminate).
    assert (Hs : cell a h <> None) by (rewrite Hc; discriminate).
    destruct x; cbn [str_go str_step fst snd]; unfold str_struct in Hc; found; fold (str_struct d c en) in Hc.
    - erewrite src_str_default by exact Hc. do 2 eexists. split; [reflexivity|]. split; [|apply only_put]. split; [reflexivity|]. exists en. split; [now apply cell_put|now apply erep_put].
    - erewrite src_str_maxLength by exact Hc. do 2 eexists. split; [reflexivity|]. split; [|apply only_put]. split; [reflexivity|]. exists en. split; [now apply cell_put|now apply erep_put].
    - erewrite src_str_minLength by exact Hc. do 2 eexists. split; [reflexivity|]. split; [|apply only_put]. split; [reflexivity|]. exists en. split; [now apply cell_put|now apply erep_put].
    - erewrite src_str_regexp by exact Hc. do 2 eexists. split; [reflexivity|]. split; [|apply only_put]. split; [reflexivity|]. exists en. split; [now apply cell_put|now apply erep_put].
    - erewrite src_str_format by exact Hc. do 2 eexists. split; [reflexivity|]. split; [|apply only_put]. split; [reflexivity|]. exists en. split; [now apply cell_put|now apply erep_put].
    - unfold spread. destruct He as [|b v l' Hb H2 H3].
      + erewrite src_str_enum by exact Hc. do 2 eexists. split; [reflexivity|]. destruct (enum_first a (str_struct d c (BPtr (List.length h) [])) h l Hl) as (A1 & A2 & A3).
        split; [|exact A3]. split; [reflexivity|]. eexists. split; [exact A1|exact A2].
      + pose proof (str_cell_enum _ _ _ _ _ _ _ Hc H2) as Hab. erewrite src_str_enum_again by eassumption. do 2 eexists. split; [reflexivity|].
        destruct (enum_again a b h l Hb) as (A1 & A2). split; [|exact A2]. split; [reflexivity|]. eexists. split; [rewrite cell_other by exact Hab; exact Hc|exact A1].
  Qed.

  (** numbers *)
  Definition num_inv (a : nat) (y : option gval * numcfg) (v : bv) (h : list bv) : Prop :=
    v = BPtr a [] /\ exists e, cell a h = Some (num_struct (fst y) (snd y) e) /\ erep a (List.length h) h e (n_enum (snd y)).
  Lemma num_steps a e w x v y h : num_inv a y v h -> exists v' h', num_go x v (st e h w) = BOk [v'] (st e h' w) /\ num_inv a (num_step y x) v' h' /\ only a h h'.
  Proof.
    intros (-> & en & Hc & He). destruct y as [d c]. cbn [fst snd] in *. pose proof (cell_lt _ _ _ Hc) as Hl.
    assert (Hn : forall z, cell a h <> Some (enum_struct z)) by (intros z; rewrite Hc; discriminate).
    assert (Hs : cell a h <> None) by (rewrite Hc; discriminate).
    destruct x; cbn [num_go num_step fst snd]; unfold num_struct in Hc; found; fold (num_struct d c en) in Hc;
      try (first [erewrite src_num_default by exact Hc|erewrite src_num_maximum by exact Hc|erewrite src_num_minimum by exact Hc|erewrite src_num_multipleOf by exact Hc
        |erewrite src_num_exclMin by exact Hc|erewrite src_num_exclMax by exact Hc];
        do 2 eexists; split; [reflexivity|]; split; [|apply only_put]; split; [reflexivity|]; exists en; split; [now apply cell_put|now apply erep_put]).
    unfold spread. destruct He as [|b v l' Hb H2 H3].
    - erewrite src_num_enum by exact Hc. do 2 eexists. split; [reflexivity|]. destruct (enum_first a (num_struct d c (BPtr (List.length h) [])) h l Hl) as (A1 & A2 & A3).
      split; [|exact A3]. split; [reflexivity|]. eexists. split; [exact A1|exact A2].
    - assert (Hab : a <> b) by (intros ->; rewrite Hc in H2; discriminate H2). erewrite src_num_enum_again by eassumption. do 2 eexists. split; [reflexivity|].
      destruct (enum_again a b h l Hb) as (A1 & A2). split; [|exact A2]. split; [reflexivity|]. eexists. split; [rewrite cell_other by exact Hab; exact Hc|exact A1].
  Qed.
  (** integers: MultipleOf and Enum are promoted and return the embedded constraint *)
  Definition int_inv (a : nat) (y : (option gval * numcfg) * bool) (v : bv) (h : list bv) : Prop :=
    v = BPtr a (if snd y then [] else ["NumberConstraint"]) /\ exists e, cell a h = Some (int_struct (fst (fst y)) (snd (fst y)) e) /\ erep a (List.length h) h e (n_enum (snd (fst y))).
  Definition int_step (y : (option gval * numcfg) * bool) (x : num_call) : (option gval * numcfg) * bool :=
    (num_step (fst y) x, snd y && match x with NMultipleOf _ | NEnum _ => false | _ => true end).
  Lemma int_fold l y b : fold_left int_step l (y, b) = (fold_left num_step l y, b && int_chain_is_int l).
  Proof.
    revert y b. induction l as [|x l IH]; intros y b; cbn [fold_left int_chain_is_int forallb]; [now rewrite andb_true_r|].
    unfold int_step at 2. cbn [fst snd]. rewrite IH. rewrite andb_assoc. reflexivity.
  Qed.
  Lemma meth_in a fs gs m f args s : cell a (heap s) = Some (BStruct "IntegerConstraint" (("NumberConstraint", BStruct "NumberConstraint" gs) :: fs)) ->
    method_path P 4 "NumberConstraint" m = Some ([], f) -> meth (BPtr a ["NumberConstraint"]) m args s = call f (BPtr a ["NumberConstraint"] :: args) s.
  Proof. intros H1 H2. unfold method_of, load. rewrite H1. change (pget _ _) with (Some (BStruct "NumberConstraint" gs)). cbv beta iota. rewrite H2. reflexivity. Qed.
  Lemma meth_up a fs m f args s : cell a (heap s) = Some (BStruct "IntegerConstraint" fs) ->
    method_path P 4 "IntegerConstraint" m = Some ([("NumberConstraint", false)], f) -> meth (BPtr a []) m args s = call f (BPtr a ["NumberConstraint"] :: args) s.
  Proof. intros H1 H2. unfold method_of, load. rewrite H1. cbn [pget]. rewrite H2. reflexivity. Qed.
  Section Emb.
    Variables (e : list bscope) (w : orc) (h : list bv) (a : nat) (d : option gval) (c : numcfg) (en : bv).
    Hypothesis Ha : cell a h = Some (int_struct d c en).
    Notation sets f x y := (call f [BPtr a ["NumberConstraint"]; x] (st e h w) = BOk [BPtr a ["NumberConstraint"]] (st e (put a y h) w)).
    Lemma emb_default g : sets "NumberConstraint.Default" (BIf g) (int_struct (Some g) c en). Proof. ran. Qed.
    Lemma emb_minimum f : sets "NumberConstraint.Minimum" (BFloat f) (int_struct d (num_minimum f c) en). Proof. ran. Qed.
    Lemma emb_maximum f : sets "NumberConstraint.Maximum" (BFloat f) (int_struct d (num_maximum f c) en). Proof. ran. Qed.
    Lemma emb_exclMin b : sets "NumberConstraint.ExclusiveMinimum" (BBool b) (int_struct d (num_exclMin b c) en). Proof. ran. Qed.
    Lemma emb_exclMax b : sets "NumberConstraint.ExclusiveMaximum" (BBool b) (int_struct d (num_exclMax b c) en). Proof. ran. Qed.
  End Emb.
  Ltac found_in := first [erewrite meth_at; [|eassumption|reflexivity] | erewrite meth_in; [|eassumption|reflexivity] | erewrite meth_up; [|eassumption|reflexivity]].
  Ltac int_set Hc := first [erewrite src_int_default by exact Hc|erewrite src_int_maximum by exact Hc|erewrite src_int_minimum by exact Hc|erewrite src_int_multipleOf by exact Hc
        |erewrite src_int_exclMin by exact Hc|erewrite src_int_exclMax by exact Hc|erewrite emb_default by exact Hc|erewrite emb_maximum by exact Hc|erewrite emb_minimum by exact Hc
        |erewrite emb_exclMin by exact Hc|erewrite emb_exclMax by exact Hc].
  Lemma int_steps a e w x v y h : int_inv a y v h -> exists v' h', num_go x v (st e h w) = BOk [v'] (st e h' w) /\ int_inv a (int_step y x) v' h' /\ only a h h'.
  Proof.
    intros (-> & en & Hc & He). destruct y as [[d c] b]. cbn [fst snd] in *. pose proof (cell_lt _ _ _ Hc) as Hl.
    assert (Hn : forall z, cell a h <> Some (enum_struct z)) by (intros z; rewrite Hc; discriminate).
    assert (Hs : cell a h <> None) by (rewrite Hc; discriminate).
    destruct x; cbn [num_go]; unfold int_step; cbn [num_step fst snd]; destruct b; cbn [andb]; unfold int_struct, num_struct in Hc; found_in; fold (num_struct d c en) in Hc; fold (int_struct d c en) in Hc;
      try (int_set Hc;
        do 2 eexists; split; [reflexivity|]; split; [|apply only_put]; split; [reflexivity|]; exists en; split; [now apply cell_put|now apply erep_put]).
    all: unfold spread; destruct He as [|b v l' Hb H2 H3];
      [ erewrite src_int_enum by exact Hc; do 2 eexists; (split; [reflexivity|]); destruct (enum_first a (int_struct d c (BPtr (List.length h) [])) h l Hl) as (A1 & A2 & A3);
        (split; [|exact A3]); (split; [reflexivity|]); eexists; split; [exact A1|exact A2]
      | assert (Hab : a <> b) by (intros ->; rewrite Hc in H2; discriminate H2); erewrite src_int_enum_again by eassumption; do 2 eexists; (split; [reflexivity|]);
        destruct (enum_again a b h l Hb) as (A1 & A2); (split; [|exact A2]); (split; [reflexivity|]); eexists; split; [rewrite cell_other by exact Hab; exact Hc|exact A1] ].
  Qed.

  (** arrays *)
  Definition arr_inv (a : nat) (x : arrcfg) (v : bv) (h : list bv) : Prop :=
    v = BPtr a [] /\ exists vi vp va l, cell a h = Some (arr_struct x vi vp va) /\ rep V (S a) (List.length h) h vi (a_items x) /\
      slice_items vp = Some l /\ reps V (S a) (List.length h) h l (a_pos x) /\ rep V (S a) (List.length h) h va (a_add x).
  Lemma arr_keep a x v h h' : arr_inv a x v h -> only (List.length h) h h' -> arr_inv a x v h'.
  Proof.
    intros (-> & vi & vp & va & l & H1 & H2 & H3 & H4 & H5) [O1 O2]. pose proof (cell_lt _ _ _ H1) as Hl. split; [reflexivity|]. exists vi, vp, va, l.
    split; [rewrite O2 by exact Hl; exact H1|]. split; [eapply rep_keep; [exact H2|lia|lia|intros; apply O2; lia]|]. split; [exact H3|].
    split; [eapply reps_keep; [exact H4|lia|lia|intros; apply O2; lia]|]. eapply rep_keep; [exact H5|lia|lia|intros; apply O2; lia].
  Qed.
  Definition gives_all (l : list fl) : Prop := forall e h w, exists vs h', each (ev) l (st e h w) = BOk vs (st e h' w) /\
    only (List.length h) h h' /\ reps V (List.length h) (List.length h') h' vs (map den l).
  Lemma each_gives l : (forall f, In f l -> gives f) -> gives_all l.
  Proof.
    induction l as [|f l IH]; intros H e h w; cbn [each map].
    - exists [], h. split; [reflexivity|]. split; [apply only_refl|constructor].
    - destruct (H f (or_introl eq_refl) e h w) as (v & h1 & -> & O1 & R1). cbn [one].
      destruct (IH (fun g Hg => H g (or_intror Hg)) e h1 w) as (vs & h2 & -> & O2 & R2). cbn [bthen].
      pose proof O1 as [L1 _]. pose proof O2 as [L2 K2]. exists (v :: vs), h2. split; [reflexivity|]. split; [eapply only_trans; [exact O1|eapply only_less; [|exact O2]; lia]|].
      constructor; [eapply rep_keep; [exact R1|lia|lia|intros; apply K2; lia]|eapply reps_keep; [exact R2|lia|lia|reflexivity]].
  Qed.
  Definition akids (c : acall) : list fl := match c with AcItems f | AcAdd f => [f] | AcPos l => l | _ => [] end.
  Definition okids (c : ocall) : list fl := match c with OcAdd f | OcProp _ f | OcPat _ f | OcSchemaDep _ f => [f] | _ => [] end.
  Ltac rkeep O := first [eapply rep_keep | eapply reps_keep]; [eassumption|lia|rewrite put_length; lia|intros; apply cell_other; lia].
  Lemma arr_steps a e w x v y h : (forall f, In f (akids x) -> gives f) -> arr_inv a y v h ->
    exists v' h', arr_go x v (st e h w) = BOk [v'] (st e h' w) /\ arr_inv a (arr_step y (den_a x)) v' h' /\ only a h h'.
  Proof.
    intros Hk HI.
    assert (Hfin : forall z h1 vi vp va l, a < List.length h1 -> rep V (S a) (List.length h1) h1 vi (a_items z) -> slice_items vp = Some l ->
      reps V (S a) (List.length h1) h1 l (a_pos z) -> rep V (S a) (List.length h1) h1 va (a_add z) ->
      arr_inv a z (BPtr a []) (put a (arr_struct z vi vp va) h1) /\ only a h1 (put a (arr_struct z vi vp va) h1)).
    { intros z h1 vi vp va l Hl A1 A2 A3 A4. split; [|apply only_put]. split; [reflexivity|]. exists vi, vp, va, l. split; [now apply cell_put|].
      split; [rkeep O|]. split; [exact A2|]. split; rkeep O. }
    destruct x as [f|fs|f|n|n|b]; cbn [arr_go den_a arr_step].
    - destruct (Hk f (or_introl eq_refl) e h w) as (u & h1 & -> & O1 & R1). cbn [one]. pose proof (arr_keep _ _ _ _ _ HI O1) as (-> & vi & vp & va & l & H1 & H2 & H3 & H4 & H5).
      pose proof (cell_lt _ _ _ H1) as Hl. pose proof HI as (_ & ? & ? & ? & ? & Hc & _). apply cell_lt in Hc. pose proof O1 as [L1 _].
      unfold arr_struct in H1. found. fold (arr_struct y vi vp va) in H1. erewrite src_arr_items by exact H1. do 2 eexists. split; [reflexivity|].
      destruct (Hfin (arr_items (den f) y) h1 u vp va l Hl) as [A1 A2]; try assumption; [eapply rep_keep; [exact R1|lia|lia|reflexivity]|]. split; [exact A1|]. eapply only_trans; [eapply only_less; [|exact O1]; lia|exact A2].
    - destruct (each_gives fs Hk e h w) as (us & h1 & E1 & O1 & R1). rewrite E1. cbn [bthen]. pose proof (arr_keep _ _ _ _ _ HI O1) as (-> & vi & vp & va & l & H1 & H2 & H3 & H4 & H5).
      pose proof (cell_lt _ _ _ H1) as Hl. pose proof HI as (_ & ? & ? & ? & ? & Hc & _). apply cell_lt in Hc. pose proof O1 as [L1 _].
      unfold arr_struct in H1. found. fold (arr_struct y vi vp va) in H1. erewrite src_arr_positional by exact H1. do 2 eexists. split; [reflexivity|].
      destruct (Hfin (arr_positional (map den fs) y) h1 vi (BList us) va us Hl) as [A1 A2]; try assumption; [reflexivity|eapply reps_keep; [exact R1|lia|lia|reflexivity]|]. split; [exact A1|]. eapply only_trans; [eapply only_less; [|exact O1]; lia|exact A2].
    - destruct (Hk f (or_introl eq_refl) e h w) as (u & h1 & -> & O1 & R1). cbn [one]. pose proof (arr_keep _ _ _ _ _ HI O1) as (-> & vi & vp & va & l & H1 & H2 & H3 & H4 & H5).
      pose proof (cell_lt _ _ _ H1) as Hl. pose proof HI as (_ & ? & ? & ? & ? & Hc & _). apply cell_lt in Hc. pose proof O1 as [L1 _].
      unfold arr_struct in H1. found. fold (arr_struct y vi vp va) in H1. erewrite src_arr_additional by exact H1. do 2 eexists. split; [reflexivity|].
      destruct (Hfin (arr_additional (den f) y) h1 vi vp u l Hl) as [A1 A2]; try assumption; [eapply rep_keep; [exact R1|lia|lia|reflexivity]|]. split; [exact A1|]. eapply only_trans; [eapply only_less; [|exact O1]; lia|exact A2].
    - destruct HI as (-> & vi & vp & va & l & H1 & H2 & H3 & H4 & H5). pose proof (cell_lt _ _ _ H1) as Hl. unfold arr_struct in H1. found. fold (arr_struct y vi vp va) in H1.
      erewrite src_arr_min by exact H1. do 2 eexists. split; [reflexivity|]. now apply (Hfin (arr_min n y) h vi vp va l).
    - destruct HI as (-> & vi & vp & va & l & H1 & H2 & H3 & H4 & H5). pose proof (cell_lt _ _ _ H1) as Hl. unfold arr_struct in H1. found. fold (arr_struct y vi vp va) in H1.
      erewrite src_arr_max by exact H1. do 2 eexists. split; [reflexivity|]. now apply (Hfin (arr_max n y) h vi vp va l).
    - destruct HI as (-> & vi & vp & va & l & H1 & H2 & H3 & H4 & H5). pose proof (cell_lt _ _ _ H1) as Hl. unfold arr_struct in H1. found. fold (arr_struct y vi vp va) in H1.
      erewrite src_arr_unique by exact H1. do 2 eexists. split; [reflexivity|]. now apply (Hfin (arr_unique b y) h vi vp va l).
  Qed.

  (** objects *)
  Definition obj_inv (lo : nat) (o : objcfg) (v : bv) (h : list bv) : Prop := v = BPtr (lo + 5) [] /\ obj_at V lo o h.
  Lemma obj_lt lo o v h : obj_inv lo o v h -> lo + 5 < List.length h /\ exists fs, cell (lo + 5) h = Some (BStruct "ObjectConstraint" fs).
  Proof. intros (_ & va & l1 & l2 & l3 & l5 & H0 & _). split; [exact (cell_lt _ _ _ H0)|]. unfold obj_struct in H0. eauto. Qed.
  Lemma obj_inv_keep lo o v h h' : obj_inv lo o v h -> only (List.length h) h h' -> obj_inv lo o v h'.
  Proof. intros (-> & H) [O1 O2]. split; [reflexivity|]. eapply obj_keep; [exact H|exact O1|]. intros x Hx. apply O2. lia. Qed.
  Lemma obj_called lo f o' args e w h h0 m fs : cell (lo + 5) h = Some (BStruct "ObjectConstraint" fs) -> method_path P 4 "ObjectConstraint" m = Some ([], f) ->
    only lo h0 h -> SrcBuildO.obj_step D tn V e w k f lo args h o' ->
    exists v' h', meth (BPtr (lo + 5) []) m args (st e h w) = BOk [v'] (st e h' w) /\ obj_inv lo o' v' h' /\ only lo h0 h'.
  Proof.
    intros Hc Hm O (h' & H1 & H2 & H3 & H4). erewrite meth_at by eassumption. exists (BPtr (lo + 5) []), h'.
    split; [exact H1|]. split; [now split|]. eapply only_trans; [exact O|]. split; [lia|exact H4].
  Qed.
  Lemma obj_steps lo e w x v y h : (forall f, In f (okids x) -> gives f) -> obj_inv lo y v h ->
    exists v' h', obj_go x v (st e h w) = BOk [v'] (st e h' w) /\ obj_inv lo (Fluent.obj_step y (den_o x)) v' h' /\ only lo h h'.
  Proof.
    intros Hk HI. pose proof HI as [Hv _]. destruct (obj_lt _ _ _ _ HI) as [Hl (fs & Hc)].
    assert (Hkid : forall f, gives f -> exists u h1, ev f (st e h w) = BOk [u] (st e h1 w) /\ only lo h h1 /\ obj_at V lo y h1 /\
      (exists fs, cell (lo + 5) h1 = Some (BStruct "ObjectConstraint" fs)) /\ rep V (lo + 6) (List.length h1) h1 u (den f)).
    { intros f Hf. destruct (Hf e h w) as (u & h1 & E1 & O1 & R1). pose proof (obj_inv_keep _ _ _ _ _ HI O1) as HI1.
      destruct (obj_lt _ _ _ _ HI1) as [_ Hc1]. exists u, h1. split; [exact E1|]. split; [eapply only_less; [|exact O1]; lia|].
      split; [apply HI1|]. split; [exact Hc1|]. eapply rep_keep; [exact R1|lia|lia|reflexivity]. }
    destruct HI as [_ HI]. subst v.
    destruct x as [l|n|n|f|p f|p f|p l|p f]; cbn [obj_go den_o Fluent.obj_step okids] in *; unfold spread;
      try (destruct (Hkid f (Hk f (or_introl eq_refl))) as (u & h1 & -> & O1 & A1 & (fs1 & Hc1) & R1); cbn [one]; clear Hc).
    - eapply obj_called; [exact Hc|reflexivity|apply only_refl|]. exact (step_required D tn V e w k l lo y h HI).
    - eapply obj_called; [exact Hc|reflexivity|apply only_refl|]. exact (step_min D tn V e w k n lo y h HI).
    - eapply obj_called; [exact Hc|reflexivity|apply only_refl|]. exact (step_max D tn V e w k n lo y h HI).
    - eapply obj_called; [exact Hc1|reflexivity|exact O1|]. exact (step_additional D tn V e w k u (den f) lo y h1 A1 R1).
    - eapply obj_called; [exact Hc1|reflexivity|exact O1|]. exact (step_addProp D tn V e w k p u (den f) lo y h1 A1 R1).
    - eapply obj_called; [exact Hc1|reflexivity|exact O1|]. exact (step_pattern D tn V e w k p u (den f) lo y h1 A1 R1).
    - eapply obj_called; [exact Hc|reflexivity|apply only_refl|]. exact (step_propDep D tn V e w k p l lo y h HI).
    - eapply obj_called; [exact Hc1|reflexivity|exact O1|]. exact (step_schemaDep D tn V e w k p u (den f) lo y h1 A1 R1).
  Qed.

  (** combinations *)
  Definition wname (T : which) : string := match T with WAny => "AnyConstraint" | WAll => "AllConstraint" | WOneOf => "OneOfConstraint" end.
  Definition wmk (T : which) : list constr -> constr := match T with WAny => CAny | WAll => CAll | WOneOf => COneOf end.
  Lemma wcombo T : combo (wname T). Proof. destruct T; unfold combo; cbn; tauto. Qed.
  Definition combo_inv (T : which) (a : nat) (cs : list constr) (v : bv) (h : list bv) : Prop :=
    v = BPtr a [] /\ exists u l, cell a h = Some (combo_struct (wname T) u) /\ slice_items u = Some l /\ reps V (S a) (List.length h) h l cs.
  Lemma combo_steps T a e w f v cs h : gives f -> combo_inv T a cs v h ->
    exists v' h', one (ev f (st e h w)) (fun x => meth v "Add" [x]) = BOk [v'] (st e h' w) /\ combo_inv T a (cs ++ [den f]) v' h' /\ only a h h'.
  Proof.
    intros Hf (-> & u & l & H1 & H2 & H3). pose proof (cell_lt _ _ _ H1) as Hl.
    destruct (Hf e h w) as (x & h1 & -> & O1 & R1). cbn [one]. pose proof O1 as [L1 K1].
    assert (H1' : cell a h1 = Some (combo_struct (wname T) u)) by (rewrite K1 by exact Hl; exact H1).
    assert (Hgo : meth (BPtr a []) "Add" [x] (st e h1 w) = BOk [BPtr a []] (st e (put a (combo_struct (wname T) (BList (l ++ [x]))) h1) w)).
    { erewrite meth_at with (f := (wname T +++ ".Add")); [|exact H1'|destruct T; reflexivity].
      assert (Hc : u = BNil /\ l = [] \/ u = BList l) by (destruct u; try discriminate H2; injection H2 as <-; auto).
      destruct Hc as [[-> ->]| ->]; [apply src_add_first; [apply wcombo|exact H1']|apply src_add; [apply wcombo|exact H1']]. }
    do 2 eexists. split; [exact Hgo|]. split; [|eapply only_trans; [eapply only_less; [|exact O1]; lia|apply only_put]].
    split; [reflexivity|]. exists (BList (l ++ [x])), (l ++ [x]). split; [apply cell_put; lia|]. split; [reflexivity|]. apply reps_app.
    - eapply reps_keep; [exact H3|lia|rewrite put_length; lia|]. intros y Hy. rewrite cell_other by lia. apply K1. lia.
    - constructor; [|constructor]. eapply rep_keep; [exact R1|lia|rewrite put_length; lia|]. intros y Hy. apply cell_other. lia.
  Qed.
  Lemma combo_rep T a cs v h : combo_inv T a cs v h -> rep V a (List.length h) h v (wmk T cs).
  Proof.
    intros (-> & u & l & H1 & H2 & H3). pose proof (cell_lt _ _ _ H1) as Hl. assert (H4 : reps V a (List.length h) h l cs) by (eapply reps_keep; [exact H3|lia|lia|reflexivity]).
    destruct T; econstructor; try eassumption; lia.
  Qed.
  Lemma fold_snoc {A} (g : fl -> A) l acc : fold_left (fun cs f => cs ++ [g f]) l acc = acc ++ map g l.
  Proof. revert acc. induction l as [|x l IH]; intro acc; cbn [fold_left map]; [now rewrite app_nil_r|]. rewrite IH, <- app_assoc. reflexivity. Qed.

  (** ** Every expression *)
  Definition kids (f : fl) : list fl :=
    match f with FArr l => flat_map akids l | FObj l => flat_map okids l | FNot f => [f] | FCombo _ l _ => l | _ => [] end.
  Lemma fl_kids (Q : fl -> Prop) : (forall f, (forall g, In g (kids f) -> Q g) -> Q f) -> forall f, Q f.
  Proof.
    intro H. fix IH 1. intro f. apply H. destruct f as [| |l|l|l|l|l|l|l|f|T l red|n]; cbn [kids]; try solve [intros g []].
    - induction l as [|x l IHl]; intros g Hg; [destruct Hg|]. cbn [flat_map] in Hg. apply in_app_or in Hg as [Hg|Hg]; [|now apply IHl].
      destruct x as [f|fs|f|n|n|b]; cbn [akids] in Hg; try (destruct Hg as [<-|[]]; apply IH); try destruct Hg.
      induction fs as [|y fs IHf]; [destruct Hg|]. destruct Hg as [<-|Hg]; [apply IH|now apply IHf].
    - induction l as [|x l IHl]; intros g Hg; [destruct Hg|]. cbn [flat_map] in Hg. apply in_app_or in Hg as [Hg|Hg]; [|now apply IHl].
      destruct x as [xs|n|n|f|p f|p f|p xs|p f]; cbn [okids] in Hg; try (destruct Hg as [<-|[]]; apply IH); destruct Hg.
    - intros g [<-|[]]. apply IH.
    - induction l as [|x l IHl]; intros g Hg; [destruct Hg|]. destruct Hg as [<-|Hg]; [apply IH|now apply IHl].
  Qed.
  Lemma bool_chain a e w l d h : cell a h = Some (bool_struct d) ->
    exists h', chain (fun g v => meth v "Default" [BIf g]) l (BPtr a []) (st e h w) = BOk [BPtr a []] (st e h' w) /\
      cell a h' = Some (bool_struct (fold_left (fun _ g => Some g) l d)) /\ only a h h'.
  Proof.
    revert d h. induction l as [|g l IH]; intros d h H; cbn [chain fold_left]; [exists h; split; [reflexivity|split; [exact H|apply only_refl]]|].
    erewrite meth_at; [|exact H|reflexivity]. erewrite src_bool_default by exact H. cbn [one].
    destruct (IH (Some g) (put a (bool_struct (Some g)) h)) as (h' & H1 & H2 & H3); [apply cell_put; exact (cell_lt _ _ _ H)|].
    exists h'. split; [exact H1|]. split; [exact H2|]. eapply only_trans; [apply only_put|exact H3].
  Qed.
  Theorem src_fluent f : gives f.
  Proof.
    induction f as [f IH] using fl_kids. intros e h w. destruct f as [| |l|l|l|l|l|l|l|f|T l red|n]; cbn [ev den kids] in *.
    - exists empty_struct, h. split; [reflexivity|]. split; [apply only_refl|constructor].
    - exists null_struct, h. split; [reflexivity|]. split; [apply only_refl|constructor].
    - rewrite src_bool_new. cbn [one]. destruct (bool_chain (List.length h) e w l None (h ++ [bool_struct None]) (cell_new _ _)) as (h' & H1 & H2 & H3).
      exists (BPtr (List.length h) []), h'. split; [exact H1|]. split; [eapply only_trans; [apply only_app|exact H3]|]. constructor; [pose proof (cell_lt _ _ _ H2); lia|exact H2].
    - rewrite src_str_new. cbn [one].
      destruct (chain_inv str_go str_step (str_inv (List.length h)) e w (List.length h) l (fun x v y h _ => str_steps _ e w x v y h) (None, new_str) (BPtr (List.length h) []) (h ++ [str_struct None new_str BNil]))
        as (v' & h' & H1 & (-> & en & H2 & H3) & H4); [split; [reflexivity|]; exists BNil; split; [apply cell_new|constructor]|].
      do 2 eexists. split; [exact H1|]. split; [eapply only_trans; [apply only_app|exact H4]|]. econstructor; [pose proof (cell_lt _ _ _ H2); lia|exact H2|exact H3].
    - rewrite src_num_new. cbn [one].
      destruct (chain_inv num_go num_step (num_inv (List.length h)) e w (List.length h) l (fun x v y h _ => num_steps _ e w x v y h) (None, new_num) (BPtr (List.length h) []) (h ++ [num_struct None new_num BNil]))
        as (v' & h' & H1 & (-> & en & H2 & H3) & H4); [split; [reflexivity|]; exists BNil; split; [apply cell_new|constructor]|].
      do 2 eexists. split; [exact H1|]. split; [eapply only_trans; [apply only_app|exact H4]|]. eapply r_num; [pose proof (cell_lt _ _ _ H2); lia|exact H2|exact H3].
    - rewrite src_int_new. cbn [one].
      destruct (chain_inv num_go int_step (int_inv (List.length h)) e w (List.length h) l (fun x v y h _ => int_steps _ e w x v y h) ((None, new_num), true) (BPtr (List.length h) []) (h ++ [int_struct None new_num BNil]))
        as (v' & h' & H1 & (-> & en & H2 & H3) & H4); [split; [reflexivity|]; exists BNil; split; [apply cell_new|constructor]|].
      rewrite int_fold in *. cbn [fst snd andb] in *. fold (num_chain l) in *. unfold int_chain. destruct (num_chain l) as [d c].
      do 2 eexists. split; [exact H1|]. split; [eapply only_trans; [apply only_app|exact H4]|]. pose proof (cell_lt _ _ _ H2).
      destruct (int_chain_is_int l); [eapply r_int|eapply r_emb]; try eassumption; lia.
    - rewrite src_arr_new. cbn [one].
      assert (IH' : forall x, In x l -> forall g, In g (akids x) -> gives g) by (intros x Hx g Hg; apply IH; apply in_flat_map; eauto).
      destruct (chain_inv arr_go (fun y x => arr_step y (den_a x)) (arr_inv (List.length h)) e w (List.length h) l (fun x v y h Hx => arr_steps _ e w x v y h (IH' x Hx)) new_arr (BPtr (List.length h) []) (h ++ [arr_struct new_arr BNil BNil empty_struct]))
        as (v' & h' & H1 & (-> & vi & vp & va & ll & H2 & H3 & H5 & H6 & H7) & H4).
      { split; [reflexivity|]. exists BNil, BNil, empty_struct, []. split; [apply cell_new|]. split; [constructor|]. split; [reflexivity|]. split; constructor. }
      do 2 eexists. split; [exact H1|]. split; [eapply only_trans; [apply only_app|exact H4]|]. unfold arr_chain. rewrite fold_left_map.
      pose proof (cell_lt _ _ _ H2). eapply r_arr; [| exact H2| |exact H5| |]; try (eapply rep_keep; [eassumption|lia|lia|reflexivity]); try (eapply reps_keep; [eassumption|lia|lia|reflexivity]). lia.
    - destruct (src_obj_new D tn e h w k) as (h0 & m & H1 & H2 & H3 & H4 & H5 & H6). rewrite H1. cbn [one].
      assert (IH' : forall x, In x l -> forall g, In g (okids x) -> gives g) by (intros x Hx g Hg; apply IH; apply in_flat_map; eauto).
      destruct (chain_inv obj_go (fun y x => Fluent.obj_step y (den_o x)) (obj_inv (List.length h)) e w (List.length h) l (fun x v y h Hx => obj_steps _ e w x v y h (IH' x Hx)) new_obj (BPtr (List.length h + 5) []) h0)
        as (v' & h' & G1 & (-> & G2) & G3).
      { split; [reflexivity|]. exists BNil, [], [], [], []. rewrite H4, !H5 by lia. rewrite H6. repeat (split; [first [reflexivity|constructor|apply H5; lia]|]). try constructor. }
      do 2 eexists. split; [exact G1|]. split; [eapply only_trans; [|exact G3]; split; [lia|exact H3]|]. unfold obj_chain. rewrite fold_left_map. now apply obj_rep.
    - unfold spread. rewrite src_enum_new. do 2 eexists. split; [reflexivity|]. split; [apply only_app|]. econstructor; [rewrite app_length; cbn; lia|apply cell_new|reflexivity].
    - destruct (IH f (or_introl eq_refl) e h w) as (v & h1 & -> & O1 & R1). cbn [one]. rewrite src_not. do 2 eexists. split; [reflexivity|]. pose proof O1 as [L1 _].
      split; [eapply only_trans; [exact O1|eapply only_less; [|apply only_app]; lia]|]. econstructor; [|apply cell_new|]; [rewrite app_length; cbn; lia|].
      eapply rep_keep; [exact R1|lia|rewrite app_length; lia|]. intros x Hx. apply cell_old. lia.
    - assert (Hnew : call (match T with WAny => "Any" | WAll => "All" | WOneOf => "OneOf" end) [] (st e h w) = BOk [BPtr (List.length h) []] (st e (h ++ [combo_struct (wname T) BNil]) w))
        by (destruct T; [apply src_any|apply src_all|apply src_oneOf]).
      rewrite Hnew. cbn [one].
      destruct (chain_inv (fun f v s => one (ev f s) (fun x => meth v "Add" [x])) (fun cs f => cs ++ [den f]) (combo_inv T (List.length h)) e w (List.length h) l
        (fun x v y h Hx => combo_steps T _ e w x v y h (IH x Hx)) [] (BPtr (List.length h) []) (h ++ [combo_struct (wname T) BNil])) as (v' & h' & H1 & H2 & H4).
      { split; [reflexivity|]. exists BNil, []. split; [apply cell_new|]. split; [reflexivity|constructor]. }
      rewrite H1. cbn [one]. rewrite fold_snoc in H2. cbn [app] in H2.
      assert (O : only (List.length h) h h') by (eapply only_trans; [apply only_app|exact H4]).
      fold (wmk T). pose proof (combo_rep _ _ _ _ _ H2) as R. destruct H2 as (-> & u & ll & H5 & H6 & H7).
      destruct red; [|do 2 eexists; split; [reflexivity|]; split; [exact O|exact R]].
      erewrite meth_at with (f := (wname T +++ ".Reduce")); [|exact H5|destruct T; reflexivity].
      rewrite (src_reduce D tn e h' w k (wname T) (List.length h) u ll (wcombo T) H6 H5). do 2 eexists. split; [reflexivity|]. split; [exact O|].
      destruct H7 as [|v1 c1 vs1 cs1 Q1 Q2]; [exact R|]. destruct Q2; [|exact R]. eapply rep_keep; [exact Q1|lia|lia|reflexivity].
    - rewrite src_ref_new. cbn [one]. erewrite meth_at; [|apply cell_new|reflexivity]. erewrite src_refersTo by apply cell_new.
      do 2 eexists. split; [reflexivity|]. split; [eapply only_trans; [apply only_app|apply only_put]|].
      econstructor; [rewrite put_length, app_length; cbn; lia|]. apply cell_put. rewrite app_length. cbn. lia.
  Qed.
End Ev.
