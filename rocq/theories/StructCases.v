(** Structs: examples for C34, C35, C38 and C51, and what fails without their guards. *)
From Verif Require Import Base GoFloat GoValue Maybe Formats Constraint StructInfo Validate Fuel Reach ReadOnly
  Refuted MaybeProofs Simulate StructProofs DefaultProofs.
Open Scope Z_scope.

Definition field (name tag : string) : finfo :=
  {| f_name := name; f_exported := true; f_anon := false; f_tag := tag; f_iface := false |}.
Definition hidden (name : string) : finfo :=
  {| f_name := name; f_exported := false; f_anon := false; f_tag := ""; f_iface := false |}.

(** type Person struct { Name MaybeString `json:"name,omitempty"`; Age int; note string; Skip bool `json:"-"` } *)
Definition person (name : maybe) (age : Z) : list (finfo * gval) :=
  [(field "Name" "name,omitempty", GMaybe name);
   (field "Age" "", GInt "int" Kint age);
   (hidden "note", gstr "x");
   (field "Skip" "-", GBool "bool" true)].
Definition person_ptr (fs : list (finfo * gval)) : gval := GPtr "*Person" 1 (Some (false, GStruct "Person" fs)).

Lemma person_ok name age : no_embedded (person name age) /\ distinct_fields (person name age) /\
  distinct_props (person name age) /\ maybes_readable (person name age).
Proof.
  split; [|split; [|split]].
  - intros e I. repeat (destruct I as [<-|I]; [reflexivity|]). destruct I.
  - intros i j e e'. destruct i as [|[|[|[|i]]]], j as [|[|[|[|j]]]]; cbn; try reflexivity; try (now intros [= <-] [= <-]; discriminate);
      try (destruct i; discriminate); intros ?; try (destruct j; discriminate).
  - intros i j e e' k. destruct i as [|[|[|[|i]]]], j as [|[|[|[|j]]]]; cbn; try reflexivity;
      try (intros [= <-] [= <-]; cbn; congruence);
      try (destruct i; discriminate); intros ?; try (destruct j; discriminate).
  - intros e I. repeat (destruct I as [<-|I]; [cbn; discriminate|]). destruct I.
Qed.

(** C34: the names of a Person *)
Example person_names : map json_name (map fst (person (MString true "ann") 3)) = [Some "name"; Some "Age"; None; None]%string.
Proof. reflexivity. Qed.

Definition integer : constr := CInt None new_num.
Definition person_schema : objcfg :=
  {| o_req := [("Age"%string, tt)]; o_max := -1; o_min := -1;
     o_props := [("Age", integer); ("name", str)]%string;
     o_pats := []; o_propdeps := []; o_sdeps := []; o_add := CNil |}.

(** C35: the hypotheses of [struct_as_map] hold of a Person and that schema *)
Example person_as_map :
  (forall n w name age,
    same_verdict (fst (fst (validate n (env0 no_refs) (CObj person_schema) (person_ptr (person name age)) w)))
                 (fst (fst (validate n (env0 no_refs) (CObj person_schema) (map_value (person name age)) w)))) /\
  map_value (person (MString false "") 3) = jobj [("Age", GInt "int" Kint 3)]%string /\
  map_value (person (MString true "ann") 3) = jobj [("Age", GInt "int" Kint 3); ("name", gstr "ann")]%string.
Proof.
  split; [|split; reflexivity]. intros n w name age.
  destruct (person_ok name age) as (A & B & C & D).
  apply (struct_as_map _ _ _ "Person"); auto.
  - right. now exists "*Person"%string, 1.
  - intros d (o & k & p & R & I & Df). inversion R as [|? x ? Hx Rx]; subst.
    + destruct I as [[= <- <-]|[[= <- <-]|[]]]; inversion Df.
    + destruct Hx as [<-|[<-|[<-|[]]]]; inversion Rx as [|? ? ? X]; subst; destruct X.
  - intros l H. inversion H as [|? x ? Hx Rx]; subst. destruct Hx.
  - intros o k fi x H I J M. inversion H as [|? y ? Hx Rx]; subst; [|destruct Hx].
    repeat (destruct I as [[= <- <-]|I]; [cbn in J, M; try discriminate; injection J as <-; cbn; auto|]). destruct I.
Qed.

(** Without [maybes_declared]: pattern and additional properties see the Maybe itself. *)
Definition struct_as_map_full : Prop := forall E c T fs v w o,
  no_embedded fs -> distinct_fields fs -> distinct_props fs -> maybes_readable fs ->
  struct_or_pointer T fs v -> pure E c -> (forall l, ~ Applied E c (CEnum l)) ->
  Runs E c (map_value fs) w o -> exists o', Runs E c v w o' /\ same_verdict (fst (fst o')) (fst (fst o)).

Definition additional_str : constr :=
  CObj {| o_req := []; o_max := -1; o_min := -1; o_props := []; o_pats := []; o_propdeps := []; o_sdeps := []; o_add := str |}.
Definition only_name : list (finfo * gval) := [(field "Name" "name", GMaybe (MString true "ann"))].

Theorem struct_as_map_refuted : ~ struct_as_map_full.
Proof.
  intros H.
  assert (R : Runs (env0 no_refs) additional_str (map_value only_name) [] (Pass, map_value only_name, [])) by run 5%nat.
  destruct (H (env0 no_refs) additional_str "Person"%string only_name (GStruct "Person" only_name) [] _
    ltac:(intros e [<-|[]]; reflexivity)
    ltac:(intros [|[|i]] [|[|j]] e e'; cbn; try reflexivity; discriminate)
    ltac:(intros [|[|i]] [|[|j]] e e' k; cbn; try reflexivity; discriminate)
    ltac:(intros e [<-|[]]; discriminate)
    ltac:(now left)
    ltac:(intros d (o & k & p & Re & I & Df); inversion Re as [|? x ? Hx Rx]; subst;
          [destruct I|destruct Hx as [<-|[]]; inversion Rx as [|? ? ? X]; subst; destruct X])
    ltac:(intros l Ha; inversion Ha as [|? x ? Hx Rx]; subst; destruct Hx)
    R) as (o' & R' & V).
  assert (R2 : Runs (env0 no_refs) additional_str (GStruct "Person" only_name) []
    (Fail "object property for 'name' validation failed: value is not a string (Kind: struct)", GStruct "Person" only_name, [])) by run 5%nat.
  pose proof (Runs_det _ _ _ _ _ _ R' R2) as ->. exact V.
Qed.

(** ** C38 *)
Definition person_defaults : objcfg :=
  {| o_req := []; o_max := -1; o_min := -1;
     o_props := [("Age", integer); ("name", str_def (gstr "bob"))]%string;
     o_pats := []; o_propdeps := []; o_sdeps := []; o_add := CNil |}.

Example default_into_person :
  Runs (env0 no_refs) (CObj person_defaults) (person_ptr (person (MString false "") 3)) []
    (Pass, person_ptr (person (MString true "bob") 3), []) /\
  Runs (env0 no_refs) (CObj person_defaults) (GStruct "Person" (person (MString false "") 3)) []
    (Panic "reflect: Set using unaddressable value", GStruct "Person" (person (MString false "") 3), []) /\
  Default (env0 no_refs) (str_def (gstr "bob")) (gstr "bob") /\ in_kind (gstr "bob").
Proof. split; [run 5%nat|]. split; [run 5%nat|]. split; [constructor|exact I]. Qed.

(** ** C51 *)
(** With defaults a pointer to a struct and the struct itself differ, and pointers to
    interface variables are followed for the names but not for the properties. *)
Definition pointers_transparent_full : Prop := forall E c PT a i x w o,
  (exists T fs, x = GStruct T fs) \/ (exists T m, x = GMap T GoValue.KString true "interface {}" (Some m)) ->
  (forall l, ~ Applied E c (CEnum l)) ->
  Runs E c x w o -> exists o', Runs E c (GPtr PT a (Some (i, x))) w o' /\ same_verdict (fst (fst o')) (fst (fst o)).

Theorem pointers_transparent_refuted : ~ pointers_transparent_full.
Proof.
  intros H.
  set (x := jobj [("Age", GInt "int" Kint 3)]%string).
  assert (R : Runs (env0 no_refs) (CObj person_schema) x [] (Pass, x, [])) by run 5%nat.
  destruct (H (env0 no_refs) (CObj person_schema) "*interface {}"%string 1 true x [] _
    ltac:(right; eexists _, _; reflexivity)
    ltac:(intros l Ha; inversion Ha as [|? y ? Hx Rx]; subst; destruct Hx) R) as (o' & R' & V).
  assert (R2 : Runs (env0 no_refs) (CObj person_schema) (GPtr "*interface {}" 1 (Some (true, x))) []
    (Fail "object property 'Age' is required", GPtr "*interface {}" 1 (Some (true, x)), [])) by run 5%nat.
  pose proof (Runs_det _ _ _ _ _ _ R' R2) as ->. exact V.
Qed.

Definition struct_pointer_full : Prop := forall E c PT a T fs w o,
  (forall l, ~ Applied E c (CEnum l)) -> Runs E c (GStruct T fs) w o ->
  exists o', Runs E c (GPtr PT a (Some (false, GStruct T fs))) w o' /\ same_verdict (fst (fst o')) (fst (fst o)).

Theorem struct_pointer_refuted : ~ struct_pointer_full.
Proof.
  intros H. destruct default_into_person as (R1 & R2 & _).
  destruct (H (env0 no_refs) (CObj person_defaults) "*Person"%string 1 "Person"%string (person (MString false "") 3) [] _ ltac:(intros l Ha; inversion Ha as [|? y ? Hx Rx]; subst; destruct Hx) R2)
    as (o' & R' & V).
  pose proof (Runs_det _ _ _ _ _ _ R' R1) as ->. exact V.
Qed.
