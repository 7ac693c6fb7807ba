(** Objects with property methods: what fails without the guards, and concrete cases for
    the theorems of CustomProofs.v (C73, C74). *)
From Verif Require Import Base GoFloat GoValue Maybe Formats Constraint StructInfo Validate Fuel Reach Spec Refuted Simulate NoPanic StructCases Custom CustomProofs.
Open Scope Z_scope.
Open Scope string_scope.
Open Scope list_scope.

(** ** C73: an object stands for the map its methods describe *)
Definition described_full : Prop := forall (S : Type) (C : custom S) D E n c s m w,
  faithful C (fun _ => True) D -> D s m ->
  same_verdict (fst (fst (cvalidate C n E c s w))) (fst (fst (validate n E c (gmap m) w))).

(** type Obj struct { m map[string]interface{} } with
    GetPropNames (the keys, last first), GetPropValue (the element, nil when missing) and SetPropValue *)
Definition store : custom (list (string * gval)) :=
  {| c_self := fun _ => GStruct "main.Obj" [(hidden "m", GNil)];
     c_names := fun s => Some (rev (keys s));
     c_get := fun s k => Some (match sget k s with Some x => x | None => GNil end);
     c_set := Some (fun s k d => inl (sset k d s));
     c_put := fun s k y => supd k y s;
     c_with := fun s _ => s |}.
Definition holds (V : gval -> Prop) (s m : list (string * gval)) : Prop :=
  s = m /\ ssorted m /\ forall k x, sget k m = Some x -> V x.
Lemma store_faithful V : faithful store V (holds V).
Proof.
  constructor.
  - now intros s m (_ & H & _).
  - intros s m k x (_ & _ & H). apply H.
  - intros s m _. now eexists _, _.
  - intros s m (-> & _). eexists. split; [reflexivity|]. symmetry. apply Permutation_rev.
  - intros s m k x (-> & _) G. cbn. now rewrite G.
  - intros s m k (-> & _) G. left. cbn. now rewrite G.
  - eexists. split; [reflexivity|]. intros s m k d (-> & HS & HV) G Vd. eexists. split; [reflexivity|].
    split; [reflexivity|]. split; [now apply sset_sorted|]. intros j x. destruct (String.eqb_spec j k) as [->|N].
    + rewrite sget_sset_same. now intros [= <-].
    + rewrite sget_sset_other by auto. apply HV.
  - intros s m k x y (-> & HS & HV) G Vy. split; [reflexivity|]. split; [unfold ssorted; now rewrite supd_keys|].
    intros j z. destruct (String.eqb_spec j k) as [->|N].
    + rewrite sget_supd_same; [now intros [= <-]|]. apply sget_some_keys. eauto.
    + rewrite sget_supd_other by auto. apply HV.
Qed.

Definition objectc (props : list (string * constr)) (add : constr) : constr :=
  CObj {| o_add := add; o_pats := []; o_props := props; o_propdeps := []; o_req := []; o_min := -1; o_max := -1; o_sdeps := [] |}.

(** null is a value of a map, but means "no such property" from GetPropValue: the name is
    still on the list, and taking the missing value's interface panics *)
Lemma null_holds : holds (fun _ => True) [("a", GNil)] [("a", GNil)].
Proof. split; auto. split; auto. repeat constructor. Qed.
Example null_member :
  fst (fst (validate 3 (env0 no_refs) (objectc [] CEmpty) (gmap [("a", GNil)]) [])) = Pass /\
  fst (fst (cvalidate store 3 (env0 no_refs) (objectc [] CEmpty) [("a", GNil)] [])) = Panic "reflect: Interface of zero Value".
Proof. vm_compute. auto. Qed.
Theorem described_refuted : ~ described_full.
Proof.
  intros F. specialize (F _ store _ (env0 no_refs) 3%nat (objectc [] CEmpty) _ _ [] (store_faithful _) null_holds).
  destruct null_member as [H1 H2]. rewrite H1, H2 in F. exact F.
Qed.
(** without panic: a property that may be null is reported as not allowed *)
Example null_property :
  fst (fst (validate 3 (env0 no_refs) (objectc [("a", CNull)] CNil) (gmap [("a", GNil)]) [])) = Pass /\
  fst (fst (cvalidate store 3 (env0 no_refs) (objectc [("a", CNull)] CNil) [("a", GNil)] [])) = Fail "additional properties are not allowed".
Proof. vm_compute. auto. Qed.
(** a nil default: a map is left alone, SetPropValue cannot be called *)
Example null_default :
  fst (fst (validate 3 (env0 no_refs) (objectc [("a", str_def GNil)] CNil) (gmap []) [])) = Pass /\
  fst (fst (cvalidate store 3 (env0 no_refs) (objectc [("a", str_def GNil)] CNil) [] [])) = Panic "reflect: Call using zero Value argument".
Proof. vm_compute. auto. Qed.
(** a Maybe in a map is not opened, one handed out by GetPropValue is *)
Example maybe_member :
  fst (fst (validate 3 (env0 no_refs) (objectc [("a", str)] CNil) (gmap [("a", GMaybe (MString true "x"))]) [])) =
    Fail "object property 'a' validation failed: value is not a string (Kind: struct)" /\
  fst (fst (cvalidate store 3 (env0 no_refs) (objectc [("a", str)] CNil) [("a", GMaybe (MString true "x"))] [])) = Pass.
Proof. vm_compute. auto. Qed.
(** an enumeration of maps: comparing two maps panics, comparing a map with a struct does not *)
Example map_enum :
  fst (fst (validate 3 (env0 no_refs) (CEnum [gmap []]) (gmap []) [])) = Panic "comparing uncomparable type" /\
  fst (fst (cvalidate store 3 (env0 no_refs) (CEnum [gmap []]) [] [])) = Fail "value is not in enumeration".
Proof. vm_compute. auto. Qed.

(** the guards of [custom_verdict] hold of this schema and document, whatever the order of
    iteration; both sides fill in the default *)
Definition crate : constr :=
  CAll [objectc [("id", CRef "id"); ("kind", str_def (gstr "box")); ("tags", CArr (arr_items str new_arr))] CEmpty;
        CNot (CEnum [gstr "box"; num 1])].
Definition crate_refs : string -> option constr := one_ref "id" (CInt (Some (num 7)) new_num).
Definition crate_doc : list (string * gval) := [("extra", num 2); ("tags", gslice [gstr "x"])].
Lemma crate_holds : holds present crate_doc crate_doc.
Proof.
  split; auto. split; [repeat constructor|]. intros k x H. apply sget_in in H.
  destruct H as [[= <- <-]|[[= <- <-]|[]]]; split; (discriminate || reflexivity).
Qed.
Ltac applied := repeat match goal with
  | H : In _ (coapplied _ _) |- _ => cbn in H; repeat (destruct H as [H|H]); try contradiction; subst
  | H : Applied _ _ _ |- _ => inversion H; clear H; subst; try discriminate
  end.
Lemma crate_foreign l e : Applied (env0 crate_refs) crate (CEnum l) -> In e l -> foreign store e.
Proof. intros A I. applied. destruct I as [<-|[<-|[]]]; split; intros; cbn; discriminate. Qed.
Lemma crate_defaults o k p d : Applied (env0 crate_refs) crate (CObj o) -> In (k, p) (o_props o) ->
  Default (env0 crate_refs) p d -> present d.
Proof.
  intros A I Df. applied. cbn in I. repeat (destruct I as [I|I]); try contradiction; injection I as <- <-; inversion Df; subst;
    try (split; [discriminate|reflexivity]).
  match goal with X : e_refs _ _ = Some _, Y : Default _ _ _ |- _ => cbn in X; injection X as <-; inversion Y; subst; split; [discriminate|reflexivity] end.
Qed.
Theorem crate_agrees n w r s' w' r1 v1 w1 :
  cvalidate store n (env0 crate_refs) crate crate_doc w = (r, s', w') ->
  validate n (env0 crate_refs) crate (gmap crate_doc) w = (r1, v1, w1) ->
  same_verdict r r1 /\ w' = w1 /\ v1 = gmap s'.
Proof.
  intros H1 H2. destruct (custom_verdict store (holds present) _ _ _ _ _ _ _ _ _ _ _ _ (store_faithful present)
    crate_foreign crate_defaults crate_holds H1 H2) as (A & B & m' & -> & <- & _). auto.
Qed.
Example crate_run :
  cvalidate store 6 (env0 crate_refs) crate crate_doc [1; 0; 2]%nat =
    (Pass, [("extra", num 2); ("id", num 7); ("kind", gstr "box"); ("tags", gslice [gstr "x"])], []).
Proof. vm_compute. reflexivity. Qed.

(** such an object is validated without panic whenever the map would be *)
Theorem custom_calm {S} (C : custom S) D E n c s m w :
  faithful C present D ->
  (forall l e, Applied E c (CEnum l) -> In e l -> foreign C e) ->
  (forall o k p d, Applied E c (CObj o) -> In (k, p) (o_props o) -> Default E p d -> present d) ->
  D s m -> sane E c -> jdoc (gmap m) -> calm (fst (fst (cvalidate C n E c s w))).
Proof.
  intros F A B HD HS J. pose proof (validate_no_panic E n c (gmap m) w HS J) as X.
  destruct (cvalidate C n E c s w) as [[r s'] w'] eqn:H1, (validate n E c (gmap m) w) as [[r1 v1] w1] eqn:H2.
  destruct (custom_verdict C D E n c s m w _ _ _ _ _ _ F A B HD H1 H2) as [Y _]. cbn in *.
  intros msg ->. destruct r1; try (destruct Y; fail). now apply (X msg0).
Qed.

(** ** C74: methods that return errors count for nothing *)
(** a Person whose methods all return errors *)
Definition refusing : custom gval :=
  {| c_self := fun v => v; c_names := fun _ => None; c_get := fun _ _ => None; c_set := None;
     c_put := fun s _ _ => s; c_with := fun _ x => x |}.
Example person_refusing : mute refusing /\ structy (c_self refusing (person_ptr (person (MString false "") 3))) /\
  cvalidate refusing 4 (env0 no_refs) (objectc [("Age", integer); ("name", str_def (gstr "bob"))] CNil) (person_ptr (person (MString false "") 3)) [] =
    (Pass, person_ptr (person (MString true "bob") 3), []).
Proof.
  split; [|split; [|vm_compute; reflexivity]].
  - repeat split; auto.
  - now eexists _, _.
Qed.

(** one method that works is enough to be caught between two descriptions: GetPropNames
    lists a name neither GetPropValue nor the struct knows *)
Definition half : custom gval :=
  {| c_self := fun v => v; c_names := fun _ => Some ["Age"; "size"]; c_get := fun _ _ => None; c_set := None;
     c_put := fun s _ _ => s; c_with := fun _ x => x |}.
Example half_panics :
  fst (fst (validate 3 (env0 no_refs) (objectc [("Age", integer)] CEmpty) (person_ptr (person (MString false "") 3)) [])) = Pass /\
  fst (fst (cvalidate half 3 (env0 no_refs) (objectc [("Age", integer)] CEmpty) (person_ptr (person (MString false "") 3)) [])) = Panic "reflect: Interface of zero Value".
Proof. vm_compute. auto. Qed.
