(** Concrete cases for the builder, reference and pointer theorems. *)
From Verif Require Import Base GoFloat FloatSpec FloatProofs GoValue Maybe Formats Constraint StructInfo Validate Fuel Reach ReadOnly Preserve Spec Structure Refuted Simulate StructProofs StructCases Builder BuildSpec BuildProofs BuildRefs BuildErr SchemaSpec BuildCases Cases Fluent MaybeProofs Witness.
Open Scope Z_scope.
Open Scope string_scope.

(** the recursive tree schema (C41, C42, C46, C60): hypotheses of every builder theorem, and
    the same result in another iteration order *)
Example tree_case :
  Sorted (Sch tree) /\ (forall m s', lookup names_t m = Some s' -> Sorted s') /\
  (forall m, Referred names_t (Sch tree) m <-> In m ["#"; "#/definitions/pos"]) /\
  sound names_t (Sch tree) /\
  build_with 10 names_t (Sch tree) [3; 1; 4; 1; 5]%nat = Built tree_c tree_refs ["#/definitions/pos"].
Proof.
  destruct tree_sorted as [S1 S2]. split; [exact S1|]. split; [exact S2|].
  pose proof (build_outcome 10 names_t (Sch tree) [] S1 S2) as O. rewrite tree_builds in O.
  destruct O as (_ & _ & _ & _ & K & _). split; [intros m; symmetry; apply K|].
  split; [|vm_compute; reflexivity]. exact (built_sound names_t (Sch tree) S1 S2 _ _ _ _ _ tree_builds).
Qed.

(** the same tree with one definition broken (C46) *)
Definition names_bad (s : schema) : resolver := fun n => if String.eqb n "#/definitions/pos" then RSchema s else RError "not found".
Definition odd_s : scfg := with_type [TOther 9] blank.
Definition hole_s : scfg := with_items (Some (false, [])) (with_type [TArray] blank).
Lemma pos_referred D : Referred D (Sch tree) "#/definitions/pos".
Proof.
  apply rf_root. apply (us_kid _ (Sch ref_pos)); [reflexivity|apply kid_object; vm_compute; auto|].
  apply us_here. discriminate.
Qed.
Lemma pos_def s : Def (names_bad s) (Sch tree) "#/definitions/pos" s.
Proof. apply def_look; [intros [Q _]; discriminate Q|]. reflexivity. Qed.
Example faults_case :
  erroneous (names_bad (Sch odd_s)) (Sch tree) /\ (exists m, build_with 7 (names_bad (Sch odd_s)) (Sch tree) [] = BErr m) /\
  erroneous no_names (Sch tree) /\ (exists m, build_with 7 no_names (Sch tree) [] = BErr m) /\
  hollow (names_bad (Sch hole_s)) (Sch tree) /\ (exists m, build_with 7 (names_bad (Sch hole_s)) (Sch tree) [] = BPanic m).
Proof.
  split.
  { right. right. exists "#/definitions/pos". split; [apply pos_referred|]. right. exists (Sch odd_s). split; [apply pos_def|].
    apply un_here with (k := 9%nat); [reflexivity|now left]. }
  split; [eexists; vm_compute; reflexivity|]. split.
  { right. right. exists "#/definitions/pos". split; [apply pos_referred|]. left. split; [intros [Q _]; discriminate Q|reflexivity]. }
  split; [eexists; vm_compute; reflexivity|]. split; [|eexists; vm_compute; reflexivity].
  split; [discriminate|]. right. exists "#/definitions/pos", (Sch hole_s). split; [apply pos_referred|]. split; [apply pos_def|].
  apply ni_items; [reflexivity|now left|reflexivity].
Qed.

(** keyword cases (C44, C45, C61-C63) *)
Definition two_combs : scfg := with_anyOf [Sch (with_type [TString] blank)] (with_allOf [Sch (with_type [TNumber] blank)] blank).
Definition guessed : scfg := with_minLen (Some 2) blank.
Definition bool_enum : scfg := with_enum [GBool "bool" true] (with_type [TBoolean] blank).
Definition when_s : scfg := with_format "date-time" (with_type [TString] blank).
Example keyword_case :
  build_with 3 no_names (Sch two_combs) [] = build_with 3 no_names (Sch (only_first two_combs)) [] /\
  (exists c rf l, build_with 3 no_names (Sch two_combs) [] = Built c rf l /\ Fails (with_refs env_t rf) c (gstr "a")) /\
  guess guessed = [TString] /\
  (exists c rf l, build_with 3 no_names (Sch guessed) [] = Built c rf l /\ Fails (with_refs env_t rf) c (num 1)) /\
  (exists c rf l v, build_with 3 no_names (Sch bool_enum) [] = Built c rf l /\ Passes (with_refs env_t rf) c (GBool "bool" false) v) /\
  (exists c rf l v, build_with 3 no_names (Sch when_s) [] = Built c rf l /\ Passes (with_refs env_t rf) c (gstr "yesterday") v) /\
  (exists c rf l, build_with 3 no_names (Sch (number_enum [num 1])) [] = Built c rf l /\ Fails (with_refs env_t rf) c (num 1)).
Proof.
  split; [vm_compute; reflexivity|].
  split; [do 3 eexists; split; [vm_compute; reflexivity|exists []; do 3 eexists; run 5%nat]|].
  split; [reflexivity|].
  split; [do 3 eexists; split; [vm_compute; reflexivity|exists []; do 3 eexists; run 5%nat]|].
  split; [do 3 eexists; exists (GBool "bool" false); split; [vm_compute; reflexivity|exists []; eexists; run 5%nat]|].
  split; [do 3 eexists; exists (gstr "yesterday"); split; [vm_compute; reflexivity|exists []; eexists; run 5%nat]|].
  do 3 eexists; split; [vm_compute; reflexivity|exists []; do 3 eexists; run 5%nat].
Qed.

(** pointers (C51): to the map of Witness.v and to a struct *)
Example pointer_case :
  (forall l, ~ Applied env1 (CObj o_full) (CEnum l)) /\
  Runs env1 (CObj o_full) (GPtr "*map[string]interface {}" 1 (Some (false, jobj m_full))) []
    (Pass, GPtr "*map[string]interface {}" 1 (Some (false, jobj m_full')), []) /\
  Fails env1 (CObj o_full) (GPtr "*map[string]interface {}" 1 (Some (false, jobj (hd [] broken)))) /\
  Passes (env0 no_refs) (CObj person_schema) (person_ptr (StructCases.person (MString true "ann") 3)) (person_ptr (StructCases.person (MString true "ann") 3)).
Proof.
  split; [|split; [|split]].
  - intros l A. inversion A as [|? x ? I R]; subst; [].
    assert (N : forall x, In x (coapplied env1 (CObj o_full)) -> exists o, x = CObj o /\ forall y, In y (coapplied env1 x) -> y = CNil).
    { intros y Hy. cbn in Hy. each Hy. subst. eexists. split; [reflexivity|]. intros z Hz. cbn in Hz. each Hz; auto. }
    destruct (N _ I) as (o & -> & K). inversion R as [|? z ? I2 R2]; subst. apply K in I2. subst.
    inversion R2 as [|? z ? I3 _]; subst. destruct I3.
  - run 9%nat.
  - exists []. eexists _, _, _. run 9%nat.
  - exists []. eexists. run 9%nat.
Qed.

(** Integer() chains (C55) and JSON round trips (C37) *)
Example chain_case (n : nat) (w : orc) : int_chain_is_int [NMinimum (f64_of_Z 0); NExclusiveMinimum true; NMaximum (f64_of_Z 9)] = true /\
  feq (ffloor two_half) two_half = false /\
  fst (fst (validate (S n) env1 (int_chain [NMinimum (f64_of_Z 0); NExclusiveMinimum true; NMaximum (f64_of_Z 9)]) (gfloat two_half) w)) <> Pass /\
  fst (fst (validate 1 env1 (int_chain [NMinimum (f64_of_Z 0); NExclusiveMinimum true; NMaximum (f64_of_Z 9)]) (num 3) [])) = Pass.
Proof.
  split; [reflexivity|]. split; [reflexivity|]. split; [apply integer_chain_guarded; reflexivity|reflexivity].
Qed.
Example json_case tp tf : in_range (MInt true (-7)) /\ in_range (MString true "ann") /\
  (exists j, m_marshal tf (MInt true (-7)) = Some j /\ m_unmarshal tp zero_MInt j = Some (MInt true (-7))) /\
  (exists j, m_marshal tf (MString true "ann") = Some j /\ m_unmarshal tp zero_MString j = Some (MString true "ann")).
Proof.
  assert (A : in_range (MInt true (-7))) by (split; vm_compute; discriminate).
  assert (B : in_range (MString true "ann")) by reflexivity.
  split; [exact A|]. split; [exact B|]. split; eexists; (split; [reflexivity|]);
    eapply maybe_json with (tf := tf); try reflexivity; auto; discriminate.
Qed.
