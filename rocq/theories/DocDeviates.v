(** Each feature that [regular] (DocSpec.v) excludes is one in which Validate contradicts the
    documented meaning: a run that passes a document violating the constraint, or one that
    rejects a document satisfying it. *)
From Verif Require Import Base GoFloat FloatSpec FloatProofs GoValue Maybe Formats HostSpec Constraint StructInfo Validate Fuel Reach ReadOnly Preserve Spec SpecSound SpecObj SpecMain Terminate Scalars Structure Composite Refuted DocSpec Cases.
Open Scope Z_scope.
Open Scope string_scope.
Open Scope list_scope.

(** a document the code passes although it violates the constraint *)
Definition too_lax (E : env) (c : constr) (v : gval) : Prop :=
  Violates E c v /\ exists w v' w', Runs E c v w (Pass, v', w').
(** one it rejects although it satisfies it *)
Definition too_strict (E : env) (c : constr) (v : gval) : Prop :=
  Satisfies E c v /\ exists w m v' w', Runs E c v w (Fail m, v', w').

Definition E0 : env := env0 no_refs.

(** C01 without the guard *)
Definition documented_full : Prop := forall E c v w r v' w', c <> CNil -> doc v -> Runs E c v w (r, v', w') ->
  (r = Pass <-> Satisfies E c v) /\ ((exists m, r = Fail m) <-> Violates E c v).

(** *** Required names that no AddProp lists: object.go:358 checks them in the loop over
    the listed properties only *)
Definition d_required : constr := CObj (obj_required ["a"] new_obj).
Lemma d_required_lax : doc (jobj []) /\ too_lax E0 d_required (jobj []).
Proof.
  split; [apply doc_obj; constructor|]. split.
  - eapply v_object_required with (k := "a"); [reflexivity|intros []].
  - exists [], (jobj []), []. run 5%nat.
Qed.

(** *** Two patterns for one name: only one is checked *)
Lemma d_pattern_lax : doc (jobj [("ab", gstr "x")]) /\ too_lax E0 (CObj o_c03) (jobj [("ab", gstr "x")]).
Proof.
  split; [apply doc_obj; repeat constructor|]. split.
  - eapply v_object_prop with (k := "ab") (c := number); [reflexivity| |].
    + right. left. exists (0%nat, "a"). split; [vm_compute; auto|reflexivity].
    + apply v_scalar; [reflexivity|]. intros (? & ? & ? & H & _). discriminate H.
  - exists [1%nat], (jobj [("ab", gstr "x")]), []. run 5%nat.
Qed.

(** *** A listed name that also matches a pattern: the pattern is not checked *)
Definition d_shadowed : constr := CObj (obj_pattern (0%nat, "a") number (obj_addProp "a" CEmpty new_obj)).
Lemma d_shadow_lax : doc (jobj [("a", gstr "x")]) /\ too_lax E0 d_shadowed (jobj [("a", gstr "x")]).
Proof.
  split; [apply doc_obj; repeat constructor|]. split.
  - eapply v_object_prop with (k := "a") (c := number); [reflexivity| |].
    + right. left. exists (0%nat, "a"). split; [vm_compute; auto|reflexivity].
    + apply v_scalar; [reflexivity|]. intros (? & ? & ? & H & _). discriminate H.
  - exists [], (jobj [("a", gstr "x")]), []. run 5%nat.
Qed.

(** *** Dependencies of or on names that are neither listed nor matched *)
Definition d_dep_of : constr := CObj (obj_propDep "a" ["b"] (obj_additional CEmpty new_obj)).
Lemma d_dep_lax : doc (jobj [("a", num 1)]) /\ too_lax E0 d_dep_of (jobj [("a", num 1)]).
Proof.
  split; [apply doc_obj; [repeat constructor|constructor; [constructor; reflexivity|constructor]]|]. split.
  - eapply v_object_dep with (k := "a") (d := "b"); cbn; auto. intros [H|[]]. discriminate H.
  - exists [], (jobj [("a", num 1)]), []. run 5%nat.
Qed.

Definition d_dep_on : constr := CObj (obj_propDep "a" ["b"] (obj_addProp "a" CEmpty (obj_additional CEmpty new_obj))).
Definition d_ab : gval := jobj [("a", num 1); ("b", num 1)].
Lemma d_dep_strict : doc d_ab /\ too_strict E0 d_dep_on d_ab.
Proof.
  split; [apply doc_obj; [repeat constructor|repeat (constructor; [constructor; reflexivity|]); constructor]|]. split.
  - apply s_object.
    + split; cbn; lia.
    + intros k H. discriminate H.
    + intros k H. right. discriminate.
    + intros k x c H [A|[(p & [] & _)|(_ & -> & _)]]; [|constructor].
      cbn in A. destruct (String.eqb k "a"); [injection A as <-; constructor|discriminate].
    + intros k d I D. unfold prop_deps in D. cbn in D. destruct (String.eqb k "a"); [destruct D as [<-|[]]; cbn; auto|destruct D].
    + intros k I N. exfalso. apply N. reflexivity.
  - exists [], "required dependency 'b' is mising", d_ab, []. run 5%nat.
Qed.

(** *** A schema dependency next to a property dependency of the same name is not checked *)
Definition d_both : constr :=
  CObj (obj_schemaDep "a" str (obj_propDep "a" ["b"] (obj_addProp "b" CEmpty (obj_addProp "a" CEmpty new_obj)))).
Lemma d_both_lax : doc d_ab /\ too_lax E0 d_both d_ab.
Proof.
  split; [apply (proj1 d_dep_strict)|]. split.
  - eapply v_object_sdep with (k := "a"); [cbn; auto|discriminate|].
    apply v_scalar; [reflexivity|]. intros (? & ? & H & _). discriminate H.
  - exists [], d_ab, []. run 6%nat.
Qed.

(** *** Additional items after positional ones are counted wrongly *)
Definition d_pos : constr := CArr (arr_positional [number] (arr_additional str new_arr)).
Definition d_row : gval := jarr [num 1; gstr "x"].
Lemma d_positional_strict : doc d_row /\ too_strict E0 d_pos d_row.
Proof.
  split; [apply doc_list; repeat constructor|]. split.
  - apply s_array; cbn [elements].
    + split; cbn; lia.
    + discriminate.
    + intros j _ (_ & _ & _ & H). discriminate H.
    + intros [|[|j]] x c H [N IR]; cbn in H, IR; try discriminate.
      * injection H as <-. subst c. apply s_scalar. exists "float64", false, (f64_of_Z 1). split; [reflexivity|].
        vm_compute. repeat split; intros; discriminate.
      * injection H as <-. destruct IR as [_ ->]. apply s_scalar. exists "string", "x". split; [reflexivity|].
        repeat split; cbn; try lia; try discriminate.
      * destruct j; discriminate H.
  - eexists [], _, _, []. run 5%nat.
Qed.

(** *** Elements of different types can print alike *)
Definition d_uniq : constr := CArr (arr_unique true (arr_items CEmpty new_arr)).
Definition d_alike : gval := jarr [gstr "[a b]"; jarr [gstr "a"; gstr "b"]].
Lemma d_unique_strict : doc d_alike /\ too_strict E0 d_uniq d_alike.
Proof.
  split; [apply doc_list; constructor; [constructor|constructor; [apply doc_list; repeat constructor|constructor]]|]. split.
  - apply s_array; cbn [elements].
    + split; cbn; lia.
    + intros _. repeat constructor; cbn; intuition discriminate.
    + intros j _ (H & _). discriminate H.
    + intros j x c _ [_ ->]. constructor.
  - exists [], "duplicate element found", d_alike, []. run 5%nat.
Qed.

(** *** Format "ipv6" refuses what it should accept *)
Lemma d_ipv6_strict : doc (gstr "fe80::1") /\ too_strict E0 (CStr None (fmt_only "ipv6")) (gstr "fe80::1").
Proof.
  split; [constructor|]. split.
  - apply s_scalar. exists "string", "fe80::1". split; [reflexivity|].
    split; [cbn; lia|split; [cbn; lia|split; [split; [reflexivity|vm_compute; tauto]|split; discriminate]]].
  - eexists [], _, _, []. run 1%nat.
Qed.

(** *** Defaults inserted by a failed alternative reach the next one *)
Lemma d_any_strict : doc (jobj [("b", gstr "s")]) /\ too_strict E0 (CAny alts_c04) (jobj [("b", gstr "s")]).
Proof.
  split; [apply doc_obj; repeat constructor|]. split.
  - eapply s_any; [right; left; reflexivity|]. apply s_object.
    + split; cbn; lia.
    + intros k H. discriminate H.
    + intros k [<-|[]]. left. left. cbn. auto.
    + intros k x c H [A|[(p & [] & _)|(_ & -> & N)]]; [|now contradiction N].
      cbn in A, H. destruct (String.eqb k "b"); [|discriminate]. injection A as <-. injection H as <-.
      apply s_scalar. exists "string", "s". split; [reflexivity|]. repeat split; cbn; try lia; try discriminate.
    + intros k d I [].
    + intros k I N. exfalso. apply N. reflexivity.
  - eexists [], _, _, []. run 6%nat.
Qed.

(** *** The guards are needed: the unguarded statement is false, in both directions *)
Theorem documented_refuted : ~ documented_full.
Proof.
  intros H. destruct d_required_lax as (D & V & w & v' & w' & R).
  assert (N : d_required <> CNil) by discriminate. destruct (H _ _ _ _ _ _ _ N D R) as [[A _] _].
  eapply Satisfies_not_Violates; [apply A; reflexivity|exact V].
Qed.

Theorem documented_lax : forall c, In c [d_required; CObj o_c03; d_shadowed; d_dep_of; d_both] ->
  exists v, doc v /\ too_lax E0 c v.
Proof.
  intros c H. cbn in H.
  destruct H as [<-|[<-|[<-|[<-|[<-|[]]]]]];
    eexists; [exact d_required_lax|exact d_pattern_lax|exact d_shadow_lax|exact d_dep_lax|exact d_both_lax].
Qed.

Theorem documented_strict : forall c, In c [d_dep_on; d_pos; d_uniq; CStr None (fmt_only "ipv6"); CAny alts_c04] ->
  exists v, doc v /\ too_strict E0 c v.
Proof.
  intros c H. cbn in H.
  destruct H as [<-|[<-|[<-|[<-|[<-|[]]]]]];
    eexists; [exact d_dep_strict|exact d_positional_strict|exact d_unique_strict|exact d_ipv6_strict|exact d_any_strict].
Qed.
