(** A recursive validator with defaults, patterns, dependencies and unique items that meets
    the hypotheses of the general theorems, and concrete runs of it. *)
From Verif Require Import Base GoFloat FloatSpec FloatProofs GoValue Maybe Formats HostSpec Constraint StructInfo Validate Fuel Reach ReadOnly Preserve Spec SpecSound SpecObj SpecMain Terminate Scalars Structure Composite Refuted DocSpec NoPanic Repeat.
Open Scope Z_scope.
Open Scope string_scope.

Definition p_name : constr := CStr None (str_maxLength 20 (str_minLength 1 new_str)).
Definition p_age : constr := CInt (Some (num 0)) (num_minimum (f64_of_Z 0) new_num).
Definition p_mail : constr := CStr None (str_format "email" new_str).
Definition p_tags : constr := CArr (arr_unique true (arr_items str new_arr)).
Definition p_id : constr := COneOf [str; number].
Definition p_friends : constr := CArr (arr_max 3 (arr_items (CRef "person") new_arr)).
Definition o_person : objcfg :=
  obj_propDep "mail" ["name"] (obj_pattern (0%nat, "x-") number (obj_required ["name"]
   (obj_addProp "name" p_name (obj_addProp "age" p_age (obj_addProp "mail" p_mail
    (obj_addProp "tags" p_tags (obj_addProp "id" p_id (obj_addProp "friends" p_friends new_obj)))))))).
Definition person : constr := CObj o_person.
Definition env1 : env := env0 (one_ref "person" person).
Definition root : constr := CRef "person".

(** every constraint in the validator *)
Definition parts : list constr :=
  [root; person; p_name; p_age; p_mail; p_tags; p_id; p_friends; str; number; CNil; CEmpty].

Lemma Deep_list E (P : constr -> Prop) S c : In c S -> (forall x, In x S -> incl (children E x) S) -> (forall x, In x S -> P x) -> Deep E P c.
Proof.
  intros I C H x R. apply H. induction R as [|a b d Ib _ IH]; auto. apply IH. eapply C; eauto.
Qed.

Ltac parts_cases H := cbn [parts In] in H;
  repeat match type of H with _ \/ _ => destruct H as [H|H] end; [subst ..|destruct H].
Lemma parts_closed x : In x parts -> incl (children env1 x) parts.
Proof.
  intros H. parts_cases H; cbn; intros y Hy; cbn in Hy;
    repeat match type of Hy with _ \/ _ => destruct Hy as [Hy|Hy] end; try (destruct Hy; fail);
    rewrite <- Hy; cbn; auto 20.
Qed.

Lemma age_default c d : In c parts -> Default env1 c d -> c = p_age /\ d = num 0.
Proof.
  intros H D. parts_cases H; inversion D; subst; auto; try discriminate.
  match goal with H : e_refs _ _ = Some _ |- _ => cbn in H; injection H as <- end.
  match goal with H : Default _ person _ |- _ => inversion H end.
Qed.
Lemma person_declares d : declared env1 root d -> d = num 0.
Proof.
  intros (o & k & p & R & I & D).
  assert (P : In (CObj o) parts).
  { assert (Q : Deep env1 (fun x => In x parts) root); [|apply Q; exact R].
    apply Deep_list with (S := parts); [cbn; auto|apply parts_closed|auto]. }
  eapply age_default; [|exact D]. eapply parts_closed; [exact P|]. eapply child_prop; eauto.
Qed.

Lemma only_names k p : In (k, p) (o_props o_person) -> In p parts /\ contains "x-" k = false.
Proof.
  cbn. intros H. repeat match type of H with _ \/ _ => destruct H as [H|H] end; try (destruct H; fail);
    injection H as <- <-; split; cbn; auto 20.
Qed.

Lemma pure_tags : pure env1 p_tags.
Proof.
  intros d (o & k & p & R & I & D).
  assert (P : In (CObj o) [p_tags; str; CNil; CEmpty]).
  { assert (Q : Deep env1 (fun x => In x [p_tags; str; CNil; CEmpty]) p_tags); [|apply Q; exact R].
    apply Deep_list with (S := [p_tags; str; CNil; CEmpty]); [cbn; auto| |auto].
    intros x Hx. cbn in Hx. destruct Hx as [<-|[<-|[<-|[<-|[]]]]]; cbn; intros y Hy; cbn in Hy |- *; intuition. }
  cbn in P. destruct P as [P|[P|[P|[P|[]]]]]; discriminate P.
Qed.
Lemma pure_leaf c : children env1 c = [] -> (forall o, c <> CObj o) -> pure env1 c.
Proof. intros H N d (o & k & p & R & I & D). inversion R as [|? y ? I1 _]; subst; [eapply N; eauto|]. rewrite H in I1. destruct I1. Qed.

Lemma num0_ok : Accepts env1 p_age (num 0) (num 0).
Proof.
  apply (run_pass env1 p_age (num 0) [] (num 0) []).
  - split; [discriminate|]. intros x R. inversion R as [|? y ? I _]; subst; [|destruct I]. right. split; exact I.
  - constructor.
  - run 1%nat.
Qed.


Example person_wf : wf env1 root /\ single env1 root /\ stable env1 root.
Proof.
  split; [split; [discriminate|]|split].
  - apply Deep_list with (S := parts); [cbn; auto|apply parts_closed|].
    intros x Hx. parts_cases Hx; try (right; split; exact I); auto; right.
    + split; [discriminate|exact I].
    + split; [|cbn; intros k H; destruct H; reflexivity].
      change (node_ok env1 (CObj o_person)). cbn [node_ok]. splits.
      * vm_compute. repeat constructor.
      * intros k p H. cbn in H. repeat match type of H with _ \/ _ => destruct H as [H|H] end; try (destruct H; fail);
          injection H as _ <-; discriminate.
      * intros k p [H|[]]. injection H as _ <-. discriminate.
      * intros k p d H D. destruct (only_names k p H) as [Ip _]. destruct (age_default p d Ip D) as [_ ->]. constructor.
    + split; [intros []|exact I].
    + split; [cbn; intuition discriminate|]. intros x [<-|[<-|[]]]; apply pure_leaf; auto; discriminate.
    + split; [intros []|exact I].
  - apply Deep_list with (S := parts); [cbn; auto|apply parts_closed|].
    intros x Hx. parts_cases Hx; try exact I.
    intros k p1 c1 p2 c2 _ [H1|[]] [H2|[]] _ _. congruence.
  - apply Deep_list with (S := parts); [cbn; auto|apply parts_closed|].
    intros x Hx. parts_cases Hx; try exact I.
    + intros k p d H D. destruct (only_names k p H) as [Ip _]. destruct (age_default p d Ip D) as [-> ->].
      splits; [intros _; exact num0_ok|reflexivity|..];
        (cbn in H; repeat match type of H with _ \/ _ => destruct H as [H|H] end; try (destruct H; fail); try discriminate H;
         injection H as <-; reflexivity).
    + split; [intros _; exact pure_tags|discriminate].
    + split; discriminate.
Qed.

Lemma listed_name k : In k (keys (o_props o_person)) -> covered env1 o_person k /\ contains "x-" k = false.
Proof.
  intros H. split; [now left|]. apply in_map_iff in H as ([k' p] & <- & I). now apply (only_names k' p).
Qed.

Example person_regular : regular env1 root.
Proof.
  split; [discriminate|].
  apply Deep_list with (S := parts); [cbn; auto|apply parts_closed|].
  intros x Hx. parts_cases Hx; auto; right; try (split; [discriminate|intros l; discriminate]); try exact I.
  - discriminate.
  - destruct person_wf as ((_ & W) & _ & _).
    assert (R : Reach env1 root person) by (econstructor; [now left|constructor]).
    destruct (W person R) as [Z|[(N1 & N2 & N3 & _) _]]; [discriminate|].
    change (node_regular env1 (CObj o_person)). cbn [node_regular]. splits; auto.
    + intros k p d H D. destruct (only_names k p H) as [Ip _]. destruct (age_default p d Ip D) as [_ ->].
      constructor. reflexivity.
    + intros k H. unfold is_required in H. cbn in H. destruct (String.eqb_spec k "name"); [|discriminate].
      subst. cbn. auto 10.
    + intros k c1 c2 A1 A2.
      assert (K : forall c, applies env1 o_person k c ->
        sget k (o_props o_person) = Some c \/ (sget k (o_props o_person) = None /\ c = number)).
      { intros c [A|[(p & [A|[]] & M)|(_ & A & N)]]; auto.
        - injection A as <- <-. cbn [snd] in M. right. split; auto.
          destruct (sget k (o_props o_person)) eqn:S; auto. apply sget_in in S.
          destruct (only_names _ _ S) as [_ Q]. change (contains "x-" k = true) in M. congruence.
        - subst c. destruct N. reflexivity. }
      destruct (K c1 A1) as [S1|[S1 ->]], (K c2 A2) as [S2|[S2 ->]]; congruence.
    + intros k d H. unfold prop_deps in H. cbn in H. destruct (String.eqb_spec k "mail"); [|destruct H].
      subst. destruct H as [<-|[]]. split; apply listed_name; cbn; auto 10.
    + intros k H. destruct H. reflexivity.
  - repeat split; discriminate.
  - split; [intros []|]. split; [reflexivity|]. split; [intros H; destruct H; reflexivity|exact (fun _ => I)].
  - split; [cbn; intuition discriminate|]. intros x [<-|[<-|[]]]; apply pure_leaf; auto; discriminate.
  - split; [intros []|]. split; [reflexivity|]. split; [intros H; destruct H; reflexivity|discriminate].
  - repeat split; discriminate.
Qed.

Example person_terminates : finite_refs env1 /\ guarded env1 /\ small env1 root.
Proof.
  split; [|split].
  - exists ["person"]. intros n H. cbn in H. unfold one_ref in H. destruct (String.eqb_spec n "person"); [subst; now left|congruence].
  - assert (N : forall a b, ~ calls env1 a b).
    { intros a b (c & R & S). cbn in R. unfold one_ref in R. destruct (String.eqb a "person"); [|discriminate].
      injection R as <-. inversion S as [| | | | |o k n H1 E1 E2]; subst.
      change (Shallow CNil b) in H1. inversion H1. }
    intros n C. inversion C; subst; eapply N; eauto.
  - intros d D. apply person_declares in D. subst. exact I.
Qed.

(** a document with a friend; both ages are filled in *)
Definition ann : gval := jobj [("friends", jarr [jobj [("name", gstr "bob"); ("x-size", num 7)]]); ("name", gstr "ann"); ("tags", jarr [gstr "a"; gstr "b"])].
Definition ann' : gval := jobj [("age", num 0); ("friends", jarr [jobj [("age", num 0); ("name", gstr "bob"); ("x-size", num 7)]]); ("name", gstr "ann"); ("tags", jarr [gstr "a"; gstr "b"])].
Definition dup : gval := jobj [("name", gstr "ann"); ("tags", jarr [gstr "a"; gstr "a"])].

Lemma jdoc_list T i l : Forall jdoc l -> jdoc (GSlice T i (Some l)).
Proof. intros F. constructor. now apply Forall_forall. Qed.
Lemma jdoc_obj m : ssorted m -> Forall jdoc (map snd m) -> jdoc (jobj m).
Proof.
  intros S F. constructor; auto. intros k x H. rewrite Forall_forall in F. apply F.
  apply in_map_iff. exists (k, x). split; auto. now apply sget_in.
Qed.
Lemma doc_list T i l : Forall doc l -> doc (GSlice T i (Some l)).
Proof. intros F. constructor. now apply Forall_forall. Qed.
Lemma doc_obj m : ssorted m -> Forall doc (map snd m) -> doc (jobj m).
Proof.
  intros S F. constructor; auto. intros k x H. rewrite Forall_forall in F. apply F.
  apply in_map_iff. exists (k, x). split; auto. now apply sget_in.
Qed.

Example ann_doc : doc ann /\ doc dup.
Proof.
  split.
  - apply doc_obj; [vm_compute; repeat constructor|]. constructor; [|constructor; [constructor|constructor; [|constructor]]].
    + apply doc_list. constructor; [|constructor]. apply doc_obj; [vm_compute; repeat constructor|].
      constructor; [constructor|constructor; [constructor; reflexivity|constructor]].
    + apply doc_list. repeat constructor.
  - apply doc_obj; [vm_compute; repeat constructor|]. constructor; [constructor|constructor; [|constructor]].
    apply doc_list. repeat constructor.
Qed.

Example ann_passes : Runs env1 root ann [] (Pass, ann', []) /\ Runs env1 root ann' [2; 1; 1]%nat (Pass, ann', []) /\
  exists m, Runs env1 root dup [] (Fail m, jobj [("age", num 0); ("name", gstr "ann"); ("tags", jarr [gstr "a"; gstr "a"])], []).
Proof. split; [|split; [|eexists]]; run 20%nat. Qed.

(** the theorems applied to it *)
Example ann_satisfies : Satisfies env1 root ann /\ Violates env1 root dup.
Proof.
  destruct ann_doc as [D1 D2]. destruct ann_passes as (R1 & _ & m & R2). split.
  - destruct (documented_run _ _ _ _ _ _ _ person_regular D1 R1) as [(_ & H & _)|([? H] & _)]; [exact H|discriminate].
  - destruct (documented_run _ _ _ _ _ _ _ person_regular D2 R2) as [(H & _)|(_ & H & _)]; [discriminate|exact H].
Qed.

(** whatever order Go iterates the maps in, this is the outcome *)
Example ann_all_orders w : exists w', Runs env1 root ann w (Pass, ann', w').
Proof.
  destruct person_wf as (W & S & _). destruct person_terminates as (F & G & Sm). destruct ann_doc as [D _].
  destruct (validate_terminates env1 root F G Sm ann) as [N HN]. specialize (HN w).
  destruct (validate N env1 root ann w) as [[r v'] w'] eqn:HV.
  assert (R : Runs env1 root ann w (r, v', w')) by (exists N; auto).
  destruct (order_independent _ _ _ _ _ _ _ _ _ _ _ W S (doc_jdoc _ D) (proj1 ann_passes) R) as [[H1 _] H2].
  specialize (H1 eq_refl). specialize (H2 eq_refl). subst. eauto.
Qed.
