(** What [source_agrees] gives: theorems about running the source text itself, and
    concrete runs of it. *)
From Verif Require Import Base GoFloat GoValue Maybe Formats Constraint StructInfo Validate Fuel Reach Spec SpecMain DocSpec Repeat Terminate Refuted Cases StructCases SrcSyntax SrcText SrcExec SrcProg SrcAccess SrcDefault SrcSorted SrcMain.
Open Scope string_scope.
Open Scope list_scope.
Open Scope Z_scope.

(** a run of the source: some number of nested Validate calls suffices, for choices [w]
    and [u] of the orders in which maps are visited *)
Definition SrcRuns (E : Constraint.env) (hit : string -> bool) (c : constr) (v : gval) (w u : orc) (r : res) (v' : gval) : Prop :=
  r <> OOF /\ exists n w' u', src_validate E hit orders n c v w u = Some (r, v', w', u').

Section Runs.
  Variables (E : Constraint.env) (hit : string -> bool).

  (** the source never gets stuck: every statement and call in it has a meaning *)
  Theorem source_not_stuck n c v w u : Deep E canonical c -> in_order v -> src_validate E hit orders n c v w u <> None.
  Proof.
    intros Hc Hv. pose proof (source_agrees E hit n c v w u Hc Hv) as A.
    destruct (validate n E c v w) as [[r v'] w']. destruct A as (r' & u' & -> & _). discriminate.
  Qed.
  (** verdict, message, document and choices left over, both ways *)
  Theorem source_exact n c v w u r v' w' : Deep E canonical c -> in_order v -> r = Pass \/ r = OOF \/ (exists m, r = Fail m) ->
    (exists u', src_validate E hit orders n c v w u = Some (r, v', w', u')) <-> validate n E c v w = (r, v', w').
  Proof.
    intros Hc Hv Hr. pose proof (source_agrees E hit n c v w u Hc Hv) as A.
    destruct (validate n E c v w) as [[r1 v1] w1]. destruct A as (r' & u' & -> & Hs).
    assert (forall a b, same_res a b -> (a = Pass \/ a = OOF \/ (exists m, a = Fail m)) -> a = b) as K1
      by (intros [] [] H1 [H2|[H2|[m H2]]]; cbn in H1; congruence).
    assert (forall a b, same_res a b -> (b = Pass \/ b = OOF \/ (exists m, b = Fail m)) -> a = b) as K2
      by (intros [] [] H1 [H2|[H2|[m H2]]]; cbn in H1; congruence).
    split.
    - intros (u1 & H). injection H as -> -> -> ->. rewrite (K1 _ _ Hs Hr). reflexivity.
    - intros H. injection H as -> -> ->. rewrite (K2 _ _ Hs Hr). exists u'. reflexivity.
  Qed.
  Theorem source_panics n c v w u v' w' : Deep E canonical c -> in_order v ->
    (exists m u', src_validate E hit orders n c v w u = Some (Panic m, v', w', u')) <-> exists m, validate n E c v w = (Panic m, v', w').
  Proof.
    intros Hc Hv. pose proof (source_agrees E hit n c v w u Hc Hv) as A.
    destruct (validate n E c v w) as [[r1 v1] w1]. destruct A as (r' & u' & -> & Hs). split.
    - intros (m & u1 & H). injection H as -> -> -> ->. destruct r1 as [| |m'|]; cbn in Hs; try discriminate. now exists m'.
    - intros (m & H). injection H as -> -> ->. destruct r' as [| |m'|]; cbn in Hs; try discriminate. now exists m', u'.
  Qed.
  Lemma source_runs c v w u r v' : Deep E canonical c -> in_order v -> SrcRuns E hit c v w u r v' ->
    exists r1 w', Runs E c v w (r1, v', w') /\ same_res r r1.
  Proof.
    intros Hc Hv (Ho & n & w' & u' & H). pose proof (source_agrees E hit n c v w u Hc Hv) as A. rewrite H in A.
    destruct (validate n E c v w) as [[r1 v1] w1] eqn:V. destruct A as (r' & u1 & [= <- <- <- <-] & Hs).
    exists r1, w'. split; [exists n; split; [exact V|]|exact Hs].
    cbn [rs fst]. intros ->. destruct r; cbn in Hs; congruence.
  Qed.

  Lemma jdoc_in_order v : jdoc v -> in_order v.
  Proof.
    induction 1; try (apply io_leaf; reflexivity).
    - apply io_slice. assumption.
    - apply io_map; [assumption|]. intros k x Hin. apply (H1 k). apply nodup_sget; [apply ssorted_nodup; assumption|assumption].
  Qed.

  (** *** Properties of the source that follow: meaning, panics, order, termination *)
  Theorem source_documented c v w u r v' : Deep E canonical c -> regular E c -> DocSpec.doc v -> SrcRuns E hit c v w u r v' ->
    (r = Pass /\ Satisfies E c v /\ ~ Violates E c v) \/ ((exists m, r = Fail m) /\ Violates E c v /\ ~ Satisfies E c v).
  Proof.
    intros Hc Hr Hd R. destruct (source_runs c v w u r v' Hc (jdoc_in_order v (doc_jdoc v Hd)) R) as (r1 & w' & R1 & Hs).
    destruct (documented_run E c v w r1 v' w' Hr Hd R1) as [[-> X]|[[m ->] X]].
    - left. split; [destruct r; cbn in Hs; congruence|exact X].
    - right. split; [exists m; destruct r; cbn in Hs; congruence|exact X].
  Qed.
  Theorem source_no_panic c v w u m v' : Deep E canonical c -> wf E c -> jdoc v -> ~ SrcRuns E hit c v w u (Panic m) v'.
  Proof.
    intros Hc Hw Hj R. destruct (source_runs c v w u _ v' Hc (jdoc_in_order v Hj) R) as (r1 & w' & R1 & Hs).
    destruct r1 as [| |m'|]; cbn in Hs; try discriminate. exact (run_no_panic E c v w m' v' w' Hw Hj R1).
  Qed.
  Theorem source_order_independent c v w1 u1 w2 u2 r1 r2 v1 v2 : Deep E canonical c -> wf E c -> Spec.single E c -> jdoc v ->
    SrcRuns E hit c v w1 u1 r1 v1 -> SrcRuns E hit c v w2 u2 r2 v2 -> (r1 = Pass <-> r2 = Pass) /\ (r1 = Pass -> v1 = v2).
  Proof.
    intros Hc Hw Hs Hj R1 R2. pose proof (jdoc_in_order v Hj) as Hv.
    destruct (source_runs c v _ _ _ _ Hc Hv R1) as (s1 & x1 & A1 & S1). destruct (source_runs c v _ _ _ _ Hc Hv R2) as (s2 & x2 & A2 & S2).
    destruct (order_independent E c v _ _ _ _ _ _ _ _ Hw Hs Hj A1 A2) as [H1 H2].
    assert (forall a b, same_res a b -> (a = Pass <-> b = Pass)) as K by (intros [] [] H; cbn in H; split; congruence).
    rewrite (K _ _ S1), (K _ _ S2). split; [exact H1|exact H2].
  Qed.
  (** auxiliary loops: the order they run in never shows *)
  Theorem source_other_loops n c v w u1 u2 r1 v1 w1 u1' : Deep E canonical c -> in_order v ->
    src_validate E hit orders n c v w u1 = Some (r1, v1, w1, u1') ->
    exists r2 u2', src_validate E hit orders n c v w u2 = Some (r2, v1, w1, u2') /\ same_res r2 r1.
  Proof.
    intros Hc Hv H. pose proof (source_agrees E hit n c v w u1 Hc Hv) as A. pose proof (source_agrees E hit n c v w u2 Hc Hv) as B. rewrite H in A.
    destruct (validate n E c v w) as [[r v'] w']. destruct A as (r' & u' & [= <- <- <- <-] & Hs). destruct B as (r2 & u2' & -> & Hs2).
    exists r2, u2'. split; [reflexivity|]. destruct r, r1, r2; cbn in *; congruence || exact I.
  Qed.
  Theorem source_terminates c v w u : Deep E canonical c -> in_order v -> finite_refs E -> guarded E -> small E c ->
    exists r v', SrcRuns E hit c v w u r v'.
  Proof.
    intros Hc Hv F G S. destruct (validate_terminates E c F G S v) as [N HN]. specialize (HN w).
    pose proof (source_agrees E hit N c v w u Hc Hv) as A. destruct (validate N E c v w) as [[r v'] w'] eqn:V.
    destruct A as (r' & u' & A & Hs). exists r', v'. split; [|exists N, w', u'; exact A].
    intros ->. cbn [rs fst] in HN. apply HN. destruct r; cbn in Hs; congruence.
  Qed.
End Runs.

(** *** Choices and orders: a loop over a map visits a permutation of its entries, and
    every permutation is visited for some choices *)
Lemma insert_key_perm p l : Permutation (p :: l) (insert_key p l).
Proof.
  induction l as [|q l IH]; [reflexivity|]. cbn [insert_key].
  destruct (fst p), (fst q); try reflexivity. destruct (String.compare _ _); try reflexivity.
  etransitivity; [apply perm_swap|]. constructor. exact IH.
Qed.
Lemma by_key_perm l : Permutation l (by_key l).
Proof.
  induction l as [|p l IH]; [reflexivity|]. etransitivity; [apply perm_skip; exact IH|].
  change (by_key (p :: l)) with (insert_key p (by_key l)). apply insert_key_perm.
Qed.
Lemma arrange_perm f line m : Permutation m (arrange (orders f line) m).
Proof.
  unfold orders. destruct (String.eqb f _); [|reflexivity]. unfold site_of.
  destruct (_ || _ || _); [apply by_key_perm|]. destruct (line =? 437); [reflexivity|].
  destruct (line =? 477); [apply Permutation_rev|reflexivity].
Qed.
Theorem loop_orders cx f line m l s : cx_site cx = orders ->
  Permutation m l <-> exists w u s', items cx f line (VMap m) (with_ord w u s) = Some (l, s').
Proof.
  intros Hs. unfold items. rewrite Hs. pose proof (arrange_perm f line m) as P. split.
  - intros H. destruct (shuffle_all l (arrange (orders f line) m)) as [x Hx]; [etransitivity; [symmetry; exact P|exact H]|].
    specialize (Hx []). rewrite app_nil_r in Hx. exists x, x. destruct (aux (orders f line)); cbn [with_ord ord_u ord_w]; rewrite Hx; eauto.
  - intros (w & u & s' & H). destruct (aux (orders f line)); cbn [with_ord ord_u ord_w] in H;
      (destruct (shuffle _ _) as [p x] eqn:Sh in H; injection H as <- <-; apply shuffle_perm in Sh; etransitivity; [exact P|exact Sh]).
Qed.

(** *** Concrete runs of the text: the recursive person validator of Cases.v *)
Definition never : string -> bool := fun _ => false.
Example person_canonical : Deep env1 canonical root /\ in_order ann /\ in_order dup.
Proof.
  split; [|split; apply order_test_sound; reflexivity].
  apply Deep_list with (S := parts); [cbn; auto|apply parts_closed|].
  intros x Hx. parts_cases Hx; try exact I; try (apply order_test_sound; reflexivity).
  vm_compute. repeat constructor.
Qed.
Example ann_source :
  src_validate env1 never orders 8 root ann [] [] = Some (Pass, ann', [], []) /\
  src_validate env1 never orders 8 root ann' [2; 1; 1]%nat [3; 1]%nat = Some (Pass, ann', [], []) /\
  exists m v' u', src_validate env1 never orders 8 root dup [] [] = Some (Fail m, v', [], u').
Proof. split; [vm_compute; reflexivity|]. split; [vm_compute; reflexivity|]. do 3 eexists. vm_compute. reflexivity. Qed.
Example ann_source_runs w u : exists v', SrcRuns env1 never root ann w u Pass v'.
Proof.
  destruct person_canonical as (Hc & Hv & _). destruct person_terminates as (F & G & Sm).
  destruct (source_terminates env1 never root ann w u Hc Hv F G Sm) as (r & v' & R).
  destruct (source_documented env1 never root ann w u r v' Hc person_regular (proj1 ann_doc) R) as [[-> _]|[_ [_ N]]]; [now exists v'|].
  destruct N. exact (proj1 ann_satisfies).
Qed.
(** a default assigned to a Maybe field of a struct behind a pointer; the same struct
    without the pointer; a required name *)
Example struct_source :
  src_validate (env0 no_refs) never orders 3 (CObj person_defaults) (person_ptr (StructCases.person (MString false "") 3)) [] [] =
    Some (Pass, person_ptr (StructCases.person (MString true "bob") 3), [], []) /\
  (exists m, src_validate (env0 no_refs) never orders 3 (CObj person_defaults) (GStruct "Person" (StructCases.person (MString false "") 3)) [] [] =
    Some (Panic m, GStruct "Person" (StructCases.person (MString false "") 3), [], [])) /\
  src_validate (env0 no_refs) never orders 3 (CObj (obj_required ["name"] person_schema)) (person_ptr (StructCases.person (MString false "") 3)) [] [] =
    Some (Fail "object property 'name' is required", person_ptr (StructCases.person (MString false "") 3), [], []).
Proof. split; [|split; [eexists|]]; vm_compute; reflexivity. Qed.
Example struct_canonical : Deep (env0 no_refs) canonical (CObj person_defaults) /\ in_order (person_ptr (StructCases.person (MString false "") 3)).
Proof.
  split; [|apply order_test_sound; reflexivity].
  apply Deep_list with (S := [CObj person_defaults; integer; str_def (gstr "bob"); CNil]); [cbn; auto| |].
  - intros x [<-|[<-|[<-|[<-|[]]]]]; cbn; intros y Hy; cbn in Hy |- *; intuition.
  - intros x [<-|[<-|[<-|[<-|[]]]]]; try exact I; [vm_compute; repeat constructor|apply io_leaf; reflexivity].
Qed.
