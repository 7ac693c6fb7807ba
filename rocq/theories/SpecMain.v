(** Soundness of Validate for the declarative meaning, and uniqueness of that meaning:
    a constraint cannot both accept and reject a value, and accepts it with one result. *)
From Verif Require Import Base GoFloat GoValue Maybe Formats Constraint StructInfo Validate Fuel Reach ReadOnly Spec SpecSound SpecObj.
Open Scope Z_scope.

Lemma wf_child E c x : In x (children E c) -> x <> CNil -> wf E c -> wf E x.
Proof. intros H N [_ D]. split; auto. eapply Deep_child; eauto. Qed.

Lemma wf_here E c : wf E c -> node_ok E c /\ node_quiet E c.
Proof. intros [N D]. destruct (Deep_here _ _ _ D); [contradiction|auto]. Qed.

Lemma get_default_panic E n : forall c, wf E c -> get_default n E c <> DPanic.
Proof.
  induction n as [|n IH]; intros c W; cbn [get_default]; [discriminate|].
  destruct c; try discriminate; try (destruct d; discriminate).
  - destruct W; congruence.
  - destruct (e_refs E name) as [c'|] eqn:Rf; [|discriminate]. apply IH.
    pose proof (proj1 (wf_here _ _ W)) as NO. cbn in NO.
    eapply wf_child; [eapply child_ref; eauto|congruence|exact W].
Qed.

Lemma jdoc_in T i l : jdoc (GSlice T i (Some l)) -> forall x, In x l -> jdoc x.
Proof. inversion 1; auto. Qed.

Theorem validate_sound E n : forall c v w r v' w', wf E c -> jdoc v ->
  validate n E c v w = (r, v', w') ->
  match r with
  | Pass => sem n E c v (Some v') /\ jdoc v'
  | Fail _ => sem n E c v None
  | Panic _ => False
  | OOF => True
  end.
Proof.
  induction n as [|n IH]; intros c v w r v' w' W J HV.
  { cbn in HV. injection HV as <- <- <-. exact I. }
  pose proof (wf_here _ _ W) as [NO NQ].
  assert (KP : forall c x w r x' w', pure E c -> validate n E c x w = (r, x', w') -> x' = x)
    by (intros; eapply validate_readonly; eauto).
  assert (WL : forall l, (forall x, In x l -> In x (children E c)) -> ~ In CNil l -> Forall (wf E) l).
  { intros l Hl Nl. apply Forall_forall. intros x Hx. eapply wf_child; eauto. intros ->. contradiction. }
  destruct (scalar_c c) eqn:SC.
  { destruct (scalar_spec n E c v w SC NO J) as (r0 & Hr & HS).
    rewrite Hr in HV. injection HV as <- <- <-.
    destruct r0; auto; destruct c; try discriminate; cbn [sem]; auto. }
  assert (G : good False (validate (S n) E c v w) (fun v' => sem (S n) E c v (Some v') /\ jdoc v') (sem (S n) E c v None)).
  2:{ rewrite HV in G. destruct r; exact G. }
  clear HV r v' w'.
  destruct c; try discriminate; cbn [validate].
  - destruct W; congruence.
  - cbn. auto.
  - apply (arr_sound E (fun c v v' => sem n E c v (Some v')) (fun c v => sem n E c v None) (validate n E) (wf E) jdoc False); auto using jd_slice; try exact jdoc_in.
    + intros N. eapply wf_child; eauto using child_items.
    + intros N. eapply wf_child; eauto using child_aadd.
    + apply WL; auto. intros x Hx. now apply child_pos.
  - cbn [node_ok] in NO. destruct NO as (S1 & S2 & S3 & S4).
    destruct J as [| | | | | | | |T ET m Sm Jm]; try (cbn; reflexivity).
    apply (obj_sound_map E (fun c v v' => sem n E c v (Some v')) (fun c v => sem n E c v None) (validate n E) (wf E) jdoc False); auto.
    + intros; eapply get_default_sound; eauto.
    + intros; eapply get_default_none; eauto.
    + intros c W' HP. now apply (get_default_panic E n c W').
    + intros m' [H1 H2]. now constructor.
    + split; auto.
    + intros k c Hk. eapply wf_child; eauto using child_prop.
    + intros k c Hk. eapply wf_child; eauto using child_pat.
    + intros N. eapply wf_child; eauto using child_add.
    + intros k N. split; [|now apply NQ]. eapply wf_child; eauto using child_sdep.
  - pose proof (any_loop_sound E (fun c v v' => sem n E c v (Some v')) (fun c v => sem n E c v None) (validate n E) (wf E) jdoc False IH KP l) as AL.
    assert (F1 : Forall (wf E) l) by (apply WL; auto).
    assert (F2 : Forall (pure E) l) by (now apply Forall_forall).
    specialize (AL F1 F2 v w J). destruct (any_loop _ l v w) as [[[] ?] ?]; cbn [good] in *; auto.
    destruct AL as [-> HA]. split; auto. cbn. auto.
  - pose proof (all_loop_sound (fun c v v' => sem n E c v (Some v')) (fun c v => sem n E c v None) (validate n E) (wf E) jdoc False IH l) as AL.
    assert (F1 : Forall (wf E) l) by (apply WL; auto).
    specialize (AL F1 v w J). destruct (all_loop _ l v w) as [[[] ?] ?]; cbn [good] in *; auto.
  - pose proof (oneof_loop_sound E (fun c v v' => sem n E c v (Some v')) (fun c v => sem n E c v None) (validate n E) (wf E) jdoc False IH KP l) as AL.
    assert (F1 : Forall (wf E) l) by (apply WL; auto).
    assert (F2 : Forall (pure E) l) by (now apply Forall_forall).
    specialize (AL F1 F2 0%nat v w J). destruct (oneof_loop _ l 0 v w) as [[[] ?] ?]; cbn [good] in *; auto.
    + destruct AL as [-> [[? _]|[_ HA]]]; [discriminate|]. split; auto. cbn. auto.
    + cbn. destruct AL as [[_ H]|[[_ H]|[[H _]|H]]]; auto; try discriminate; lia.
  - pose proof (not_sound E (fun c v v' => sem n E c v (Some v')) (fun c v => sem n E c v None) (validate n E) (wf E) jdoc False IH KP c v w) as AL.
    assert (F1 : c <> CNil -> wf E c) by (intros; eapply wf_child; eauto; cbn; auto).
    specialize (AL F1 NQ J). destruct (not_validate _ c v w) as [[[] ?] ?]; cbn [good] in *; auto.
    destruct AL as [-> ?]. split; auto. cbn. auto.
  - cbn [node_ok] in NO. cbn [sem]. destruct (e_refs E name) as [c'|] eqn:Rf; [|cbn; reflexivity].
    assert (W' : wf E c') by (eapply wf_child; [eapply child_ref; eauto|congruence|exact W]).
    destruct (validate n E c' v w) as [[r v1] w1] eqn:HV. exact (IH _ _ _ _ _ _ W' J HV).
Qed.

(** ** Monotonicity in the height *)
Section Mono.
  Variables (E : env) (A A' : constr -> gval -> gval -> Prop) (R R' : constr -> gval -> Prop).
  Hypothesis HA : forall c v v', A c v v' -> A' c v v'.
  Hypothesis HR : forall c v, R c v -> R' c v.

  Lemma Chain_mono l v v' : Chain A l v v' -> Chain A' l v v'.
  Proof. induction 1; econstructor; eauto. Qed.

  Lemma arr_mono a v o : arr_sem A R E a v o -> arr_sem A' R' E a v o.
  Proof.
    unfold arr_sem. destruct v; auto. destruct o.
    - intros (H1 & H2 & H3 & l' & H4 & H5 & H6). splits; auto. exists l'. splits; auto.
      intros. eapply Chain_mono; eauto.
    - intros [H|[H|[H|(j & x & c1 & c & c2 & x1 & H1 & H2 & H3 & H4)]]]; auto.
      right. right. right. exists j, x, c1, c, c2, x1. splits; auto. now apply Chain_mono.
  Qed.

  Lemma props_mono o m m1 : props_sem A E o m m1 -> props_sem A' E o m m1.
  Proof.
    intros (H1 & H2 & H3 & H4). unfold props_sem. splits; auto.
    intros k x Hx. destruct (H3 k x Hx) as (c & x' & G1 & G2 & G3). exists c, x'. auto.
  Qed.

  Lemma obj_mono' o v out : obj_sem A R E o v out -> obj_sem A' R' E o v out.
  Proof.
    unfold obj_sem. destruct v; auto. destruct m; auto. destruct out.
    - intros (m1 & H1 & H2 & H3 & H4). exists m1. splits; auto. now apply props_mono.
    - intros [H|[H|[H|[(k & c & x & H1 & H2 & H3)|[H|(k & m1 & H1 & H2 & H3 & H4 & H5)]]]]]; auto.
      + right. right. right. left. exists k, c, x. auto.
      + right. right. right. right. left. auto.
      + right. right. right. right. right. exists k, m1. splits; auto. now apply props_mono.
  Qed.
End Mono.

Lemma sem_step E n : forall c v o, sem n E c v o -> sem (S n) E c v o.
Proof.
  induction n as [|n IH]; intros c v o H; [destruct H|].
  assert (IA : forall c v v', sem n E c v (Some v') -> sem (S n) E c v (Some v')) by auto.
  assert (IR : forall c v, sem n E c v None -> sem (S n) E c v None) by auto.
  destruct c; try exact H.
  - change (arr_sem (fun c v v' => sem (S n) E c v (Some v')) (fun c v => sem (S n) E c v None) E a v o).
    eapply arr_mono; [exact IA|exact IR|exact H].
  - change (obj_sem (fun c v v' => sem (S n) E c v (Some v')) (fun c v => sem (S n) E c v None) E o0 v o).
    eapply obj_mono'; [exact IA|exact IR|exact H].
  - cbn in H. change (match o with
          | Some v' => v' = v /\ exists x, In x l /\ sem (S n) E x v (Some v)
          | None => forall x, In x l -> sem (S n) E x v None end).
    destruct o; [|auto]. destruct H as [-> (x & H1 & H2)]. split; auto. exists x. auto.
  - cbn in H. change (match o with
          | Some v' => Chain (fun c v v' => sem (S n) E c v (Some v')) l v v'
          | None => exists l1 x l2 v1, l = l1 ++ x :: l2 /\ Chain (fun c v v' => sem (S n) E c v (Some v')) l1 v v1 /\ sem (S n) E x v1 None
          end).
    destruct o; [eapply Chain_mono; [exact IA|exact H]|].
    destruct H as (l1 & x & l2 & v1 & H1 & H2 & H3). exists l1, x, l2, v1. splits; auto.
    eapply Chain_mono; [exact IA|exact H2].
  - cbn in H. change (match o with
          | Some v' => v' = v /\ exists l1 x l2, l = l1 ++ x :: l2 /\ sem (S n) E x v (Some v) /\
                       forall y, In y (l1 ++ l2) -> sem (S n) E y v None
          | None => (forall x, In x l -> sem (S n) E x v None) \/
                    (exists l1 x l2 y l3, l = l1 ++ x :: l2 ++ y :: l3 /\ sem (S n) E x v (Some v) /\ sem (S n) E y v (Some v))
          end).
    destruct o.
    + destruct H as [-> (l1 & x & l2 & H1 & H2 & H3)]. split; auto. exists l1, x, l2. splits; auto.
    + destruct H as [H|(l1 & x & l2 & y & l3 & H1 & H2 & H3)]; [left; auto|right]. exists l1, x, l2, y, l3. splits; auto.
  - cbn in H. change (match o with
          | Some v' => v' = v /\ sem (S n) E c v None
          | None => c = CNil \/ sem (S n) E c v (Some v)
          end).
    destruct o; [destruct H; auto|destruct H; auto].
  - cbn in H. change (match e_refs E name with None => o = None | Some x => sem (S n) E x v o end).
    destruct (e_refs E name); auto.
Qed.

Lemma sem_mono E n m c v o : (n <= m)%nat -> sem n E c v o -> sem m E c v o.
Proof. induction 1; auto. intros H'. apply sem_step. auto. Qed.

Lemma nth_error_ext' {X} (l : list X) : forall l', List.length l = List.length l' ->
  (forall j x y, nth_error l j = Some x -> nth_error l' j = Some y -> x = y) -> l = l'.
Proof.
  induction l as [|a l IH]; intros [|b l'] HL H; try discriminate; auto. f_equal.
  - exact (H 0%nat a b eq_refl eq_refl).
  - apply IH; [cbn in HL; lia|]. intros j. exact (H (S j)).
Qed.

(** ** Uniqueness *)
Section Uniq.
  Variables (E : env) (A : constr -> gval -> gval -> Prop) (R : constr -> gval -> Prop) (P : constr -> Prop).
  Hypothesis UA : forall c v v1 v2, P c -> A c v v1 -> A c v v2 -> v1 = v2.
  Hypothesis UR : forall c v v1, P c -> A c v v1 -> R c v -> False.

  Lemma Chain_det l : Forall P l -> forall v v1 v2, Chain A l v v1 -> Chain A l v v2 -> v1 = v2.
  Proof.
    induction 1 as [|c l Hc H IH]; intros v v1 v2 H1 H2; inversion H1; inversion H2; subst; auto.
    match goal with H1 : A ?c ?v ?a, H2 : A ?c ?v ?b |- _ => assert (a = b) by (eapply UA; [|exact H1|exact H2]; assumption); subst end. eauto.
  Qed.

  Lemma Chain_stuck l1 x l2 : Forall P (l1 ++ x :: l2) -> forall v v1 v2,
    Chain A (l1 ++ x :: l2) v v2 -> Chain A l1 v v1 -> R x v1 -> False.
  Proof.
    induction l1 as [|c l1 IH]; cbn; intros F v v1 v2 H1 H2 HR; inversion F; subst.
    - inversion H2; subst. inversion H1; subst. eauto.
    - inversion H1; inversion H2; subst. match goal with H1 : A ?c ?v ?a, H2 : A ?c ?v ?b |- _ => assert (a = b) by (eapply UA; [|exact H1|exact H2]; assumption); subst end. eapply IH; eauto.
  Qed.

  Lemma oneof_split l : forall l1 (z : constr) l2 k1 x k2 y k3,
    l = l1 ++ z :: l2 -> l = k1 ++ x :: k2 ++ y :: k3 -> In x (l1 ++ l2) \/ In y (l1 ++ l2).
  Proof.
    induction l as [|a l IH]; intros l1 z l2 k1 x k2 y k3 H1 H2; [destruct l1; discriminate|].
    destruct l1 as [|b l1], k1 as [|d k1]; cbn [app] in *; injection H1 as E1 H1; injection H2 as E2 H2.
    - right. rewrite <- H1, H2, in_app_iff. cbn. auto.
    - left. rewrite <- H1, H2, in_app_iff. cbn. auto.
    - left. left. congruence.
    - destruct (IH _ _ _ _ _ _ _ _ H1 H2) as [H|H]; [left|right]; now right.
  Qed.

  Variable o : objcfg.
  Hypothesis ND : node_single E (CObj o).
  Hypothesis Pg : forall k c, governs E o k c -> P c.
  Hypothesis Ps : forall k, schema_dep o k <> CNil -> P (schema_dep o k).

  Lemma governs_det k c1 c2 : governs E o k c1 -> governs E o k c2 -> c1 = c2.
  Proof.
    unfold governs. cbn in ND. destruct (sget k (o_props o)) eqn:S; [congruence|].
    intros [(p1 & H1 & R1)|(N1 & -> & _)] [(p2 & H2 & R2)|(N2 & -> & _)]; auto.
    - eauto.
    - rewrite (N2 _ _ H1) in R1. discriminate.
    - rewrite (N1 _ _ H2) in R2. discriminate.
  Qed.

  Lemma filled_det c o1 o2 : filled E c o1 -> filled E c o2 -> o1 = o2.
  Proof.
    intros [(d1 & D1 & ->)|[N1 ->]] [(d2 & D2 & ->)|[N2 ->]]; auto.
    - now rewrite (Default_det _ _ _ D1 _ D2).
    - now apply N2 in D1.
    - now apply N1 in D2.
  Qed.

  Lemma props_det m m1 m2 : props_sem A E o m m1 -> props_sem A E o m m2 -> m1 = m2.
  Proof.
    intros (_ & S1 & H1 & G1) (_ & S2 & H2 & G2). apply ssorted_ext; auto. intros k.
    destruct (sget k m) as [x|] eqn:Hx.
    - destruct (H1 k x Hx) as (c1 & x1 & D1 & -> & A1). destruct (H2 k x Hx) as (c2 & x2 & D2 & -> & A2).
      rewrite (governs_det k c1 c2 D1 D2) in *. f_equal. eauto.
    - specialize (G1 k Hx). specialize (G2 k Hx). destruct (sget k (o_props o)); [|congruence].
      destruct G1, G2. eapply filled_det; eauto.
  Qed.

  Lemma obj_det v v1 v2 : obj_sem A R E o v (Some v1) -> obj_sem A R E o v (Some v2) -> v1 = v2.
  Proof.
    unfold obj_sem. destruct v; try discriminate. destruct m; [|discriminate].
    intros (m1 & -> & H1 & _) (m2 & -> & H2 & _). now rewrite (props_det _ _ _ H1 H2).
  Qed.

  Lemma obj_excl v v1 : obj_sem A R E o v (Some v1) -> obj_sem A R E o v None -> False.
  Proof.
    unfold obj_sem. destruct v; try discriminate. destruct m as [m|]; [|discriminate].
    intros (m1 & -> & PS & D1 & D2) H. pose proof PS as (C0 & S0 & H1 & H2).
    destruct H as [H|[(k & K1 & K2 & K3)|[(k & K1 & K2)|[(k & c & x & K1 & K2 & K3)|[(k & d & K1 & K2 & K3)|(k & m2 & K1 & K2 & K3 & K4 & K5)]]]]].
    - contradiction.
    - specialize (H2 k K2). apply sget_some_keys in K1. destruct K1 as [c Hc]. rewrite Hc in H2. destruct H2; congruence.
    - apply sget_some_keys in K1. destruct K1 as [x Hx]. destruct (H1 k x Hx) as (c & x' & G & _). eapply K2; eauto.
    - destruct (H1 k x K2) as (c2 & x2 & G & _ & A2). rewrite (governs_det k c2 c G K1) in *. eauto.
    - eauto.
    - rewrite (props_det _ _ _ K1 PS) in *. eapply UR; eauto.
  Qed.
End Uniq.

Lemma governs_child E o k c : governs E o k c -> In c (children E (CObj o)).
Proof.
  unfold governs. destruct (sget k (o_props o)) eqn:S.
  - intros ->. eapply child_prop, sget_in; eauto.
  - intros [(p & H & _)|(_ & -> & _)]; [eapply child_pat; eauto|apply child_add].
Qed.

Theorem sem_unique E n : forall c, single E c -> forall v v1,
  sem n E c v (Some v1) ->
  (forall v2, sem n E c v (Some v2) -> v1 = v2) /\ ~ sem n E c v None.
Proof.
  induction n as [|n IH]; intros c SG v v1 H1; [destruct H1|].
  assert (UA : forall c v v1 v2, single E c -> sem n E c v (Some v1) -> sem n E c v (Some v2) -> v1 = v2)
    by (intros c0 v0 va vb S0 Ha Hb; exact (proj1 (IH c0 S0 v0 va Ha) vb Hb)).
  assert (UR : forall c v v1, single E c -> sem n E c v (Some v1) -> sem n E c v None -> False)
    by (intros c0 v0 va S0 Ha Hb; exact (proj2 (IH c0 S0 v0 va Ha) Hb)).
  assert (SL : forall l, (forall x, In x l -> In x (children E c)) -> Forall (single E) l).
  { intros l Hl. apply Forall_forall. intros x Hx. eapply Deep_child; [apply Hl, Hx|exact SG]. }
  pose proof (Deep_here _ _ _ SG) as NS.
  destruct (scalar_c c) eqn:SC.
  { assert (HS : v1 = v /\ scalar_ok E c v) by (destruct c; try discriminate; exact H1).
    destruct HS as [-> HS]. split.
    - intros v2 H2. assert (v2 = v /\ scalar_ok E c v) by (destruct c; try discriminate; exact H2). symmetry. tauto.
    - intros H2. apply (fun H : ~ scalar_ok E c v => H HS). destruct c; try discriminate; exact H2. }
  destruct c; try discriminate; try (destruct H1; fail).
  - cbn in H1. injection H1 as ->. split; [intros v2 H2; cbn in H2; congruence|cbn; discriminate].
  - cbn [sem] in *. unfold arr_sem in *. destruct v; try (discriminate H1).
    set (l0 := match l with None => [] | Some x => x end) in *. set (k := List.length l0) in *.
    destruct H1 as (B1 & B2 & B3 & l' & -> & B5 & B6).
    assert (FE : forall j, Forall (single E) (elem_cs a k j)).
    { intros j. apply SL. intros x Hx. unfold elem_cs in Hx.
      assert (HI : In x [a_items a] \/ In x (a_pos a) \/ x = a_add a).
      { destruct (a_items a); try (left; exact Hx).
        apply in_app_or in Hx. destruct Hx as [Hx|Hx].
        - destruct (nth_error (a_pos a) j) eqn:Nj; [|destruct Hx]. destruct Hx as [<-|[]]. right. left. eapply nth_error_In; eauto.
        - destruct (_ && _); [destruct Hx as [<-|[]]; auto|destruct Hx]. }
      destruct HI as [HI|[HI|HI]]; [destruct HI as [<-|[]]; apply child_items|now apply child_pos|subst; apply child_aadd]. }
    split.
    + intros v2 (_ & _ & _ & l2 & -> & C5 & C6). f_equal. destruct l as [lx|]; auto. f_equal.
      apply nth_error_ext'. congruence. intros j x1 x2 N1 N2.
      destruct (nth_error l0 j) as [x|] eqn:N0.
      * eapply Chain_det; [exact UA|apply (FE j)|eapply B6; eauto|eapply C6; eauto].
      * exfalso. apply nth_error_None in N0. fold k in N0.
        assert (nth_error l' j <> None) by congruence. apply nth_error_Some in H. lia.
    + intros [H|[[H2 H3]|[H|(j & x & c1 & c & c2 & x1 & H2 & H3 & H4 & H5)]]]; auto.
      assert (N1 : nth_error l' j <> None).
      { apply nth_error_Some. rewrite B5. unfold k. apply nth_error_Some. congruence. }
      destruct (nth_error l' j) as [x'|] eqn:Nj; [|congruence].
      pose proof (B6 j x x' H2 Nj) as CH. pose proof (FE j) as FJ. rewrite H3 in CH, FJ.
      eapply Chain_stuck; [exact UA|exact UR|exact FJ|exact CH|exact H4|exact H5].
  - assert (GC : forall k c, governs E o k c -> single E c).
    { intros k c Hg. eapply Deep_child; [eapply governs_child; eauto|exact SG]. }
    assert (SC2 : forall k, schema_dep o k <> CNil -> single E (schema_dep o k)).
    { intros k Hk. eapply Deep_child; [now apply child_sdep|exact SG]. }
    split.
    + intros v2 H2. eapply (obj_det E); [exact UA|exact NS|exact GC|exact H1|exact H2].
    + intros H2. eapply (obj_excl E); [exact UA|exact UR|exact NS|exact GC|exact SC2|exact H1|exact H2].
  - destruct H1 as [-> (x & Hx & HA)]. split.
    + intros v2 [-> _]. auto.
    + intros H2. specialize (SL l (fun x H => H)). rewrite Forall_forall in SL. exact (UR x v v (SL x Hx) HA (H2 x Hx)).
  - specialize (SL l (fun x H => H)). split.
    + intros v2 H2. eapply Chain_det; [exact UA|exact SL|exact H1|exact H2].
    + intros (l1 & x & l2 & v2 & -> & HC & HR). eapply Chain_stuck; [exact UA|exact UR|exact SL|exact H1|exact HC|exact HR].
  - destruct H1 as [-> (l1 & x & l2 & Hl & HA & HR)]. split.
    + intros v2 [-> _]. auto.
    + specialize (SL l (fun x H => H)). rewrite Forall_forall in SL.
      intros [H2|(k1 & y & k2 & z & k3 & Hl2 & Ay & Az)].
      * eapply UR; [apply SL|exact HA|apply H2]; rewrite Hl; apply in_or_app; right; now left.
      * assert (IY : In y l) by (rewrite Hl2; apply in_or_app; right; now left).
        assert (IZ : In z l) by (rewrite Hl2; apply in_or_app; right; right; apply in_or_app; right; now left).
        destruct (oneof_split l _ _ _ _ _ _ _ _ Hl Hl2) as [Hy|Hz].
        -- eapply UR; [exact (SL y IY)|exact Ay|auto].
        -- eapply UR; [exact (SL z IZ)|exact Az|auto].
  - destruct H1 as [-> HR]. split.
    + intros v2 [-> _]. auto.
    + intros [->|HA].
      * destruct n; cbn in HR; auto.
      * eapply UR; [|exact HA|exact HR]. eapply Deep_child; [|exact SG]. cbn; auto.
  - cbn [sem] in *. destruct (e_refs E name) as [c'|] eqn:Rf; [|discriminate].
    apply IH; auto. eapply Deep_child; [eapply child_ref; eauto|exact SG].
Qed.

Lemma Accepts_det E c v v1 v2 : single E c -> Accepts E c v v1 -> Accepts E c v v2 -> v1 = v2.
Proof.
  intros S [n H1] [m H2].
  apply (sem_mono E n (Nat.max n m)) in H1; [|lia]. apply (sem_mono E m (Nat.max n m)) in H2; [|lia].
  eapply sem_unique; eauto.
Qed.

Lemma Accepts_Rejects E c v v1 : single E c -> Accepts E c v v1 -> ~ Rejects E c v.
Proof.
  intros S [n H1] [m H2].
  apply (sem_mono E n (Nat.max n m)) in H1; [|lia]. apply (sem_mono E m (Nat.max n m)) in H2; [|lia].
  eapply sem_unique; eauto.
Qed.

(** a finished run decides the declarative meaning *)
Theorem run_pass E c v w v' w' : wf E c -> jdoc v -> Runs E c v w (Pass, v', w') -> Accepts E c v v'.
Proof. intros W J (n & H & _). exists n. eapply validate_sound in H; eauto. apply H. Qed.

Theorem run_fail E c v w m v' w' : wf E c -> jdoc v -> Runs E c v w (Fail m, v', w') -> Rejects E c v.
Proof. intros W J (n & H & _). exists n. eapply validate_sound in H; eauto. Qed.

Theorem run_no_panic E c v w m v' w' : wf E c -> jdoc v -> ~ Runs E c v w (Panic m, v', w').
Proof. intros W J (n & H & _). eapply validate_sound in H; eauto. Qed.
