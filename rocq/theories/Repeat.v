(** Order independence (C02), the wrapper JSVal.Validate (C50), and repeatability (C52). *)
From Verif Require Import Base GoFloat GoValue Maybe Formats Constraint StructInfo Validate Fuel Reach ReadOnly Frame Spec SpecSound SpecMain Refuted.
Open Scope Z_scope.

(** ** C02 *)
Theorem order_independent E c v w1 w2 r1 r2 v1 v2 w1' w2' : wf E c -> single E c -> jdoc v ->
  Runs E c v w1 (r1, v1, w1') -> Runs E c v w2 (r2, v2, w2') ->
  (r1 = Pass <-> r2 = Pass) /\ (r1 = Pass -> v1 = v2).
Proof.
  intros W S J R1 R2.
  assert (K : forall r v' w w', Runs E c v w (r, v', w') ->
    (r = Pass /\ Accepts E c v v') \/ (r <> Pass /\ Rejects E c v)).
  { intros r v' w w' R. destruct r; [left|right|exfalso|].
    - split; auto. eapply run_pass; eauto.
    - split; [discriminate|]. eapply run_fail; eauto.
    - eapply run_no_panic; eauto.
    - destruct R as (? & _ & N). exfalso. apply N. reflexivity. }
  destruct (K _ _ _ _ R1) as [[-> A1]|[N1 B1]], (K _ _ _ _ R2) as [[-> A2]|[N2 B2]].
  - split; [tauto|]. intros _. eapply Accepts_det; eauto.
  - destruct (Accepts_Rejects _ _ _ _ S A1 B2).
  - destruct (Accepts_Rejects _ _ _ _ S A2 B1).
  - split; [tauto|]. tauto.
Qed.

(** ** C50 *)
Theorem jsval_verdict E name addr root v w r v' w' : Runs E root v w (r, v', w') ->
  exists n, jsval_validate n E name addr root v w =
    (match r with
     | Fail m => Fail ("validator " +++ (if String.eqb name "" then addr else name) +++ " failed: " +++ m)
     | _ => r
     end, v', w').
Proof.
  intros (n & H & _). exists n. unfold jsval_validate. rewrite H.
  destruct r; auto. now destruct name.
Qed.

Theorem jsval_no_root n E name addr v w : n <> O ->
  exists m, jsval_validate n E name addr CNil v w = (Panic m, v, w).
Proof. destruct n; [congruence|]. eexists. reflexivity. Qed.

(** ** C52 *)
(** accepted documents stay documents *)
Lemma elem_child E a n j x : In x (elem_cs a n j) -> In x (children E (CArr a)).
Proof.
  unfold elem_cs. intros Hx.
  assert (HI : In x [a_items a] \/ In x (a_pos a) \/ x = a_add a).
  { destruct (a_items a); try (left; exact Hx).
    apply in_app_or in Hx. destruct Hx as [Hx|Hx].
    - destruct (nth_error (a_pos a) j) eqn:Nj; [|destruct Hx]. destruct Hx as [<-|[]]. right. left. eapply nth_error_In; eauto.
    - destruct (_ && _); [destruct Hx as [<-|[]]; auto|destruct Hx]. }
  destruct HI as [HI|[HI|HI]]; [destruct HI as [<-|[]]; apply child_items|now apply child_pos|subst; apply child_aadd].
Qed.

Lemma chain_keeps (P : gval -> Prop) (A : constr -> gval -> gval -> Prop) l :
  (forall c v v', In c l -> P v -> A c v v' -> P v') -> forall v v', P v -> Chain A l v v' -> P v'.
Proof.
  induction l as [|c l IH]; intros H v v' Pv C; inversion C; subst; auto.
  eapply IH; [|eapply H; [now left|exact Pv|eassumption]|eassumption].
  intros c' a b I. apply H. now right.
Qed.

Lemma sem_jdoc E n : forall c v v', Deep E (fun x => x = CNil \/ node_ok E x) c -> jdoc v -> sem n E c v (Some v') -> jdoc v'.
Proof.
  induction n as [|n IH]; intros c v v' D J H; [destruct H|].
  assert (CH : forall x a b, In x (children E c) -> jdoc a -> sem n E x a (Some b) -> jdoc b).
  { intros x a b I Ja. apply IH; auto. eapply Deep_child; eauto. }
  destruct c; cbn [sem] in H; try (destruct H; fail); try (destruct H as [-> _]; exact J).
  - now injection H as ->.
  - unfold arr_sem in H. destruct v; try discriminate. destruct H as (_ & _ & _ & l' & -> & L & Q).
    destruct l as [l|]; [|constructor]. inversion J as [| | | | | | |? ? ? JL|]; subst. constructor. intros x' Hx.
    apply In_nth_error in Hx as [j Hj].
    destruct (nth_error l j) as [x|] eqn:Hl.
    + eapply chain_keeps; [|eapply JL, nth_error_In; exact Hl|eapply Q; eauto].
      intros c a0 b I Ja. apply CH; auto. eapply elem_child; eauto.
    + apply nth_error_None in Hl. assert (nth_error l' j <> None) as K by congruence.
      apply nth_error_Some in K. lia.
  - unfold obj_sem in H. destruct v; try discriminate. destruct m as [m|]; [|discriminate].
    destruct H as (m1 & -> & (_ & SS & K1 & K2) & _).
    inversion J as [| | | | | | | |? ? ? _ JM]; subst. constructor; auto. intros k x' Hk.
    destruct (sget k m) as [x|] eqn:Hm.
    + destruct (K1 k x Hm) as (c & y & G & Y & AA). rewrite Hk in Y. injection Y as <-.
      eapply (CH c x); [eapply governs_child; eauto|eapply JM; exact Hm|exact AA].
    + specialize (K2 k Hm). destruct (sget k (o_props o)) as [p|] eqn:Hp; [|congruence].
      destruct K2 as [_ [(d & Df & Ed)|[_ Ed]]]; [|congruence].
      assert (x' = d) as -> by (destruct d; congruence).
      destruct (Deep_here _ _ _ D) as [X|(_ & _ & _ & Q)]; [discriminate|]. eapply Q; eauto using sget_in.
  - eapply chain_keeps; [|exact J|exact H]. intros c a b I. now apply CH.
  - destruct (e_refs E name) as [x|] eqn:Rf; [|discriminate].
    eapply CH; [eapply child_ref; exact Rf|exact J|exact H].
Qed.

(** a constraint below which no default is declared leaves documents alone *)
Lemma pure_same E n : forall c v v', pure E c -> jdoc v -> sem n E c v (Some v') -> v' = v.
Proof.
  induction n as [|n IH]; intros c v v' P J H; [destruct H|].
  assert (CH : forall x a b, In x (children E c) -> jdoc a -> sem n E x a (Some b) -> b = a).
  { intros x a b I Ja. apply IH; auto. intros d Hd. apply (P d). eapply declared_child; eauto. }
  assert (LK : forall l a b, (forall x, In x l -> In x (children E c)) -> jdoc a ->
     Chain (fun c v v' => sem n E c v (Some v')) l a b -> b = a).
  { intros l a b I Ja C. eapply (chain_keeps (fun z => z = a)); [|reflexivity|exact C].
    intros x y z Ix -> Q. eapply CH; eauto. }
  destruct c; cbn [sem] in H; try (destruct H; fail); try (destruct H as [-> _]; reflexivity).
  - now injection H as ->.
  - unfold arr_sem in H. destruct v; try discriminate. destruct H as (_ & _ & _ & l' & -> & L & Q).
    destruct l as [l|]; [|reflexivity]. f_equal. f_equal. apply nth_error_ext'; auto.
    intros j x' x Hx' Hx. eapply LK; [|inversion J; subst; eauto using nth_error_In|eapply Q; eauto].
    intros c. apply elem_child.
  - unfold obj_sem in H. destruct v; try discriminate. destruct m as [m|]; [|discriminate].
    destruct H as (m1 & -> & (_ & SS & K1 & K2) & _).
    inversion J as [| | | | | | | |? ? ? SM JM]; subst. f_equal. f_equal.
    apply ssorted_ext; auto. intros k.
    destruct (sget k m) as [x|] eqn:Hm.
    + destruct (K1 k x Hm) as (c & y & G & Y & AA). rewrite Y. f_equal.
      eapply (CH c x); [eapply governs_child; eauto|eapply JM; exact Hm|exact AA].
    + specialize (K2 k Hm). destruct (sget k (o_props o)) as [p|] eqn:Hp; [|congruence].
      destruct K2 as [_ [(d & Df & Ed)|[_ Ed]]]; [|congruence].
      destruct (P d). exists o, k, p. eauto using reach_refl, sget_in.
  - eapply LK; [|exact J|exact H]. auto.
  - destruct (e_refs E name) as [x|] eqn:Rf; [|discriminate].
    eapply CH; [eapply child_ref; exact Rf|exact J|exact H].
Qed.

(** Conditions under which validating twice is validating once.
    Objects: a non-nil default satisfies its own constraint; a property with a default has
    no dependency of its own, and its object no maxProperties.  Arrays: no defaults below
    the elements of a uniqueItems array, nor below additionalItems after positional items.
    All: only the first child may insert defaults. *)
Definition node_stable (E : env) (c : constr) : Prop :=
  match c with
  | CObj o => forall k p d, In (k, p) (o_props o) -> Default E p d ->
      (d <> GNil -> Accepts E p d d) /\ o_max o < 0 /\ prop_deps o k = [] /\ schema_dep o k = CNil
  | CArr a => (a_uniq a = true -> pure E c) /\ (a_items a = CNil -> a_pos a <> [] -> pure E (a_add a))
  | CAll (_ :: l) => forall x, In x l -> pure E x
  | _ => True
  end.
Definition stable (E : env) (c : constr) : Prop := Deep E (node_stable E) c.

Lemma bound_all {X} (P : nat -> X -> Prop) (Pm : forall n m x, (n <= m)%nat -> P n x -> P m x) (l : list X) :
  (forall x, In x l -> exists n, P n x) -> exists n, forall x, In x l -> P n x.
Proof.
  induction l as [|a l IH]; intros H; [exists O; intros ? []|].
  destruct IH as [n Hn]; [intros; apply H; now right|]. destruct (H a (or_introl eq_refl)) as [m Hm].
  exists (Nat.max n m). intros x [<-|Hx]; [eapply Pm; [|exact Hm]|eapply Pm; [|apply Hn; exact Hx]]; lia.
Qed.

Lemma chain_stays E n c l v v' :
  (forall x, In x l -> pure E x) -> jdoc v ->
  (forall x, In x (c :: l) -> Deep E (fun x => x = CNil \/ node_ok E x) x) ->
  Chain (fun c v v' => sem n E c v (Some v')) (c :: l) v v' ->
  sem n E c v (Some v') /\ forall x, In x l -> sem n E x v' (Some v').
Proof.
  intros Pu J D C. inversion C as [|? ? ? v1 ? H1 H2]; subst.
  assert (J1 : jdoc v1) by (eapply sem_jdoc; [apply D; now left|exact J|exact H1]).
  assert (K : forall l a b, (forall x, In x l -> pure E x) -> jdoc a ->
    Chain (fun c v v' => sem n E c v (Some v')) l a b -> b = a /\ forall x, In x l -> sem n E x a (Some a)).
  { clear. induction l as [|c l IH]; intros a b Pu J C; inversion C as [|? ? ? v1 ? H1 H2]; subst; [split; auto; intros ? []|].
    assert (v1 = a) as -> by (eapply pure_same; [apply Pu; now left|exact J|exact H1]).
    destruct (IH a b) as [-> Q]; auto. { intros; apply Pu; now right. }
    split; auto. intros x [<-|Hx]; auto. }
  destruct (K l v1 v' Pu J1 H2) as [-> Q]. auto.
Qed.

Lemma chain_same E l : forall (v : gval), (forall x, In x l -> Accepts E x v v) ->
  exists n, Chain (fun c v v' => sem n E c v (Some v')) l v v.
Proof.
  intros v H. destruct (bound_all (fun n x => sem n E x v (Some v))) with (l := l) as [n Hn]; auto.
  { intros. eapply sem_mono; eauto. }
  exists n. induction l as [|c l IH]; [constructor|]. econstructor; [apply Hn; now left|].
  apply IH; intros; [apply H|apply Hn]; now right.
Qed.

Lemma chain_mono E n m l v v' : (n <= m)%nat -> Chain (fun c v v' => sem n E c v (Some v')) l v v' ->
  Chain (fun c v v' => sem m E c v (Some v')) l v v'.
Proof. intros L. induction 1; econstructor; eauto. eapply sem_mono; eauto. Qed.

Theorem stable_again E n : forall c v v', Deep E (fun x => x = CNil \/ node_ok E x) c -> stable E c -> jdoc v ->
  sem n E c v (Some v') -> Accepts E c v' v'.
Proof.
  induction n as [|n IH]; intros c v v' D T J H; [destruct H|].
  assert (CD : forall x, In x (children E c) -> Deep E (fun x => x = CNil \/ node_ok E x) x).
  { intros x I. eapply Deep_child; eauto. }
  assert (CH : forall x a b, In x (children E c) -> jdoc a -> sem n E x a (Some b) -> Accepts E x b b).
  { intros x a b I Ja Q. eapply IH; [now apply CD|eapply Deep_child; eauto|exact Ja|exact Q]. }
  pose proof (Deep_here _ _ _ T) as NT.
  destruct c; try (pose proof H as H0; cbn [sem] in H0; destruct H0 as [-> _]; exists (S n); exact H); try (destruct H; fail).
  - cbn [sem] in H. injection H as ->. exists 1%nat. reflexivity.
  - pose proof H as H0. cbn [sem] in H0. unfold arr_sem in H0. destruct v; try discriminate.
    destruct H0 as (B & U & TM & l' & -> & L & Q). set (l0 := match l with None => [] | Some l => l end) in *.
    destruct l as [l|]; [subst l0|].
    2: { exists (S n). exact H. }
    assert (JL : forall x, In x l -> jdoc x) by (inversion J; auto).
    cbn in NT. destruct NT as [N1 N2].
    destruct (a_uniq a) eqn:AU.
    { assert (EQ : GSlice T0 ifc (Some l') = GSlice T0 ifc (Some l)) by (eapply pure_same; eauto).
      exists (S n). rewrite EQ in *. exact H. }
    (* one bound for all elements *)
    assert (EX : forall j x', nth_error l' j = Some x' ->
      exists m, Chain (fun c v v' => sem m E c v (Some v')) (elem_cs a (List.length l) j) x' x').
    { intros j x' Hx'. apply chain_same.
      destruct (nth_error l j) as [x|] eqn:Hl.
      2: { apply nth_error_None in Hl. assert (nth_error l' j <> None) as K by congruence.
           apply nth_error_Some in K. lia. }
      pose proof (Q j x x' Hl Hx') as C. assert (Jx : jdoc x) by eauto using nth_error_In.
      pose proof (fun y => elem_child E a (List.length l) j y) as EC.
      remember (elem_cs a (List.length l) j) as cs eqn:Ecs.
      destruct cs as [|c1 cs]; [intros ? []|].
      assert (Pu : forall y, In y cs -> pure E y).
      { intros y Hy. unfold elem_cs in Ecs.
        destruct (a_items a) eqn:AI; try (injection Ecs as _ Ecs; subst cs; destruct Hy).
        destruct (nth_error (a_pos a) j) as [cp|] eqn:Np.
        - cbn [app] in Ecs. injection Ecs as <- Ecs. destruct (_ && _); subst cs; [|destruct Hy].
          destruct Hy as [Hy|[]]. subst y. apply N2; auto. intros Z. rewrite Z in Np. destruct j; discriminate.
        - cbn [app] in Ecs. destruct (_ && _); [|discriminate]. injection Ecs as _ Ecs. subst cs. destruct Hy. }
      apply (chain_stays E) in C; auto.
      destruct C as [C1 C2]. intros y [<-|Hy]; [eapply CH; [apply EC; now left|exact Jx|exact C1]|].
      exists n. auto. }
    destruct (bound_all (fun m j => forall x', nth_error l' j = Some x' ->
      Chain (fun c v v' => sem m E c v (Some v')) (elem_cs a (List.length l) j) x' x'))
      with (l := seq 0 (List.length l')) as [m Hm].
    { intros n1 m1 j Hle K x' Hx'. eapply chain_mono; eauto. }
    { intros j Hj. apply in_seq in Hj. destruct (nth_error l' j) as [x'|] eqn:Hx'.
      - destruct (EX j x' Hx') as [m Hm]. exists m. now intros ? [= <-].
      - exists O. discriminate. }
    exists (S m). cbn [sem]. unfold arr_sem. rewrite L. split; [exact B|]. split; [congruence|].
    split; [exact TM|]. exists l'. split; [reflexivity|]. split; [now rewrite L|].
    intros j x x' Hx Hx'. rewrite Hx in Hx'. injection Hx' as <-. apply Hm; auto.
    apply in_seq. assert (nth_error l' j <> None) as K by congruence. apply nth_error_Some in K. lia.
  - pose proof H as H0. cbn [sem] in H0. unfold obj_sem in H0. destruct v; try discriminate.
    destruct m as [m|]; [|discriminate].
    destruct H0 as (m1 & -> & (CO & SS & K1 & K2) & D1 & D2).
    inversion J as [| | | | | | | |? ? ? SM JM]; subst. cbn in NT.
    assert (NEW : forall k x, sget k m1 = Some x -> sget k m = None ->
       exists p, sget k (o_props o) = Some p /\ Default E p x /\ x <> GNil).
    { intros k x Hx Hn. specialize (K2 k Hn). destruct (sget k (o_props o)) as [p|]; [|congruence].
      destruct K2 as [_ [(d & Df & Ed)|[_ Ed]]]; [|congruence]. exists p. split; auto.
      destruct d; try congruence; injection (eq_trans (eq_sym Hx) Ed) as ->; split; auto; discriminate. }
    assert (KI : incl (keys m) (keys m1)).
    { intros k Hk. apply sget_some_keys in Hk as (x & Hx). destruct (K1 k x Hx) as (_ & y & _ & Hy & _).
      apply sget_some_keys. eauto. }
    assert (SE : forall k, seen E o m k -> seen E o m1 k) by (intros k [Hk Q]; split; auto).
    assert (SB : forall k, seen E o m1 k -> seen E o m k \/ prop_deps o k = [] /\ schema_dep o k = CNil).
    { intros k [Hk Q]. destruct (sget k m) as [x|] eqn:Hm.
      - left. split; auto. apply sget_some_keys. eauto.
      - right. apply sget_some_keys in Hk as (x & Hx). destruct (NEW k x Hx Hm) as (p & Hp & Df & _).
        destruct (NT k p x (sget_in _ _ _ Hp) Df) as (_ & _ & ? & ?). auto. }
    assert (CO1 : count_ok o m1).
    { unfold count_ok, within in *. destruct CO as [CO1 CO2].
      assert (LE : (List.length m <= List.length m1)%nat).
      { rewrite <- (map_length fst m), <- (map_length fst m1). apply NoDup_incl_length; [now apply ssorted_nodup|exact KI]. }
      split; [intros; specialize (CO1 ltac:(assumption)); lia|]. intros Hmax. specialize (CO2 Hmax).
      assert (LE2 : (List.length m1 <= List.length m)%nat); [|lia].
      rewrite <- (map_length fst m), <- (map_length fst m1). apply NoDup_incl_length; [now apply ssorted_nodup|].
      intros k Hk. destruct (sget k m) as [x|] eqn:Hm; [apply sget_some_keys; eauto|].
      apply sget_some_keys in Hk as (x & Hx). destruct (NEW k x Hx Hm) as (p & Hp & Df & _).
      destruct (NT k p x (sget_in _ _ _ Hp) Df) as (_ & ? & _). lia. }
    destruct (bound_all (fun b e => exists c, governs E o (fst e) c /\ sem b E c (snd e) (Some (snd e)))) with (l := m1) as [b Hb].
    { intros n1 n2 e Hle (c & G & Q). exists c. split; auto. eapply sem_mono; eauto. }
    { intros [k x] Hk. cbn [fst snd]. apply nodup_sget in Hk; [|now apply ssorted_nodup].
      destruct (sget k m) as [x0|] eqn:Hm.
      - destruct (K1 k x0 Hm) as (c & y & G & Hy & AA). rewrite Hk in Hy. injection Hy as <-.
        destruct (CH c x0 x) as [b Hb]; [eapply governs_child; eauto|eapply JM; exact Hm|exact AA|]. eauto.
      - destruct (NEW k x Hk Hm) as (p & Hp & Df & NN).
        destruct (NT k p x (sget_in _ _ _ Hp) Df) as (Q & _). destruct (Q NN) as [b Hb].
        exists b, p. split; auto. unfold governs. now rewrite Hp. }
    exists (S (Nat.max n b)). cbn [sem]. unfold obj_sem. exists m1. split; [reflexivity|]. split; [|split].
    + split; [exact CO1|]. split; [exact SS|]. split.
      * intros k x Hx. destruct (Hb (k, x) (sget_in _ _ _ Hx)) as (c & G & Q). cbn [fst snd] in *.
        exists c, x. split; auto. split; auto. eapply sem_mono; [|exact Q]. lia.
      * intros k Hk. assert (Hn : sget k m = None).
        { apply sget_none_keys. intros I. apply KI in I. apply sget_none_keys in Hk. contradiction. }
        specialize (K2 k Hn). rewrite Hk in K2. rewrite Hk. exact K2.
    + intros k d Hk Hd. destruct (SB k Hk) as [Sk|[Z _]]; [|rewrite Z in Hd; destruct Hd]. eauto.
    + intros k Hk Z NZ. destruct (SB k Hk) as [Sk|[_ Z2]]; [|contradiction].
      eapply sem_mono; [|apply D2; eauto]. lia.
  - cbn [sem] in H. destruct l as [|c l].
    { inversion H; subst. exists 1%nat. constructor. }
    cbn in NT. apply (chain_stays E) in H; auto.
    destruct H as [H1 H2].
    destruct (chain_same E (c :: l) v') as [m Hm].
    { intros x [<-|Hx]; [eapply CH; [now left|exact J|exact H1]|]. exists n. auto. }
    exists (S m). exact Hm.
  - cbn [sem] in H. destruct (e_refs E name) as [x|] eqn:Rf; [|discriminate].
    destruct (CH x v v') as [m Hm]; auto. { eapply child_ref; exact Rf. }
    exists (S m). cbn [sem]. now rewrite Rf.
Qed.

Theorem validate_repeatable E c v w v1 w1 w2 r v2 w3 : wf E c -> single E c -> stable E c -> jdoc v ->
  Runs E c v w (Pass, v1, w1) -> Runs E c v1 w2 (r, v2, w3) -> r = Pass /\ v2 = v1.
Proof.
  intros W S T J R1 R2.
  assert (D : Deep E (fun x => x = CNil \/ node_ok E x) c).
  { intros x Hx. destruct W as [_ W]. destruct (W x Hx) as [?|[? _]]; auto. }
  destruct (run_pass _ _ _ _ _ _ W J R1) as [n A].
  assert (J1 : jdoc v1) by (eapply sem_jdoc; eauto).
  pose proof (stable_again E n c v v1 D T J A) as A1.
  destruct r.
  - split; auto. eapply Accepts_det; [exact S|eapply run_pass; eauto|exact A1].
  - destruct (Accepts_Rejects _ _ _ _ S A1). eapply run_fail; eauto.
  - exfalso. eapply run_no_panic; eauto.
  - destruct R2 as (? & _ & N). destruct N. reflexivity.
Qed.
