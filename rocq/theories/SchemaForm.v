(** Constraints built from plain schemas are regular (C43). *)
From Verif Require Import Base GoFloat FloatSpec FloatProofs GoValue Maybe Formats HostSpec Constraint StructInfo Validate Reach Builder BuildSpec BuildProofs BuildRefs BuildErr Spec SpecSound Scalars DocSpec Height SchemaSpec.
Open Scope Z_scope.

Lemma insert_t_perm t l : Permutation (t :: l) (insert_t t l).
Proof.
  induction l as [|u l IH]; cbn [insert_t]; auto. destruct (Nat.leb (rank t) (rank u)); auto.
  rewrite perm_swap. now constructor.
Qed.
Lemma sort_t_perm l : Permutation l (sort_t l).
Proof. induction l as [|t l IH]; cbn [sort_t fold_right]; auto. etransitivity; [apply perm_skip; exact IH|apply insert_t_perm]. Qed.
Lemma types_of_in c t : In t (types_of c) <-> In t (match sc_type c with [] => guess c | l => l end).
Proof. unfold types_of. split; apply Permutation_in; [symmetry|]; apply sort_t_perm. Qed.
Lemma types_of_nil c : types_of c = [] -> sc_type c = [] /\ guess c = [].
Proof.
  unfold types_of. intros H. pose proof (sort_t_perm (match sc_type c with [] => guess c | l => l end)) as P. rewrite H in P.
  apply Permutation_sym, Permutation_nil in P. destruct (sc_type c); [auto|discriminate].
Qed.

Section Good.
  Lemma good_kid c x : Good (Sch c) -> sc_ref c = ""%string -> Kid c x -> Good x.
  Proof.
    intros [G1 G2] R K. split; intros H; [apply G1; eapply un_kid; eauto|apply G2; eapply ni_kid; eauto].
  Qed.

  Lemma reduce_all_nil l : (forall y, In y l -> y <> CNil) -> reduce (CAll l) <> CNil.
  Proof. intros H. destruct l as [|a [|b l]]; cbn; try discriminate. apply H. now left. Qed.
  Lemma reduce_any_nil l : (forall y, In y l -> y <> CNil) -> reduce (CAny l) <> CNil.
  Proof. intros H. destruct l as [|a [|b l]]; cbn; try discriminate. apply H. now left. Qed.
  Lemma reduce_one_nil l : (forall y, In y l -> y <> CNil) -> reduce (COneOf l) <> CNil.
  Proof. intros H. destruct l as [|a [|b l]]; cbn; try discriminate. apply H. now left. Qed.

  Lemma bc_one_not_nil c t : bc_one c t <> CNil.
  Proof. destruct t; discriminate. Qed.
  Lemma bc_types_not_nil c y : In y (bc_types c) -> y <> CNil.
  Proof.
    unfold bc_types. destruct (types_of c) as [|t l].
    - destruct (sc_enum c); [intros []|intros [<-|[]]; discriminate].
    - intros [<-|[]]. apply reduce_any_nil. intros y Hy. apply in_map_iff in Hy as (u & <- & _). apply bc_one_not_nil.
  Qed.

  Lemma bc_comb_kid c y : In y (bc_comb c) -> (forall x, In x (comb_kids c) -> bc x <> CNil) -> y <> CNil.
  Proof.
    unfold bc_comb, comb_kids. intros H K.
    assert (M : forall l, (forall x, In x l -> bc x <> CNil) -> forall z, In z (map bc l) -> z <> CNil).
    { intros l Hl z Hz. apply in_map_iff in Hz as (x & <- & Hx). auto. }
    destruct (sc_not c); [|destruct H as [<-|[]]; discriminate].
    destruct (sc_allOf c) as [|a la]; [|destruct H as [<-|[]]; apply reduce_all_nil, M, K].
    destruct (sc_anyOf c) as [|a la]; [|destruct H as [<-|[]]; apply reduce_any_nil, M, K].
    destruct (sc_oneOf c) as [|a la]; [destruct H|destruct H as [<-|[]]; apply reduce_one_nil, M, K].
  Qed.

  Lemma bc_not_nil s : Good s -> bc s <> CNil.
  Proof.
    induction s as [|c IH] using schema_subs_ind; intros G; [destruct G as [_ G]; destruct G; constructor|].
    destruct (String.eqb_spec (sc_ref c) "") as [R|R].
    - rewrite bc_step by assumption. apply reduce_all_nil. intros y Hy. apply in_app_iff in Hy as [Hy|Hy].
      + apply (bc_comb_kid _ _ Hy). intros x Hx. apply kid_comb in Hx. apply IH; [now apply Kid_subs|eapply good_kid; eauto].
      + now apply bc_types_not_nil in Hy.
    - cbn [bc]. apply String.eqb_neq in R. rewrite R. discriminate.
  Qed.
End Good.

Section Form.
  Context (E0 : env) (D : resolver) (root : schema) (rf : refs).
  Notation E := (with_refs E0 rf).
  Notation Sub := (Sub D root).
  Notation clean := (clean D root).
  Hypothesis HD : forall m x, sget m rf = Some x -> exists s', Def D root m s' /\ Good s' /\ x = bc s'.

  (** the constraints made from one schema *)
  Inductive Piece (c : scfg) : constr -> Prop :=
  | pc_comb y : In y (bc_comb c) -> Piece c y
  | pc_types y : In y (bc_types c) -> Piece c y
  | pc_one t : In t (types_of c) -> Piece c (bc_one c t).
  Inductive Form (s : schema) : constr -> Prop :=
  | fo_bc x : Sub s x -> Form s (bc x)
  | fo_piece c y : Sub s (Sch c) -> sc_ref c = ""%string -> Piece c y -> Form s y
  | fo_nil : Form s CNil
  | fo_empty : Form s CEmpty.

  Ltac leaf := solve [apply fo_nil|apply fo_empty].
  Lemma Sub_trans a b x : Sub a b -> Sub b x -> Sub a x.
  Proof. intros A B. induction B; auto; [eapply sub_kid|eapply sub_def]; eauto. Qed.

  Lemma children_all l z : In z (children E (reduce (CAll l))) -> In z l \/ exists w, l = [w] /\ In z (children E w).
  Proof. destruct l as [|a [|b l]]; cbn; auto. intros H. right. eauto. Qed.
  Lemma children_any l z : In z (children E (reduce (CAny l))) -> In z l \/ exists w, l = [w] /\ In z (children E w).
  Proof. destruct l as [|a [|b l]]; cbn; auto. intros H. right. eauto. Qed.
  Lemma children_one l z : In z (children E (reduce (COneOf l))) -> In z l \/ exists w, l = [w] /\ In z (children E w).
  Proof. destruct l as [|a [|b l]]; cbn; auto. intros H. right. eauto. Qed.

  Lemma one_child s c t z : Sub s (Sch c) -> sc_ref c = ""%string -> In t (types_of c) -> In z (children E (bc_one c t)) -> Form s z.
  Proof.
    intros Hs R Ht Hz.
    assert (K : forall x, Kid c x -> Form s (bc x)) by (intros; apply fo_bc; eapply sub_kid; eauto).
    destruct t; try (cbn in Hz; destruct Hz; fail).
    - cbn [bc_one bc_object children o_add o_pats o_props o_sdeps] in Hz.
      assert (KO : forall x, In x (object_kids c) -> Form s (bc x)) by (intros; apply K, kid_object; auto).
      unfold object_kids in KO. rewrite !map_map in Hz. cbn [snd] in Hz.
      destruct Hz as [<-|Hz].
      + destruct (sc_addProps c) as [[|x]|]; try leaf. apply KO. rewrite !in_app_iff. cbn. auto.
      + rewrite !in_app_iff in Hz. destruct Hz as [Hz|[Hz|Hz]]; apply in_map_iff in Hz as ([k x] & <- & Hx);
          apply KO; rewrite !in_app_iff; [right; left|left|right; right; right]; apply in_map_iff; eexists; split; [|exact Hx| |exact Hx| |exact Hx]; reflexivity.
    - cbn [bc_one bc_array children a_items a_add a_pos] in Hz.
      assert (KA : forall x, In x (array_kids c) -> Form s (bc x)) by (intros; apply K, kid_array; auto).
      unfold array_kids in KA.
      destruct (sc_items c) as [[[|] l]|].
      + destruct Hz as [<-|[<-|Hz]]; [leaf| |].
        * destruct (sc_addItems c) as [[|x]|]; try leaf. apply KA. rewrite in_app_iff. right. now left.
        * apply in_map_iff in Hz as (x & <- & Hx). apply KA. rewrite in_app_iff. now left.
      + destruct Hz as [<-|[<-|[]]]; [|leaf]. destruct l as [|x l]; [leaf|]. apply KA. now left.
      + destruct Hz as [<-|[<-|[]]]; leaf.
  Qed.

  Lemma types_child s c y z : Sub s (Sch c) -> sc_ref c = ""%string -> In y (bc_types c) -> In z (children E y) -> Form s z.
  Proof.
    intros Hs R Hy Hz. unfold bc_types in Hy. destruct (types_of c) as [|t l] eqn:T.
    - destruct (sc_enum c); [destruct Hy|destruct Hy as [<-|[]]]. destruct Hz.
    - destruct Hy as [<-|[]]. rewrite <- T in Hz. apply children_any in Hz as [Hz|(w & Hw & Hz)].
      + apply in_map_iff in Hz as (u & <- & Hu). eapply fo_piece; eauto. now apply pc_one.
      + assert (Hw' : In w (map (bc_one c) (types_of c))) by (rewrite Hw; now left).
        apply in_map_iff in Hw' as (u & <- & Hu). eapply one_child; eauto.
  Qed.

  Lemma comb_child s c y z : Sub s (Sch c) -> sc_ref c = ""%string ->
    (forall x, In x (comb_kids c) -> forall z, In z (children E (bc x)) -> Form s z) ->
    In y (bc_comb c) -> In z (children E y) -> Form s z.
  Proof.
    intros Hs R IH Hy Hz.
    assert (K : forall x, In x (comb_kids c) -> Form s (bc x)) by (intros; apply fo_bc; eapply sub_kid; eauto; now apply kid_comb).
    unfold bc_comb in Hy. unfold comb_kids in *.
    assert (M : forall l w, (forall x, In x l -> Form s (bc x)) -> In w (map bc l) -> Form s w).
    { intros l w Hl Hw. apply in_map_iff in Hw as (x & <- & Hx). auto. }
    assert (M' : forall l w z, (forall x, In x l -> forall z, In z (children E (bc x)) -> Form s z) -> map bc l = [w] -> In z (children E w) -> Form s z).
    { intros l w z' Hl Hw Hz'. assert (In w (map bc l)) as I by (rewrite Hw; now left). apply in_map_iff in I as (x & <- & Hx). eauto. }
    destruct (sc_not c) as [|n].
    - destruct (sc_allOf c) as [|a la]; [destruct (sc_anyOf c) as [|a la]; [destruct (sc_oneOf c) as [|a la]; [destruct Hy|]|]|]; destruct Hy as [<-|[]].
      + apply children_one in Hz as [Hz|(w & Hw & Hz)]; [eapply M|eapply M']; eauto.
      + apply children_any in Hz as [Hz|(w & Hw & Hz)]; [eapply M|eapply M']; eauto.
      + apply children_all in Hz as [Hz|(w & Hw & Hz)]; [eapply M|eapply M']; eauto.
    - destruct Hy as [<-|[]]. destruct Hz as [<-|[]]. apply K. now left.
  Qed.

  Lemma bc_child s x : Sub s x -> forall z, In z (children E (bc x)) -> Form s z.
  Proof.
    induction x as [|c IH] using schema_subs_ind; intros Hs z Hz; [destruct Hz|].
    destruct (String.eqb_spec (sc_ref c) "") as [R|R].
    - rewrite bc_step in Hz by assumption.
      assert (IH' : forall x, In x (comb_kids c) -> forall z, In z (children E (bc x)) -> Form s z).
      { intros x Hx. apply kid_comb in Hx. apply IH; [now apply Kid_subs|eapply sub_kid; eauto]. }
      apply children_all in Hz as [Hz|(w & Hw & Hz)].
      + eapply fo_piece; eauto. apply in_app_iff in Hz as [Hz|Hz]; [now apply pc_comb|now apply pc_types].
      + assert (Hw' : In w (bc_comb c ++ bc_types c)) by (rewrite Hw; now left).
        apply in_app_iff in Hw' as [Hw'|Hw']; [eapply comb_child|eapply types_child]; eauto.
    - cbn [bc] in Hz. apply String.eqb_neq in R. rewrite R in Hz. cbn [negb children] in Hz. cbn [e_refs with_refs] in Hz.
      destruct (sget (sc_ref c) rf) as [y|] eqn:G; [|destruct Hz]. destruct Hz as [<-|[]].
      destruct (HD _ _ G) as (s' & Ds & _ & ->). apply fo_bc. eapply sub_def; eauto. now apply String.eqb_neq.
  Qed.

  Lemma form_child s y z : Form s y -> In z (children E y) -> Form s z.
  Proof.
    intros F Hz. destruct F as [x Hx|c y Hs R P| |]; try (destruct Hz; fail); [eapply bc_child; eauto|].
    destruct P; [|eapply types_child; eauto|eapply one_child; eauto].
    eapply comb_child; eauto. intros x Hx. apply bc_child. eapply sub_kid; eauto. now apply kid_comb.
  Qed.
  Lemma form_reach s y z : Reach E y z -> Form s y -> Form s z.
  Proof. induction 1; auto. intros F. apply IHReach. eapply form_child; eauto. Qed.

  (** *** Defaults come from schemas *)
  Definition shallow (y : constr) : option gval :=
    match y with CBool d | CStr d _ | CNum d _ | CInt d _ => d | _ => None end.
  Lemma one_default c t d : shallow (bc_one c t) = Some d -> sc_default c = d /\ d <> GNil.
  Proof.
    assert (A : default_of c = Some d -> sc_default c = d /\ d <> GNil).
    { unfold default_of. destruct (sc_default c); try discriminate; intros [= <-]; split; auto; discriminate. }
    destruct t; cbn; auto; try discriminate.
    destruct (sc_default c); try discriminate. destruct (String.eqb_spec T "bool") as [->|N].
    - intros [= <-]. split; auto. discriminate.
    - repeat (try discriminate; match goal with |- context [match ?s with EmptyString => _ | String _ _ => _ end] => destruct s | |- context [match ?a with Ascii _ _ _ _ _ _ _ _ => _ end] => destruct a | |- context [if ?b then _ else _] => destruct b end); congruence.
  Qed.
  Lemma bc_default s x d : Sub s x -> shallow (bc x) = Some d -> exists c, Sub s (Sch c) /\ sc_ref c = ""%string /\ sc_default c = d /\ d <> GNil.
  Proof.
    induction x as [|c IH] using schema_subs_ind; intros Hs H; [discriminate|].
    destruct (String.eqb_spec (sc_ref c) "") as [R|R].
    2: { cbn [bc] in H. apply String.eqb_neq in R. rewrite R in H. discriminate. }
    rewrite bc_step in H by assumption.
    assert (SA : forall l, shallow (reduce (CAll l)) = Some d -> exists w, l = [w] /\ shallow w = Some d) by (intros [|a [|b l]]; cbn; try discriminate; eauto).
    assert (SN : forall l, shallow (reduce (CAny l)) = Some d -> exists w, l = [w] /\ shallow w = Some d) by (intros [|a [|b l]]; cbn; try discriminate; eauto).
    assert (SO : forall l, shallow (reduce (COneOf l)) = Some d -> exists w, l = [w] /\ shallow w = Some d) by (intros [|a [|b l]]; cbn; try discriminate; eauto).
    apply SA in H as (w & Hw & H). assert (Iw : In w (bc_comb c ++ bc_types c)) by (rewrite Hw; now left).
    apply in_app_iff in Iw as [Iw|Iw].
    - assert (K : forall l w, (forall x, In x l -> In x (comb_kids c)) -> map bc l = [w] -> shallow w = Some d ->
                 exists c, Sub s (Sch c) /\ sc_ref c = ""%string /\ sc_default c = d /\ d <> GNil).
      { intros l w' Hl Hw' H'. assert (In w' (map bc l)) as I by (rewrite Hw'; now left). apply in_map_iff in I as (x & <- & Hx).
        apply Hl, kid_comb in Hx. apply (IH x); auto; [now apply Kid_subs|eapply sub_kid; eauto]. }
      unfold bc_comb in Iw. unfold comb_kids in K.
      destruct (sc_not c); [|destruct Iw as [<-|[]]; discriminate].
      destruct (sc_allOf c) as [|a la]; [destruct (sc_anyOf c) as [|a la]; [destruct (sc_oneOf c) as [|a la]; [destruct Iw|]|]|]; destruct Iw as [<-|[]].
      + apply SO in H as (w & Hw' & H). eapply K; [|exact Hw'|exact H]. auto.
      + apply SN in H as (w & Hw' & H). eapply K; [|exact Hw'|exact H]. auto.
      + apply SA in H as (w & Hw' & H). eapply K; [|exact Hw'|exact H]. auto.
    - unfold bc_types in Iw. destruct (types_of c) as [|t l] eqn:T.
      + destruct (sc_enum c); [destruct Iw|destruct Iw as [<-|[]]]. discriminate.
      + destruct Iw as [<-|[]]. apply SN in H as (w & Hw' & H). destruct l; [|discriminate]. injection Hw' as <-.
        apply one_default in H. eauto.
  Qed.
  Lemma form_shallow s y d : Form s y -> shallow y = Some d -> exists c, Sub s (Sch c) /\ sc_ref c = ""%string /\ sc_default c = d /\ d <> GNil.
  Proof.
    intros F H. destruct F as [x Hx|c y Hs R P| |]; try discriminate; [eapply bc_default; eauto|].
    destruct P as [y Iw|y Iw|t Ht].
    - (* a combinator: its single kid *)
      assert (K : forall l w, (forall x, In x l -> In x (comb_kids c)) -> map bc l = [w] -> shallow w = Some d ->
                 exists c, Sub s (Sch c) /\ sc_ref c = ""%string /\ sc_default c = d /\ d <> GNil).
      { intros l w' Hl Hw' H'. assert (In w' (map bc l)) as I by (rewrite Hw'; now left). apply in_map_iff in I as (x & <- & Hx).
        apply Hl, kid_comb in Hx. apply (bc_default s x); auto. eapply sub_kid; eauto. }
      assert (SA : forall l, shallow (reduce (CAll l)) = Some d -> exists w, l = [w] /\ shallow w = Some d) by (intros [|a [|b l]]; cbn; try discriminate; eauto).
      assert (SN : forall l, shallow (reduce (CAny l)) = Some d -> exists w, l = [w] /\ shallow w = Some d) by (intros [|a [|b l]]; cbn; try discriminate; eauto).
      assert (SO : forall l, shallow (reduce (COneOf l)) = Some d -> exists w, l = [w] /\ shallow w = Some d) by (intros [|a [|b l]]; cbn; try discriminate; eauto).
      unfold bc_comb in Iw. unfold comb_kids in K.
      destruct (sc_not c); [|destruct Iw as [<-|[]]; discriminate].
      destruct (sc_allOf c) as [|a la]; [destruct (sc_anyOf c) as [|a la]; [destruct (sc_oneOf c) as [|a la]; [destruct Iw|]|]|]; destruct Iw as [<-|[]].
      + apply SO in H as (w & Hw' & H). eapply K; [|exact Hw'|exact H]. auto.
      + apply SN in H as (w & Hw' & H). eapply K; [|exact Hw'|exact H]. auto.
      + apply SA in H as (w & Hw' & H). eapply K; [|exact Hw'|exact H]. auto.
    - unfold bc_types in Iw. destruct (types_of c) as [|t l] eqn:T.
      + destruct (sc_enum c); [destruct Iw|destruct Iw as [<-|[]]]. discriminate.
      + destruct Iw as [<-|[]]. destruct l; [|discriminate]. apply one_default in H. eauto.
    - apply one_default in H. eauto.
  Qed.
  Lemma form_default s y d : Default E y d -> Form s y -> exists c, Sub s (Sch c) /\ sc_ref c = ""%string /\ sc_default c = d /\ d <> GNil.
  Proof.
    induction 1 as [d|d cf|d cf|d cf|n y d G _ IH]; intros F; try (eapply form_shallow; [exact F|reflexivity]).
    apply IH. eapply form_child; [exact F|]. now apply child_ref.
  Qed.
  Lemma clean_pure s y : clean s -> Form s y -> pure E y.
  Proof.
    intros C F d (o & k & p & R & I & Dp). apply (form_reach s) in R; auto.
    assert (Fp : Form s p) by (eapply form_child; [exact R|eapply child_prop; eauto]).
    destruct (form_default s p d Dp Fp) as (c & Hs & Rc & Hd & N). apply N. rewrite <- Hd. now apply C.
  Qed.
End Form.
