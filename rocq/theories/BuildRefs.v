(** References of built validators (C41, C42, C46). *)
From Verif Require Import Base GoFloat GoValue Maybe Formats Constraint StructInfo Validate Reach Local Fluent Builder BuildSpec BuildProofs.
Open Scope Z_scope.

(** ** The references mentioned by a built constraint are those used by the schema *)
Lemma men_reduce c n : Mentions (reduce c) n -> Mentions c n.
Proof.
  destruct c as [| | | | | | | | | |l|l|l| |]; auto; destruct l as [|x [|y l]]; auto; intros H; eapply men_part; eauto; now left.
Qed.
Lemma men_all l n : Mentions (CAll l) n -> exists x, In x l /\ Mentions x n.
Proof. intros H; inversion H; subst; eauto. Qed.
Lemma men_any l n : Mentions (CAny l) n -> exists x, In x l /\ Mentions x n.
Proof. intros H; inversion H; subst; eauto. Qed.
Lemma men_oneof l n : Mentions (COneOf l) n -> exists x, In x l /\ Mentions x n.
Proof. intros H; inversion H; subst; eauto. Qed.
Lemma men_not x n : Mentions (CNot x) n -> Mentions x n.
Proof. intros H; inversion H as [|? y ? I M]; subst. destruct I as [<-|[]]. exact M. Qed.
Lemma men_leaf c n : parts c = [] -> (forall m, c <> CRef m) -> ~ Mentions c n.
Proof. intros P N H. inversion H; subst; [eapply N; eauto|]. rewrite P in H0. destruct H0. Qed.

Lemma bc_mentions s n : Mentions (bc s) n -> Used s n.
Proof.
  revert n. induction s as [|c IH] using schema_subs_ind; intros n H.
  - cbn in H. exfalso. revert H. apply men_leaf; [reflexivity|discriminate].
  - destruct (String.eqb_spec (sc_ref c) "") as [E|E].
    2: { cbn [bc] in H. pose proof E as E'. apply String.eqb_neq in E. rewrite E in H. cbn in H. inversion H; subst; [now constructor|destruct H0]. }
    rewrite bc_step in H by assumption. apply men_reduce, men_all in H as (x & I & M).
    assert (K : forall y, Kid c y -> Mentions (bc y) n -> Used (Sch c) n).
    { intros y Ky My. eapply us_kid; [assumption|exact Ky|]. apply IH; auto. now apply Kid_subs. }
    assert (L : forall l, (forall y, In y l -> Kid c y) -> (exists x, In x (map bc l) /\ Mentions x n) -> Used (Sch c) n).
    { intros l Hl (y & Iy & My). apply in_map_iff in Iy as (z & <- & Iz). eauto. }
    apply in_app_or in I as [I|I].
    + pose proof (kid_comb c) as KC. unfold bc_comb in I. unfold comb_kids in KC.
      destruct (sc_not c) as [|m] eqn:En.
      * destruct (sc_allOf c) as [|a al]; [|destruct I as [<-|[]]; apply men_reduce, men_all in M; eapply L; eauto].
        destruct (sc_anyOf c) as [|a al]; [|destruct I as [<-|[]]; apply men_reduce, men_any in M; eapply L; eauto].
        destruct (sc_oneOf c) as [|a al]; [destruct I|destruct I as [<-|[]]; apply men_reduce, men_oneof in M; eapply L; eauto].
      * destruct I as [<-|[]]. apply men_not in M. eapply K; [|exact M]. apply KC. now left.
    + unfold bc_types in I. destruct (types_of c) as [|t0 ts] eqn:Et.
      { destruct (sc_enum c) as [|e en]; [destruct I|]. destruct I as [<-|[]]. exfalso. revert M. apply men_leaf; [reflexivity|discriminate]. }
      destruct I as [<-|[]]. apply men_reduce, men_any in M as (x & I & M). apply in_map_iff in I as (t & <- & It).
      rewrite <- Et in It. clear Et.
      destruct t; try (exfalso; revert M; apply men_leaf; [reflexivity|discriminate]).
      * cbn [bc_one] in M. unfold bc_object in M. inversion M as [|? y ? Iy My]; subst. cbn in Iy.
        rewrite !in_app_iff in Iy. rewrite !map_map in Iy. cbn [snd] in Iy.
        assert (OK : forall z, In z (object_kids c) -> Kid c z) by (intros; now apply kid_object).
        unfold object_kids in OK.
        destruct Iy as [Iy|[Iy|[Iy|Iy]]].
        -- subst y. destruct (sc_addProps c) as [[|z]|]; try (exfalso; revert My; apply men_leaf; [reflexivity|discriminate]).
           eapply K; [|exact My]. apply OK. rewrite !in_app_iff. right. right. left. now left.
        -- apply in_map_iff in Iy as (e & <- & Ie). eapply K; [|exact My]. apply OK. rewrite !in_app_iff. right. left. now apply in_map.
        -- apply in_map_iff in Iy as (e & <- & Ie). eapply K; [|exact My]. apply OK. rewrite !in_app_iff. left. now apply in_map.
        -- apply in_map_iff in Iy as (e & <- & Ie). eapply K; [|exact My]. apply OK. rewrite !in_app_iff. right. right. right. now apply in_map.
      * cbn [bc_one] in M. unfold bc_array in M. inversion M as [|? y ? Iy My]; subst. cbn in Iy.
        assert (OK : forall z, In z (array_kids c) -> Kid c z) by (intros; now apply kid_array).
        unfold array_kids in OK.
        destruct (sc_items c) as [[[|] l]|].
        -- destruct Iy as [<-|[<-|Iy]].
           ++ exfalso; revert My; apply men_leaf; [reflexivity|discriminate].
           ++ destruct (sc_addItems c) as [[|z]|]; try (exfalso; revert My; apply men_leaf; [reflexivity|discriminate]).
              eapply K; [|exact My]. apply OK. rewrite in_app_iff. right. now left.
           ++ apply in_map_iff in Iy as (z & <- & Iz). eapply K; [|exact My]. apply OK. rewrite in_app_iff. now left.
        -- destruct Iy as [<-|[<-|[]]].
           ++ destruct l as [|z l]; [exfalso; revert My; apply men_leaf; [reflexivity|discriminate]|].
              eapply K; [|exact My]. apply OK. now left.
           ++ exfalso; revert My; apply men_leaf; [reflexivity|discriminate].
        -- destruct Iy as [<-|[<-|[]]]; exfalso; revert My; apply men_leaf; [reflexivity|discriminate|reflexivity|discriminate].
Qed.

(** ** The reference loops *)
Section Compile.
  Context (D : resolver) (s0 : schema).
  Hypothesis sorted0 : Sorted s0.
  Hypothesis sortedD : forall n s, lookup D n = Some s -> Sorted s.

  Definition reg (st : cstate) (n : string) : Prop := In n (keys (c_refs st)).
  Definition full (st : cstate) : Prop := forall n, In n (keys (c_R st)) -> reg st n.
  Record Inv (st : cstate) : Prop := {
    i_sorted : ssorted (c_refs st);
    i_refs : forall k x, sget k (c_refs st) = Some x -> exists s, Def D s0 k s /\ x = bc s /\ Good s /\ Referred D s0 k;
    i_names : forall n, In n (keys (c_R st)) -> Referred D s0 n;
    i_root : forall n, Used s0 n -> reg st n \/ In n (keys (c_R st));
    i_defs : forall k s n, reg st k -> Def D s0 k s -> Used s n -> reg st n \/ In n (keys (c_R st));
    i_hash : Used s0 "#" -> reg st "#";
    i_log : NoDup (c_log st) /\ forall k, In k (c_log st) -> reg st k }.

  Record Ext (st st' : cstate) : Prop := {
    e_regs : forall n, reg st n -> reg st' n;
    e_Rs : forall n, In n (keys (c_R st)) -> In n (keys (c_R st')) }.
  Lemma Ext_refl st : Ext st st. Proof. split; auto. Qed.
  Lemma Ext_trans a b c : Ext a b -> Ext b c -> Ext a c.
  Proof. intros [A1 A2] [B1 B2]. split; auto. Qed.

  Definition bad_ref : Prop := exists m, Referred D s0 m /\
    ((~ (m = "#"%string /\ Used s0 "#") /\ lookup D m = None) \/ exists s, Def D s0 m s /\ Unknown s).
  Definition nil_ref : Prop := exists m s, Referred D s0 m /\ Def D s0 m s /\ Nilish s.

  Definition post (k : string) (st : cstate) (r : cres) : Prop :=
    match r with
    | COk st' => Inv st' /\ Ext st st' /\ reg st' k /\ (st' = st \/ full st')
    | CErr _ => bad_ref
    | CPanic _ => nil_ref
    | COOF => True
    end.
  Definition all_post (st : cstate) (r : cres) : Prop :=
    match r with
    | COk st' => Inv st' /\ Ext st st' /\ full st'
    | CErr _ => bad_ref
    | CPanic _ => nil_ref
    | COOF => True
    end.

  Lemma range_post n (body : string -> cstate -> cres) : (forall k st, Inv st -> Referred D s0 k -> post k st (body k st)) ->
    forall start visited st, Inv st -> (forall k, In k visited -> reg st k) ->
      (full st \/ forall k, In k (keys (c_R st)) -> In k start) -> (forall k, In k start -> In k (keys (c_R st))) ->
      all_post st (range_refs n body start visited st).
  Proof.
    intros HB. induction n as [|n IH]; intros start visited st I V F S0; cbn [range_refs]; [exact Logic.I|].
    set (todo := filter (fun k => negb (mem k visited)) (keys (c_R st))).
    set (due := filter (fun k => mem k start) todo).
    destruct (next (c_w st)) as [i w'].
    set (st' := {| c_refs := c_refs st; c_R := c_R st; c_w := w'; c_log := c_log st |}).
    assert (I' : Inv st') by (destruct I; split; auto).
    assert (X : Ext st st') by (split; auto).
    assert (visit : forall k, In k todo ->
      all_post st (match body k st' with COk st2 => range_refs n body start (k :: visited) st2 | r => r end)).
    { intros k Hk. apply filter_In in Hk as [Hk _]. specialize (HB k st' I' (i_names _ I _ Hk)).
      destruct (body k st') as [st2| | |]; auto. cbn in HB. destruct HB as (I2 & X2 & R2 & C2).
      assert (A : all_post st2 (range_refs n body start (k :: visited) st2)).
      { apply IH; auto.
        - intros k' [<-|Hk']; auto. apply (e_regs _ _ X2). apply V, Hk'.
        - destruct C2 as [->|C2]; auto.
        - intros k' Hk'. apply (e_Rs _ _ X2). apply S0, Hk'. }
      destruct (range_refs n body start (k :: visited) st2); auto. destruct A as (A1 & A2 & A3).
      split; [exact A1|]. split; [|exact A3]. eapply Ext_trans; [exact X|]. eapply Ext_trans; eauto. }
    destruct due as [|d due'] eqn:Ed.
    - destruct (nth_error todo i) as [k|] eqn:Nk.
      + apply visit. eapply nth_error_In; eauto.
      + cbn. split; [exact I'|]. split; [exact X|]. destruct F as [F|F]; [exact F|].
        intros k Hk. destruct (mem k visited) eqn:M; [apply mem_In in M; apply V, M|].
        assert (In k (filter (fun k => mem k start) todo)) as HH.
        { apply filter_In. split; [apply filter_In; split; [exact Hk|now rewrite M]|]. apply mem_In, F, Hk. }
        unfold due in Ed. rewrite Ed in HH. destruct HH.
    - apply visit. assert (In d todo) as Hd.
      { assert (In d due) as HH by (rewrite Ed; now left). unfold due in HH. apply filter_In in HH. tauto. }
      destruct (nth_in_or_default i todo d) as [H|H]; [exact H|]. rewrite H. exact Hd.
  Qed.

  Lemma Inv_step k s R' w' st : Inv st -> Referred D s0 k -> ~ reg st k -> lookup D k = Some s -> Good s ->
    (forall n, In n (keys R') <-> In n (keys (c_R st)) \/ Used s n) ->
    Inv {| c_refs := sset k (bc s) (c_refs st); c_R := R'; c_w := w'; c_log := k :: c_log st |}.
  Proof.
    intros I Rk NR L Gs HR.
    assert (NH : ~ (k = "#"%string /\ Used s0 "#")) by (intros [-> U]; apply NR; now apply (i_hash _ I)).
    assert (DK : Def D s0 k s) by now apply def_look.
    set (st1 := {| c_refs := sset k (bc s) (c_refs st); c_R := R'; c_w := w'; c_log := k :: c_log st |}).
    assert (RG : forall n, reg st1 n <-> n = k \/ reg st n) by (intros; apply sset_keys).
    constructor.
        - apply sset_sorted, (i_sorted _ I).
        - intros k' x Hx. cbn [c_refs st1] in Hx. destruct (string_dec k' k) as [->|N].
          + rewrite sget_sset_same in Hx. injection Hx as <-. exists s. auto.
          + rewrite sget_sset_other in Hx by auto. apply (i_refs _ I _ _ Hx).
        - intros m Hm. apply HR in Hm as [Hm|Hm]; [apply (i_names _ I _ Hm)|]. eapply rf_def; eauto.
        - intros m Hm. destruct (i_root _ I m Hm) as [H|H]; [left; apply RG; auto|right; apply HR; auto].
        - intros k' s' m Hk' Ds' Um. apply RG in Hk' as [->|Hk'].
          + assert (s' = s) as ->. { inversion Ds' as [U|? ? _ L']; subst; [destruct NH; auto|congruence]. }
            right. apply HR. now right.
          + destruct (i_defs _ I k' s' m Hk' Ds' Um) as [H|H]; [left; apply RG; auto|right; apply HR; auto].
        - intros U. apply RG. right. now apply (i_hash _ I).
        - destruct (i_log _ I) as [N1 N2]. split; cbn [c_log st1].
          + constructor; auto.
          + intros k' [<-|Hk']; apply RG; auto.
  Qed.

  Lemma compile_post n : forall k st, Inv st -> Referred D s0 k -> post k st (compile n D k st).
  Proof.
    induction n as [|n IH]; intros k st I Rk; cbn [compile]; [exact Logic.I|].
    destruct (sget k (c_refs st)) as [x|] eqn:G.
    { cbn. split; [exact I|]. split; [apply Ext_refl|]. split; [|now left]. apply sget_some_keys. eauto. }
    assert (NR : ~ reg st k) by now apply sget_none_keys.
    assert (NH : ~ (k = "#"%string /\ Used s0 "#")).
    { intros [-> U]. apply NR. now apply (i_hash _ I). }
    set (built := match D k with RError m => GErr m | RSchema s => build s (c_R st) (c_w st) | RMap (inr m) => GErr m
                  | RMap (inl s) => build s (c_R st) (c_w st) | ROther => build SNil (c_R st) (c_w st) end).
    assert (B : match built with
                | GOk (c, R', w') => exists s, lookup D k = Some s /\ c = bc s /\ Good s /\ forall n, In n (keys R') <-> In n (keys (c_R st)) \/ Used s n
                | GErr _ => lookup D k = None \/ exists s, lookup D k = Some s /\ Unknown s
                | GPanic _ => exists s, lookup D k = Some s /\ Nilish s
                end).
    { assert (C : forall s, lookup D k = Some s -> built = build s (c_R st) (c_w st) -> match built with
                | GOk (c, R', w') => exists s, lookup D k = Some s /\ c = bc s /\ Good s /\ forall n, In n (keys R') <-> In n (keys (c_R st)) \/ Used s n
                | GErr _ => lookup D k = None \/ exists s, lookup D k = Some s /\ Unknown s
                | GPanic _ => exists s, lookup D k = Some s /\ Nilish s
                end).
      { intros s L ->. pose proof (build_spec s (sortedD _ _ L) (c_R st) (c_w st)) as H.
        destruct (build s (c_R st) (c_w st)) as [[[c R'] w']| |].
        - destruct H as [[-> Gs] Hn]. exists s. auto.
        - right. eauto.
        - eauto. }
      unfold lookup in C |- *. unfold built in *. destruct (D k) as [m|s|[s|m]|].
      - now left.
      - now apply (C s).
      - now apply (C s).
      - now left.
      - now apply (C SNil). }
    destruct built as [[[c R'] w']|m|m]; cbn.
    - destruct B as (s & L & -> & Gs & HR).
      assert (DK : Def D s0 k s) by now apply def_look.
      set (st1 := {| c_refs := sset k (bc s) (c_refs st); c_R := R'; c_w := w'; c_log := k :: c_log st |}).
      assert (RG : forall n, reg st1 n <-> n = k \/ reg st n) by (intros; apply sset_keys).
      assert (I1 : Inv st1) by now apply Inv_step.
      assert (X1 : Ext st st1).
      { split; [intros m Hm; apply RG; auto|]. intros m Hm. apply HR. auto. }
      assert (A : all_post st1 (range_refs n (compile n D) (keys R') [] st1)).
      { apply range_post; [exact IH|exact I1|intros ? []|right; auto|auto]. }
      unfold post. destruct (range_refs n (compile n D) (keys R') [] st1); auto.
      destruct A as (A1 & A2 & A3). split; [exact A1|]. split; [eapply Ext_trans; eauto|].
      split; [|right; exact A3]. apply (e_regs _ _ A2). apply RG. now left.
    - exists k. split; [exact Rk|]. destruct B as [B|(s & L & U)]; [left; auto|right]. exists s. split; auto. now apply def_look.
    - destruct B as (s & L & Ns). exists k, s. split; [exact Rk|]. split; auto. now apply def_look.
  Qed.
End Compile.

Lemma start_inv D s R w1 (hash : {Used s "#"} + {~ Used s "#"}) : Good s -> (forall m, In m (keys R) <-> Used s m) ->
  Inv D s {| c_refs := if hash then [("#"%string, bc s)] else []; c_R := if hash then sdel "#" R else R; c_w := w1; c_log := [] |}.
Proof.
    intros Gs HR.
    set (rf := if hash then [("#"%string, bc s)] else []). set (R1 := if hash then sdel "#" R else R).
    set (st := {| c_refs := rf; c_R := R1; c_w := w1; c_log := [] |}).
    assert (HR1 : forall m, In m (keys R1) <-> Used s m /\ ~ (m = "#"%string /\ Used s "#")).
    { intros m. unfold R1. destruct hash as [U|NU].
      - rewrite <- HR. rewrite <- !sget_some_keys. destruct (string_dec m "#") as [->|N].
        + rewrite sget_sdel_same. split; [intros [? ?]; discriminate|]. tauto.
        + rewrite sget_sdel_other by auto. tauto.
      - rewrite HR. tauto. }
    assert (RG : forall m, reg st m <-> m = "#"%string /\ Used s "#").
    { intros m. unfold reg. cbn [c_refs st]. unfold rf. destruct hash; cbn; intuition congruence. }
    constructor.
      - cbn. unfold rf. destruct hash; repeat constructor.
      - intros k x Hx. cbn [c_refs st] in Hx. unfold rf in Hx. destruct hash as [U|NU]; [|discriminate].
        cbn [sget] in Hx. destruct (String.eqb_spec k "#") as [->|N]; [|discriminate]. injection Hx as <-.
        exists s. split; [now apply def_root|]. split; auto. split; auto. now apply rf_root.
      - intros m Hm. apply HR1 in Hm. apply rf_root. tauto.
      - intros m Um. destruct (string_dec m "#") as [->|N]; [left; apply RG; auto|]. right. apply HR1. tauto.
      - intros k s' m Hk Ds' Um. apply RG in Hk as [-> U]. inversion Ds' as [U'|? ? NU]; subst; [|tauto].
        destruct (string_dec m "#") as [->|N]; [left; apply RG; auto|]. right. apply HR1. tauto.
      - intros U. apply RG. auto.
      - split; [constructor|intros ? []].
Qed.

(** C46, C41: the outcome of a build *)
Theorem build_outcome n D s w : Sorted s -> (forall m s', lookup D m = Some s' -> Sorted s') ->
  match build_with n D s w with
  | Built c rf log =>
      c = bc s /\ Good s /\ ssorted rf /\ NoDup log /\
      (forall m, In m (keys rf) <-> Referred D s m) /\
      (forall m x, sget m rf = Some x -> exists s', Def D s m s' /\ Good s' /\ x = bc s')
  | BErr _ => s = SNil \/ Unknown s \/ bad_ref D s
  | BPanic _ => Nilish s \/ nil_ref D s
  | BOOF => True
  end.
Proof.
  intros So SD. unfold build_with. destruct s as [|c0] eqn:Es; [auto|]. rewrite <- Es in *. clear Es c0.
  pose proof (build_spec s So [] w) as B.
  assert (KEY : forall c R w1 (hash : {Used s "#"} + {~ Used s "#"}), c = bc s -> Good s -> (forall m, In m (keys R) <-> Used s m) ->
    match (let '(rf, R1) := if hash then ([("#"%string, c)], sdel "#" R) else ([], R) in
          match R1 with
          | [] => Built c rf []
          | _ :: _ =>
              match range_refs n (compile n D) (keys R1) [] {| c_refs := rf; c_R := R1; c_w := w1; c_log := [] |} with
              | COk st => Built c (c_refs st) (c_log st)
              | CErr m => BErr m
              | CPanic m => BPanic m
              | COOF => BOOF
              end
          end) with
    | Built c rf log =>
      c = bc s /\ Good s /\ ssorted rf /\ NoDup log /\
      (forall m, In m (keys rf) <-> Referred D s m) /\
      (forall m x, sget m rf = Some x -> exists s', Def D s m s' /\ Good s' /\ x = bc s')
    | BErr _ => s = SNil \/ Unknown s \/ bad_ref D s
    | BPanic _ => Nilish s \/ nil_ref D s
    | BOOF => True
    end).
  { intros c R w1 hash -> Gs HR.
    pose proof (start_inv D s R w1 hash Gs HR) as I.
    set (rf := if hash then [("#"%string, bc s)] else []) in *. set (R1 := if hash then sdel "#" R else R) in *.
    change (Inv D s {| c_refs := rf; c_R := R1; c_w := w1; c_log := [] |}) in I.
    replace (if hash then ([("#"%string, bc s)], sdel "#" R) else ([], R)) with (rf, R1) by (destruct hash; reflexivity).
    set (st := {| c_refs := rf; c_R := R1; c_w := w1; c_log := [] |}) in *.
    assert (FIN : forall st', Inv D s st' -> full st' ->
      bc s = bc s /\ Good s /\ ssorted (c_refs st') /\ NoDup (c_log st') /\
      (forall m, In m (keys (c_refs st')) <-> Referred D s m) /\
      (forall m x, sget m (c_refs st') = Some x -> exists s', Def D s m s' /\ Good s' /\ x = bc s')).
    { intros st' I' F. split; [reflexivity|]. split; [exact Gs|]. split; [apply (i_sorted _ _ _ I')|].
      split; [apply (i_log _ _ _ I')|]. split.
      - intros m. split.
        + intros Hm. apply sget_some_keys in Hm as [x Hx]. destruct (i_refs _ _ _ I' _ _ Hx) as (? & _ & _ & _ & H). exact H.
        + induction 1 as [m U|m s' k _ IHm Dm U].
          * destruct (i_root _ _ _ I' _ U) as [H|H]; [exact H|now apply F].
          * destruct (i_defs _ _ _ I' _ _ _ IHm Dm U) as [H|H]; [exact H|now apply F].
      - intros m x Hx. destruct (i_refs _ _ _ I' _ _ Hx) as (s' & H1 & H2 & H3 & _). eauto. }
    destruct R1 as [|r1 R1'] eqn:ER.
    - specialize (FIN st I). cbn [c_refs c_log st] in FIN. apply FIN. intros m Hm. destruct Hm.
    - assert (A : all_post D s st (range_refs n (compile n D) (keys (r1 :: R1')) [] st)).
      { apply range_post; [intros; apply compile_post; auto|exact I|intros ? []|right; auto|auto]. }
      destruct (range_refs n (compile n D) (keys (r1 :: R1')) [] st); cbn in A; auto.
      apply FIN; apply A. }
  destruct (build s [] w) as [[[c R] w1]|m|m]; auto.
  destruct B as [[-> Gs] HR].
  assert (HR' : forall m, In m (keys R) <-> Used s m) by (intros m; rewrite HR; cbn; tauto).
  destruct s as [|c0] eqn:Es; [destruct Gs as [_ G]; destruct G; constructor|]. rewrite <- Es in *.
  destruct (sget "#" R) as [[]|] eqn:GH.
  - assert (U : Used s "#") by (apply HR', sget_some_keys; eauto).
    apply (KEY (bc s) R w1 (left U)); auto.
  - assert (U : ~ Used s "#") by (intros U; apply HR', sget_some_keys in U as [? U]; congruence).
    apply (KEY (bc s) R w1 (right U)); auto.
Qed.

(** ** C41 *)
Theorem built_registered n D s w c rf log E : Sorted s -> (forall m s', lookup D m = Some s' -> Sorted s') ->
  build_with n D s w = Built c rf log ->
  forall x m, x = c \/ In x (map snd rf) -> Reach (with_refs E rf) x (CRef m) -> In m (keys rf).
Proof.
  intros So SD B. pose proof (build_outcome n D s w So SD) as O. rewrite B in O.
  destruct O as (-> & Gs & Sr & _ & HK & HD).
  assert (P : forall x y, Reach (with_refs E rf) x y -> (forall k, Mentions x k -> In k (keys rf)) -> forall k, Mentions y k -> In k (keys rf)).
  { induction 1 as [|x y z I _ IH]; auto. intros H. apply IH. intros k M.
    assert (NR : (forall r, x <> CRef r) -> In y (parts x)).
    { intros N. destruct x; try exact I. exfalso. now apply (N name). }
    destruct x; try (apply H; eapply men_part; [apply NR; discriminate|exact M]).
    cbn in I. destruct (sget name rf) as [y'|] eqn:G; [|destruct I]. destruct I as [->|[]].
    destruct (HD _ _ G) as (s' & Ds' & _ & ->). apply HK.
    eapply rf_def; [apply HK, sget_some_keys; eauto|exact Ds'|]. now apply bc_mentions. }
  intros x m Hx R. apply (P _ _ R); [|constructor].
  intros k M. destruct Hx as [->|Hx].
  - apply HK. apply rf_root. now apply bc_mentions.
  - apply in_map_iff in Hx as ([k' y] & <- & I). cbn in M.
    assert (G : sget k' rf = Some y) by (apply nodup_sget; auto; now apply ssorted_nodup).
    destruct (HD _ _ G) as (s' & Ds' & _ & ->). apply HK.
    eapply rf_def; [apply HK, sget_some_keys; eauto|exact Ds'|]. now apply bc_mentions.
Qed.

(** nothing that could be registered besides changes a verdict: no missing name is looked up *)
Theorem built_closed n D s w c rf log E f : Sorted s -> (forall m s', lookup D m = Some s' -> Sorted s') ->
  build_with n D s w = Built c rf log ->
  (forall m x, sget m rf = Some x -> f m = Some x) ->
  forall k v o, validate k (with_refs E rf) c v o = validate k (set_refs E f) c v o.
Proof.
  intros So SD B F k v o. change (with_refs E rf) with (set_refs E (fun m => sget m rf)).
  apply validate_local. intros m R.
  pose proof (built_registered n D s w c rf log E So SD B c m (or_introl eq_refl) R) as I.
  apply sget_some_keys in I as [x G]. rewrite G. symmetry. now apply F.
Qed.

(** the validator built does not depend on the iteration orders *)
Theorem built_order_free n n' D s w w' c rf log c' rf' log' :
  Sorted s -> (forall m s', lookup D m = Some s' -> Sorted s') ->
  build_with n D s w = Built c rf log -> build_with n' D s w' = Built c' rf' log' -> c = c' /\ rf = rf'.
Proof.
  intros So SD B B'. pose proof (build_outcome n D s w So SD) as O. pose proof (build_outcome n' D s w' So SD) as O'.
  rewrite B in O. rewrite B' in O'.
  destruct O as (-> & _ & S1 & _ & K1 & D1). destruct O' as (-> & _ & S2 & _ & K2 & D2). split; [reflexivity|].
  apply ssorted_ext; auto. intros m.
  destruct (sget m rf) as [x|] eqn:G; destruct (sget m rf') as [x'|] eqn:G'; auto.
  - destruct (D1 _ _ G) as (s1 & H1 & _ & ->). destruct (D2 _ _ G') as (s2 & H2 & _ & ->).
    assert (s1 = s2) as ->; [|reflexivity].
    inversion H1; inversion H2; subst; try congruence; exfalso; auto.
  - exfalso. apply sget_none_keys in G'. apply G', K2, K1, sget_some_keys. eauto.
  - exfalso. apply sget_none_keys in G. apply G, K1, K2, sget_some_keys. eauto.
Qed.

(** ** C42: termination *)
Lemma filter_le {A} (p : A -> bool) l : (List.length (filter p l) <= List.length l)%nat.
Proof. induction l as [|x l IH]; cbn [filter List.length]; [lia|]. destruct (p x); cbn [List.length]; lia. Qed.

Section Termination.
  Context (D : resolver) (s0 : schema) (U : list string).
  Hypothesis sorted0 : Sorted s0.
  Hypothesis sortedD : forall n s, lookup D n = Some s -> Sorted s.
  Hypothesis finite : forall m, Referred D s0 m -> In m U.

  Notation Inv := (Inv D s0).
  (** names not registered yet *)
  Definition left_over (st : cstate) : nat := List.length (filter (fun k => negb (mem k (keys (c_refs st)))) U).

  Lemma left_ext st st' : Ext st st' -> (left_over st' <= left_over st)%nat.
  Proof.
    intros [X _]. unfold left_over, reg in *. revert X. generalize (keys (c_refs st)) (keys (c_refs st')). intros a b X.
    clear - X. induction U as [|u l IH]; cbn; auto.
    destruct (mem u a) eqn:Ma; cbn.
    - assert (mem u b = true) as -> by (apply mem_In, X, mem_In, Ma). cbn. exact IH.
    - destruct (mem u b); cbn; lia.
  Qed.
  Lemma left_new st k R w log x : In k U -> ~ reg st k ->
    (left_over {| c_refs := sset k x (c_refs st); c_R := R; c_w := w; c_log := log |} < left_over st)%nat.
  Proof.
    unfold left_over, reg. cbn [c_refs]. intros I N.
    assert (X : forall n, In n (keys (sset k x (c_refs st))) <-> n = k \/ In n (keys (c_refs st))) by (intros; apply sset_keys).
    revert X N. generalize (keys (c_refs st)) (keys (sset k x (c_refs st))). intros a b X N.
    assert (LE : forall l, (List.length (filter (fun k => negb (mem k b)) l) <= List.length (filter (fun k => negb (mem k a)) l))%nat).
    { induction l as [|u l IH]; cbn; auto. destruct (mem u a) eqn:Ma; cbn.
      - assert (mem u b = true) as -> by (apply mem_In, X; right; now apply mem_In). cbn. exact IH.
      - destruct (mem u b); cbn; lia. }
    clear - I X N LE. induction U as [|u l IH]; [destruct I|]. cbn. destruct I as [->|I].
    - assert (mem k b = true) as -> by (apply mem_In, X; now left).
      assert (mem k a = false) as -> by (apply mem_false; auto). cbn. specialize (LE l). lia.
    - specialize (IH I). destruct (mem u a) eqn:Ma; cbn.
      + assert (mem u b = true) as -> by (apply mem_In, X; right; now apply mem_In). cbn. exact IH.
      + destruct (mem u b); cbn; lia.
  Qed.

  Lemma range_ends n (body : string -> cstate -> cres) m :
    (forall k st, Inv st -> Referred D s0 k -> post D s0 k st (body k st)) ->
    (forall k st, Inv st -> Referred D s0 k -> (left_over st <= m)%nat -> body k st <> COOF) ->
    forall start visited st, Inv st -> (left_over st <= m)%nat ->
      NoDup visited -> (forall k, In k visited -> In k U) -> (List.length U < n + List.length visited)%nat ->
      range_refs n body start visited st <> COOF.
  Proof.
    intros HB HN. induction n as [|n IH]; intros start visited st I L ND V F; cbn [range_refs].
    { exfalso. pose proof (NoDup_incl_length ND V). lia. }
    set (todo := filter (fun k => negb (mem k visited)) (keys (c_R st))).
    set (due := filter (fun k => mem k start) todo).
    destruct (next (c_w st)) as [i w'].
    set (st' := {| c_refs := c_refs st; c_R := c_R st; c_w := w'; c_log := c_log st |}).
    assert (I' : Inv st') by (destruct I; split; auto).
    assert (visit : forall k, In k todo ->
      match body k st' with COk st2 => range_refs n body start (k :: visited) st2 | r => r end <> COOF).
    { intros k Hk. apply filter_In in Hk as [Hk Mk]. pose proof (i_names _ _ _ I _ Hk) as Rk.
      specialize (HB k st' I' Rk). specialize (HN k st' I' Rk L).
      destruct (body k st') as [st2| | |]; auto; try discriminate. cbn in HB. destruct HB as (I2 & X2 & R2 & _).
      apply IH; auto.
      - apply left_ext in X2. assert (left_over st' = left_over st) by reflexivity. lia.
      - constructor; auto. apply negb_true_iff, mem_false in Mk. exact Mk.
      - intros k' [<-|Hk']; auto.
      - cbn [List.length]. lia. }
    destruct due as [|d due'] eqn:Ed.
    - destruct (nth_error todo i) as [k|] eqn:Nk; [|discriminate]. apply visit. eapply nth_error_In; eauto.
    - apply visit. assert (In d todo) as Hd.
      { assert (In d due) as HH by (rewrite Ed; now left). unfold due in HH. apply filter_In in HH. tauto. }
      destruct (nth_in_or_default i todo d) as [H|H]; [exact H|]. rewrite H. exact Hd.
  Qed.

  Lemma compile_ends : forall m n k st, Inv st -> Referred D s0 k -> (left_over st <= m)%nat ->
    (List.length U + m + 1 < n)%nat -> compile n D k st <> COOF.
  Proof.
    induction m as [m IH] using (well_founded_induction lt_wf). intros n k st I Rk L F.
    destruct n as [|n]; [lia|]. cbn [compile]. destruct (sget k (c_refs st)) as [x|] eqn:G; [discriminate|].
    assert (NR : ~ reg st k) by now apply sget_none_keys.
    pose proof (compile_post D s0 sortedD 1 k st I Rk) as P1. cbn [compile] in P1. rewrite G in P1.
    set (built := match D k with RError m => GErr m | RSchema s => build s (c_R st) (c_w st) | RMap (inr m) => GErr m
                  | RMap (inl s) => build s (c_R st) (c_w st) | ROther => build SNil (c_R st) (c_w st) end) in *.
    destruct built as [[[c R'] w']|e|e] eqn:EB; try discriminate. clear P1.
    set (st1 := {| c_refs := sset k c (c_refs st); c_R := R'; c_w := w'; c_log := k :: c_log st |}).
    assert (LT : (left_over st1 < left_over st)%nat) by (apply left_new; auto).
    assert (I1 : Inv st1).
    { assert (NH : ~ (k = "#"%string /\ Used s0 "#")) by (intros [-> Uh]; apply NR; now apply (i_hash _ _ _ I)).
      assert (B : exists s, lookup D k = Some s /\ c = bc s /\ Good s /\ forall n, In n (keys R') <-> In n (keys (c_R st)) \/ Used s n).
      { assert (C : forall s, lookup D k = Some s -> build s (c_R st) (c_w st) = GOk (c, R', w') ->
           exists s, lookup D k = Some s /\ c = bc s /\ Good s /\ forall n, In n (keys R') <-> In n (keys (c_R st)) \/ Used s n).
        { intros s Ls EQ. pose proof (build_spec s (sortedD _ _ Ls) (c_R st) (c_w st)) as H. rewrite EQ in H.
          destruct H as [[-> Gs] Hn]. exists s. auto. }
        unfold lookup in C |- *. unfold built in EB. destruct (D k) as [e|s|[s|e]|]; try discriminate.
        - now apply (C s).
        - now apply (C s). }
      destruct B as (s & Ls & -> & Gs & HR). now apply (Inv_step D s0 k s). }
    destruct m as [|m']; [lia|].
    apply (range_ends n (compile n D) m').
    - intros. now apply compile_post.
    - intros k' st' I' Rk' L'. apply (IH m'); auto; lia.
    - exact I1.
    - lia.
    - constructor.
    - intros ? [].
    - cbn [List.length]. lia.
  Qed.
End Termination.

(** C42: if only finitely many names can be referred to, building ends, whatever the order *)
Theorem build_terminates D s U : Sorted s -> (forall m s', lookup D m = Some s' -> Sorted s') ->
  (forall m, Referred D s m -> In m U) -> forall w, build_with (2 * List.length U + 3) D s w <> BOOF.
Proof.
  intros So SD F w. set (N := (2 * List.length U + 3)%nat). unfold build_with. destruct s as [|c0] eqn:Es; [discriminate|].
  rewrite <- Es in *. clear Es c0.
  pose proof (build_spec s So [] w) as B. destruct (build s [] w) as [[[c R] w1]|m|m]; try discriminate.
  destruct B as [[-> Gs] HR].
  assert (HR' : forall m, In m (keys R) <-> Used s m) by (intros m; rewrite HR; cbn; tauto).
  assert (KEY : forall hash : {Used s "#"} + {~ Used s "#"},
    let st := {| c_refs := if hash then [("#"%string, bc s)] else []; c_R := if hash then sdel "#" R else R; c_w := w1; c_log := [] |} in
    range_refs N (compile N D) (keys (c_R st)) [] st <> COOF).
  { intros hash st. pose proof (start_inv D s R w1 hash Gs HR') as I. fold st in I.
    apply (range_ends D s U F N (compile N D) (List.length U)).
    - intros. now apply compile_post.
    - intros k st' I' Rk L. apply (compile_ends D s U SD F (List.length U)); auto. unfold N. lia.
    - exact I.
    - apply filter_le.
    - constructor.
    - intros ? [].
    - unfold N. cbn [List.length]. lia. }
  destruct (sget "#" R) as [[]|] eqn:GH.
  - assert (Uh : Used s "#") by (apply HR', sget_some_keys; eauto). specialize (KEY (left Uh)). cbn [c_R] in KEY. cbv zeta in KEY.
    destruct (sdel "#" R) as [|r R1]; [discriminate|].
    destruct (range_refs N (compile N D) (keys (r :: R1)) [] _); try discriminate. now destruct KEY.
  - assert (Uh : ~ Used s "#") by (intros Uh; apply HR', sget_some_keys in Uh as [? Uh]; congruence).
    specialize (KEY (right Uh)). cbn [c_R] in KEY. cbv zeta in KEY.
    destruct R as [|r R1]; [discriminate|].
    destruct (range_refs N (compile N D) (keys (r :: R1)) [] _); try discriminate. now destruct KEY.
Qed.
