(** Two values that offer the same properties get the same verdict: the common part of
    C35 (struct against map) and C51 (pointer against map). *)
From Verif Require Import Base GoFloat GoValue Maybe Formats Constraint StructInfo Validate Fuel Reach ReadOnly.
Open Scope Z_scope.

Definition same_verdict (a b : res) : Prop :=
  match a, b with
  | Pass, Pass | Fail _, Fail _ | Panic _, Panic _ | OOF, OOF => True
  | _, _ => False
  end.

(** the constraints that are applied to the very value a constraint is applied to *)
Definition coapplied (E : env) (c : constr) : list constr :=
  match c with
  | CObj o => map snd (o_sdeps o)
  | CAny l | CAll l | COneOf l => l
  | CNot x => [x]
  | CRef n => match e_refs E n with Some x => [x] | None => [] end
  | _ => []
  end.

Inductive Applied (E : env) : constr -> constr -> Prop :=
| ap_refl c : Applied E c c
| ap_step c x c' : In x (coapplied E c) -> Applied E x c' -> Applied E c c'.

Lemma ap_trans E a b c : Applied E a b -> Applied E b c -> Applied E a c.
Proof. induction 1; auto. intros R. econstructor; eauto. Qed.

(** neither nil nor a scalar nor a slice, as far as Validate looks *)
Definition composite (v : gval) : Prop :=
  (match v with GBool _ _ | GSlice _ _ _ | GNil => False | _ => True end) /\
  (match deref1 v with
   | RV false (GFloat _ _ _) | RV false (GInt _ _ _) | RV false (GUint _ _ _) | RV false (GStr _ _) => False
   | _ => True
   end) /\
  null_validate v = Fail "value is not null".

Definition same_look (a b : look) : Prop :=
  match a, b with
  | LPanic, LPanic | LMissing, LMissing => True
  | LHere _ x, LHere _ y => x = y
  | _, _ => False
  end.

Definition kept (l : look) (v : gval) (k : string) (x : gval) : gval :=
  match l with LHere true _ => v | _ => put_prop v k x end.

Definition same_access (E : env) (Sim : gval -> gval -> Prop) (a b : gres gval) : Prop :=
  match a, b with
  | GOk x, GOk y => Sim x y
  | GErr _, GErr _ | GPanic _, GPanic _ => True
  | _, _ => False
  end.

Section sim.
  Variables (E : env) (Sim : gval -> gval -> Prop) (Bad Absent : string -> Prop) (Cap : gval -> gval -> Prop) (root : constr).
  Hypothesis H_comp : forall s m, Sim s m -> composite s /\ composite m.
  Hypothesis H_names : forall s m, Sim s m ->
    match get_names (deref1 s), get_names (deref1 m) with
    | GOk l, GOk l' => l = l' | GErr _, GErr _ | GPanic _, GPanic _ => True | _, _ => False
    end.
  Hypothesis H_look : forall s m k, Sim s m ->
    match get_prop (deref1 s) k, get_prop (deref1 m) k with
    | None, None => True
    | Some a, Some b =>
        same_look (look_prop a) (look_prop b) /\
        (forall x x', Cap x x' -> (exists u, look_prop a = LHere u x) ->
           Sim (kept (look_prop a) s k x') (kept (look_prop b) m k x')) /\
        (Bad k \/ (interface a = interface b /\
           forall x x', interface a = Some x -> Cap x x' -> Sim (put_prop s k x') (put_prop m k x')))
    | _, _ => False
    end.
  Hypothesis H_bad : forall s m k pv, Sim s m -> Bad k -> get_prop (deref1 s) k = Some pv ->
    Absent k \/ exists u x, look_prop pv = LHere u x.
  Hypothesis H_absent : forall s m k l, Sim s m -> Absent k -> get_names (deref1 s) = GOk l -> ~ In k l.
  Hypothesis H_set : forall s m k d o c, Sim s m -> Reach E root (CObj o) -> In (k, c) (o_props o) -> Default E c d ->
    same_access E Sim (set_prop E s k d) (set_prop E m k d).
  Hypothesis H_cap : forall n c x w r x' w', Reach E root c -> validate n E c x w = (r, x', w') -> Cap x x'.
  Hypothesis H_enum : forall l, ~ Applied E root (CEnum l).
  Hypothesis H_cov : forall o k, Applied E root (CObj o) -> Bad k -> Absent k \/ In k (map fst (o_props o)).

  Definition rel_out (a b : out) : Prop :=
    same_verdict (fst (fst a)) (fst (fst b)) /\ Sim (snd (fst a)) (snd (fst b)) /\ snd a = snd b.

  Definition rel_st (a b : res * ostate * orc) : Prop :=
    let '(r1, (v1, pm1, sn1), w1) := a in
    let '(r2, (v2, pm2, sn2), w2) := b in
    same_verdict r1 r2 /\ Sim v1 v2 /\ pm1 = pm2 /\ sn1 = sn2 /\ w1 = w2.

  Lemma applied_reach c : Applied E root c -> Reach E root c.
  Proof.
    intros A. assert (X : forall a b, Applied E a b -> Reach E a b).
    { induction 1; [constructor|]. econstructor; [|eassumption].
      destruct c0; cbn [coapplied children] in *; auto; try contradiction.
      right. rewrite !in_app_iff. auto. }
    auto.
  Qed.

  Section step.
    Variable n : nat.
    Let rec := validate n E.
    Hypothesis IH : forall c s m w, Applied E root c -> Sim s m -> rel_out (rec c s w) (rec c m w).

    Lemma all_sim l : Forall (Applied E root) l -> forall s m w, Sim s m ->
      rel_out (all_loop rec l s w) (all_loop rec l m w).
    Proof.
      induction 1 as [|c l Hc Hl IHl]; intros s m w S; cbn [all_loop]; [repeat split; auto|].
      pose proof (IH c s m w Hc S) as (V & S' & W).
      destruct (rec c s w) as [[r1 s1] w1], (rec c m w) as [[r2 m1] w2]. cbn in V, S', W. subst w2.
      destruct r1, r2; try contradiction; try (repeat split; auto; fail). auto.
    Qed.

    Lemma any_sim l : Forall (Applied E root) l -> forall s m w, Sim s m ->
      rel_out (any_loop rec l s w) (any_loop rec l m w).
    Proof.
      induction 1 as [|c l Hc Hl IHl]; intros s m w S; cbn [any_loop]; [repeat split; auto|].
      pose proof (IH c s m w Hc S) as (V & S' & W).
      destruct (rec c s w) as [[r1 s1] w1], (rec c m w) as [[r2 m1] w2]. cbn in V, S', W. subst w2.
      destruct r1, r2; try contradiction; try (repeat split; auto; fail). auto.
    Qed.

    Lemma oneof_sim l : Forall (Applied E root) l -> forall i s m w, Sim s m ->
      rel_out (oneof_loop rec l i s w) (oneof_loop rec l i m w).
    Proof.
      induction 1 as [|c l Hc Hl IHl]; intros i s m w S; cbn [oneof_loop].
      - destruct i as [|[|]]; repeat split; auto.
      - pose proof (IH c s m w Hc S) as (V & S' & W).
        destruct (rec c s w) as [[r1 s1] w1], (rec c m w) as [[r2 m1] w2]. cbn in V, S', W. subst w2.
        destruct r1, r2; try contradiction; try (repeat split; auto; fail); auto.
    Qed.

    Lemma not_sim c s m w : Applied E root c -> Sim s m ->
      rel_out (not_validate rec c s w) (not_validate rec c m w).
    Proof.
      intros Hc S. unfold not_validate.
      pose proof (IH c s m w Hc S) as (V & S' & W).
      destruct (rec c s w) as [[r1 s1] w1], (rec c m w) as [[r2 m1] w2]. cbn in V, S', W. subst w2.
      destruct c; try (repeat split; auto; fail); destruct r1, r2; try contradiction; repeat split; auto.
    Qed.

    Section obj.
      Variable o : objcfg.
      Hypothesis Ho : Applied E root (CObj o).

      Lemma prop_reach k c : In (k, c) (o_props o) -> Reach E root c.
      Proof.
        intros I. eapply reach_trans; [apply applied_reach, Ho|].
        eapply reach_child, child_prop, I.
      Qed.

      Lemma props_sim ps : (forall e, In e ps -> In e (o_props o)) -> forall s m pm sn w, Sim s m ->
        rel_st (props_loop rec (get_default n E) E o ps (s, pm, sn) w)
               (props_loop rec (get_default n E) E o ps (m, pm, sn) w) /\
        (forall v pm' sn' w', props_loop rec (get_default n E) E o ps (s, pm, sn) w = (Pass, (v, pm', sn'), w') ->
           (forall k, In k pm' -> In k pm) /\
           (forall k, Bad k -> ~ Absent k -> In k (map fst ps) -> ~ In k pm')).
      Proof.
        induction ps as [|[k c] ps IHp]; intros Q s m pm sn w S; cbn [props_loop].
        - split; [repeat split; auto|]. intros v pm' sn' w' [= _ <- _ _]. split; auto.
        - assert (Q' : forall e, In e ps -> In e (o_props o)) by (intros; apply Q; now right).
          assert (Qk : In (k, c) (o_props o)) by (apply Q; now left).
          pose proof (H_look s m k S) as HL. pose proof (fun pv => H_bad s m k pv S) as HB.
          destruct (get_prop (deref1 s) k) as [a|], (get_prop (deref1 m) k) as [b|]; try contradiction.
          2: { split; [repeat split; auto|]. intros; discriminate. }
          destruct HL as (SL & SK & SR). specialize (HB a).
          destruct (look_prop a) as [| |u x] eqn:La, (look_prop b) as [| |u' x'] eqn:Lb; try contradiction.
          + split; [repeat split; auto|]. intros; discriminate.
          + destruct (is_required o k); [split; [repeat split; auto|intros; discriminate]|].
            assert (NB : Bad k -> ~ Absent k -> False).
            { intros B NA. destruct (HB B eq_refl) as [X|(? & ? & X)]; [contradiction|discriminate]. }
            destruct (get_default n E c) as [|d| |] eqn:G.
            * destruct (IHp Q' s m pm sn w S) as [I1 I2]. split; [exact I1|].
              intros v pm' sn' w' R. destruct (I2 v pm' sn' w' R) as [J1 J2]. split; auto.
              intros k' B NA [<-|I']; [destruct (NB B NA)|auto].
            * pose proof (H_set s m k d o c S (applied_reach _ Ho) Qk (get_default_sound E n c d G)) as HS.
              destruct (set_prop E s k d) as [s'|e|e], (set_prop E m k d) as [m'|e'|e']; try contradiction;
                try (split; [repeat split; auto|intros; discriminate]).
              destruct (IHp Q' s' m' pm sn w HS) as [I1 I2]. split; [exact I1|].
              intros v pm' sn' w' R. destruct (I2 v pm' sn' w' R) as [J1 J2]. split; auto.
              intros k' B NA [<-|I']; [destruct (NB B NA)|auto].
            * split; [repeat split; auto|intros; discriminate].
            * split; [repeat split; auto|intros; discriminate].
          + cbn in SL. subst x'.
            destruct (rec c x w) as [[r1 x1] w1] eqn:R1.
            assert (CX : Cap x x1) by (eapply H_cap; [|exact R1]; eapply prop_reach; eauto).
            specialize (SK x x1 CX (ex_intro _ u eq_refl)). unfold kept in SK.
            assert (SK' : Sim (if u then s else put_prop s k x1) (if u' then m else put_prop m k x1))
              by (destruct u, u'; exact SK).
            destruct r1; try (split; [repeat split; auto|intros; discriminate]).
            destruct (IHp Q' _ _ (remove_s k pm) (k :: sn) w1 SK') as [I1 I2]. split; [exact I1|].
            intros v pm' sn' w' R. destruct (I2 v pm' sn' w' R) as [J1 J2].
            assert (J3 : forall k0, In k0 pm' -> In k0 pm /\ k0 <> k).
            { intros k0 K0. apply J1 in K0. now apply remove_s_In in K0. }
            split; [intros k0 K0; now apply J3|].
            intros k' B NA [<-|I'] K'; [now apply J3 in K'|]. exact (J2 k' B NA I' K').
      Qed.

      Lemma pat_inner_sim src c ns : Reach E root c -> (forall k, In k ns -> ~ Bad k) ->
        forall s m pm sn w, Sim s m ->
        rel_st (pat_inner rec E src c ns (s, pm, sn) w) (pat_inner rec E src c ns (m, pm, sn) w) /\
        (forall v pm' sn' w', pat_inner rec E src c ns (s, pm, sn) w = (Pass, (v, pm', sn'), w') ->
           forall k, In k pm' -> In k pm).
      Proof.
        intros Rc. induction ns as [|k ns IHn]; intros NB s m pm sn w S; cbn [pat_inner].
        - split; [repeat split; auto|]. now intros v pm' sn' w' [= _ <- _ _].
        - assert (NB' : forall k, In k ns -> ~ Bad k) by (intros; apply NB; now right).
          destruct (negb (e_rx E src k)); [now apply IHn|].
          pose proof (H_look s m k S) as HL.
          destruct (get_prop (deref1 s) k) as [a|], (get_prop (deref1 m) k) as [b|]; try contradiction.
          2: { split; [repeat split; auto|]. intros; discriminate. }
          destruct HL as (_ & _ & [B|[IE SP]]); [exfalso; eapply NB; [now left|exact B]|].
          rewrite <- IE. destruct (interface a) as [x|] eqn:Ia.
          2: { split; [repeat split; auto|]. intros; discriminate. }
          destruct (rec c x w) as [[r1 x1] w1] eqn:R1.
          assert (CX : Cap x x1) by (eapply H_cap; [|exact R1]; eauto).
          specialize (SP x x1 eq_refl CX).
          destruct r1; try (split; [repeat split; auto|intros; discriminate]).
          destruct (IHn NB' _ _ (remove_s k pm) (k :: sn) w1 SP) as [I1 I2]. split; [exact I1|].
          intros v pm' sn' w' R k' K'. apply (I2 v pm' sn' w' R) in K'. now apply remove_s_In in K'.
      Qed.

      Lemma pats_sim ps : (forall e, In e ps -> Reach E root (snd e)) -> forall s m pm sn w, Sim s m ->
        (forall k, In k pm -> ~ Bad k) ->
        rel_st (pats_loop rec E ps (s, pm, sn) w) (pats_loop rec E ps (m, pm, sn) w) /\
        (forall v pm' sn' w', pats_loop rec E ps (s, pm, sn) w = (Pass, (v, pm', sn'), w') ->
           forall k, In k pm' -> In k pm).
      Proof.
        induction ps as [|[[i src] c] ps IHp]; intros Q s m pm sn w S NB; cbn [pats_loop].
        - split; [repeat split; auto|]. now intros v pm' sn' w' [= _ <- _ _].
        - destruct (shuffle w pm) as [ns w1] eqn:Sh.
          assert (NB' : forall k, In k ns -> ~ Bad k).
          { intros k K. apply NB. eapply Permutation_in; [|exact K].
            apply shuffle_perm in Sh. now symmetry. }
          destruct (pat_inner_sim src c ns (Q _ (or_introl eq_refl)) NB' s m pm sn w1 S) as [I1 I2].
          destruct (pat_inner rec E src c ns (s, pm, sn) w1) as [[r1 [[s1 pm1] sn1]] w2],
                   (pat_inner rec E src c ns (m, pm, sn) w1) as [[r2 [[m1 pm2] sn2]] w3].
          destruct I1 as (V & S1 & <- & <- & <-).
          destruct r1, r2; try contradiction; try (split; [repeat split; auto|intros; discriminate]).
          specialize (I2 _ _ _ _ eq_refl).
          destruct (IHp (fun e He => Q e (or_intror He)) s1 m1 pm1 sn1 w2 S1) as [K1 K2].
          { intros k K. apply NB, I2, K. }
          split; [exact K1|]. intros v pm' sn' w' R k K. eapply I2, K2; eauto.
      Qed.

      Lemma add_sim c ns : Reach E root c -> (forall k, In k ns -> ~ Bad k) -> forall s m w, Sim s m ->
        rel_out (add_loop rec c ns s w) (add_loop rec c ns m w).
      Proof.
        intros Rc. induction ns as [|k ns IHn]; intros NB s m w S; cbn [add_loop]; [repeat split; auto|].
        assert (NB' : forall k, In k ns -> ~ Bad k) by (intros; apply NB; now right).
        pose proof (H_look s m k S) as HL.
        destruct (get_prop (deref1 s) k) as [a|], (get_prop (deref1 m) k) as [b|]; try contradiction.
        2: { repeat split; auto. }
        destruct HL as (_ & _ & [B|[IE SP]]); [exfalso; eapply NB; [now left|exact B]|].
        rewrite <- IE. destruct (interface a) as [x|] eqn:Ia; [|repeat split; auto].
        destruct (rec c x w) as [[r1 x1] w1] eqn:R1.
        assert (CX : Cap x x1) by (eapply H_cap; [|exact R1]; eauto).
        specialize (SP x x1 eq_refl CX).
        destruct r1; try (repeat split; auto; fail). now apply IHn.
      Qed.

      Lemma sdep_applied k : schema_dep o k <> CNil -> Applied E root (schema_dep o k).
      Proof.
        intros N. eapply ap_trans; [exact Ho|]. eapply ap_step; [|constructor].
        cbn [coapplied]. unfold schema_dep in *.
        destruct (sget k (o_sdeps o)) as [c|] eqn:G; [|congruence].
        apply sget_in in G. apply in_map_iff. exists (k, c). auto.
      Qed.

      Lemma deps_sim sn ns : forall s m w, Sim s m ->
        rel_out (deps_loop rec o sn ns s w) (deps_loop rec o sn ns m w).
      Proof.
        induction ns as [|k ns IHn]; intros s m w S; cbn [deps_loop]; [repeat split; auto|].
        destruct (prop_deps o k) as [|d ds].
        - pose proof (sdep_applied k) as A.
          destruct (schema_dep o k) eqn:D; [now apply IHn|..];
            (specialize (A ltac:(discriminate));
             match goal with |- context[rec ?c s w] => pose proof (IH c s m w A S) as (V & S' & W);
               destruct (rec c s w) as [[r1 s1] w1], (rec c m w) as [[r2 m1] w2] end;
             cbn in V, S', W; subst w2;
             destruct r1, r2; try contradiction; try (repeat split; auto; fail); now apply IHn).
        - destruct (missing_dep sn (d :: ds)); [repeat split; auto|]. now apply IHn.
      Qed.

      Lemma obj_sim s m w : Sim s m ->
        rel_out (obj_validate rec (get_default n E) E o s w) (obj_validate rec (get_default n E) E o m w).
      Proof.
        intros S. unfold obj_validate. pose proof (H_names s m S) as N.
        destruct (get_names (deref1 s)) as [l|e|e] eqn:GN, (get_names (deref1 m)) as [l'|e'|e']; try contradiction;
          try (repeat split; auto; fail).
        subst l'. 
        destruct ((-1 <? o_min o) && (Z.of_nat (List.length l) <? o_min o)); [repeat split; auto|].
        destruct ((-1 <? o_max o) && (o_max o <? Z.of_nat (List.length l))); [repeat split; auto|].
        destruct (shuffle w (o_props o)) as [ps w1] eqn:Sh.
        apply shuffle_perm in Sh.
        assert (Q : forall e, In e ps -> In e (o_props o))
          by (intros e He; eapply Permutation_in; [symmetry; exact Sh|exact He]).
        destruct (props_sim ps Q s m l [] w1 S) as [I1 I2].
        destruct (props_loop rec (get_default n E) E o ps (s, l, []) w1) as [[r1 [[s1 pm1] sn1]] w2],
                 (props_loop rec (get_default n E) E o ps (m, l, []) w1) as [[r2 [[m1 pm2] sn2]] w3].
        destruct I1 as (V & S1 & <- & <- & <-).
        destruct r1, r2; try contradiction; try (repeat split; auto; fail).
        destruct (I2 _ _ _ _ eq_refl) as [SUB NB0].
        assert (NB : forall k, In k pm1 -> ~ Bad k).
        { intros k K B.
          assert (NA : ~ Absent k) by (intros X; exact (H_absent s m k l S X GN (SUB k K))).
          eapply NB0; [exact B|exact NA| |exact K].
          eapply Permutation_in; [apply Permutation_map; exact Sh|].
          destruct (H_cov o k Ho B); [contradiction|assumption]. }
        destruct (shuffle w2 (o_pats o)) as [pats w4] eqn:Sh2. apply shuffle_perm in Sh2.
        assert (Q2 : forall e, In e pats -> Reach E root (snd e)).
        { intros [k c] He. eapply reach_trans; [apply applied_reach, Ho|].
          eapply reach_child, (child_pat E o k c). eapply Permutation_in; [symmetry; exact Sh2|exact He]. }
        destruct (pats_sim pats Q2 s1 m1 pm1 sn1 w4 S1 NB) as [J1 J2].
        destruct (pats_loop rec E pats (s1, pm1, sn1) w4) as [[r1 [[s2 pm2] sn2]] w5],
                 (pats_loop rec E pats (m1, pm1, sn1) w4) as [[r2 [[m2 pm3] sn3]] w6].
        destruct J1 as (V2 & S2 & <- & <- & <-).
        destruct r1, r2; try contradiction; try (repeat split; auto; fail).
        specialize (J2 _ _ _ _ eq_refl).
        assert (Radd : Reach E root (o_add o)).
        { eapply reach_trans; [apply applied_reach, Ho|]. apply reach_child, child_add. }
        assert (D : forall s m w, Sim s m ->
          rel_out (let '(ns, w7) := shuffle w sn2 in deps_loop rec o sn2 ns s w7)
                  (let '(ns, w7) := shuffle w sn2 in deps_loop rec o sn2 ns m w7)).
        { intros s' m' w' S'. destruct (shuffle w' sn2). now apply deps_sim. }
        destruct pm2 as [|p pm2]; [now apply D|].
        destruct (shuffle w5 (p :: pm2)) as [ns w6] eqn:Sh3. apply shuffle_perm in Sh3.
        assert (NB3 : forall k, In k ns -> ~ Bad k).
        { intros k K. apply NB, J2. eapply Permutation_in; [symmetry; exact Sh3|exact K]. }
        destruct (o_add o) as [] eqn:Oa; [repeat split; auto|..];
          (match goal with |- context[add_loop rec ?c ns s2 w6] =>
             destruct (add_sim c ns Radd NB3 s2 m2 w6 S2) as (V3 & S3 & W3);
             destruct (add_loop rec c ns s2 w6) as [[r1 s3] w7], (add_loop rec c ns m2 w6) as [[r2 m3] w8] end;
           cbn in V3, S3, W3; subst w8;
           destruct r1, r2; try contradiction; try (repeat split; auto; fail); now apply D).
      Qed.
    End obj.
  End step.

  Lemma scalar_sim s m : Sim s m ->
    (forall q, same_verdict (str_validate E q s) (str_validate E q m)) /\
    (forall q, same_verdict (num_validate q s) (num_validate q m)) /\
    (forall q, same_verdict (int_validate q s) (int_validate q m)) /\
    same_verdict (bool_validate s) (bool_validate m) /\
    same_verdict (null_validate s) (null_validate m).
  Proof.
    intros S. destruct (H_comp s m S) as [(A1 & A2 & A3) (B1 & B2 & B3)].
    unfold str_validate, num_validate, int_validate, bool_validate. rewrite A3, B3.
    repeat split.
    - intros q. destruct (deref1 s) as [|[|] []], (deref1 m) as [|[|] []]; try contradiction; exact I.
    - intros q. destruct (deref1 s) as [|[|] []], (deref1 m) as [|[|] []]; try contradiction; exact I.
    - intros q. destruct (deref1 s) as [|[|] []], (deref1 m) as [|[|] []]; try contradiction; exact I.
    - destruct s, m; try contradiction; exact I.
  Qed.

  Theorem validate_sim n : forall c s m w, Applied E root c -> Sim s m ->
    rel_out (validate n E c s w) (validate n E c m w).
  Proof.
    induction n as [|n IH]; intros c s m w A S; cbn [validate]; [repeat split; auto|].
    destruct (scalar_sim s m S) as (K1 & K2 & K3 & K4 & K5).
    assert (AP : forall x, In x (coapplied E c) -> Applied E root x).
    { intros x Hx. eapply ap_trans; [exact A|]. econstructor; [exact Hx|constructor]. }
    destruct c; try (unfold rel_out; cbn [fst snd]; split; [solve [auto|exact I]|split; auto]; fail).
    - destruct (H_comp s m S) as [(A1 & _) (B1 & _)].
      unfold arr_validate. destruct s, m; try contradiction; repeat split; auto.
    - now apply obj_sim.
    - exfalso. eapply H_enum, A.
    - apply any_sim; auto. now apply Forall_forall.
    - apply all_sim; auto. now apply Forall_forall.
    - apply oneof_sim; auto. now apply Forall_forall.
    - apply not_sim; auto. apply AP. now left.
    - cbn [coapplied] in AP. destruct (e_refs E name); [|repeat split; auto].
      apply IH; auto. apply AP. now left.
  Qed.
End sim.
