(** A generic preservation theorem: a relation between values that survives writing
    a child back and inserting a default survives Validate. *)
From Verif Require Import Base GoFloat GoValue Maybe Formats Constraint StructInfo Validate Fuel Reach ReadOnly.
Open Scope Z_scope.

Section Frame.
  Variables (E : env) (P : constr -> Prop) (I : gval -> Prop) (Q : gval -> gval -> Prop).
  Hypothesis Qrefl : forall v, I v -> Q v v.
  Hypothesis Qtrans : forall a b c, Q a b -> Q b c -> Q a c.
  Hypothesis Pchild : forall c x, P c -> In x (children E c) -> P x.
  Hypothesis Iprop : forall v k i x, I v -> get_prop (deref1 v) k = Some (RV i x) -> I x.
  Hypothesis Qput : forall v k i x x', I v -> get_prop (deref1 v) k = Some (RV i x) -> I x' -> Q x x' ->
    I (put_prop v k x') /\ Q v (put_prop v k x').
  Hypothesis Qset : forall o k c d v v' pv, P (CObj o) -> In (k, c) (o_props o) -> Default E c d -> I v ->
    get_prop (deref1 v) k = Some pv -> look_prop pv = LMissing -> set_prop E v k d = GOk v' -> I v' /\ Q v v'.
  Hypothesis Islice : forall T i l, I (GSlice T i (Some l)) -> Forall I l.
  Hypothesis Qslice : forall T i l l', I (GSlice T i (Some l)) -> Forall2 (fun x y => I y /\ Q x y) l l' ->
    I (GSlice T i (Some l')) /\ Q (GSlice T i (Some l)) (GSlice T i (Some l')).

  Definition pres (rec : recT) : Prop :=
    forall c v w r v' w', P c -> I v -> rec c v w = (r, v', w') -> I v' /\ Q v v'.

  Section loops.
    Variables (rec : recT) (K : pres rec).

    Lemma all_loop_pres cs : Forall P cs -> forall v w r v' w', I v ->
      all_loop rec cs v w = (r, v', w') -> I v' /\ Q v v'.
    Proof.
      induction 1 as [|c cs Hc H IH]; intros v w r v' w' Iv E1; cbn in E1; [inversion E1; subst; auto|].
      destruct (rec c v w) as [[rr v1] w1] eqn:E2. apply K in E2; auto. destruct E2 as [I1 Q1].
      destruct rr; try (inversion E1; subst; auto).
      apply IH in E1; auto. destruct E1. eauto.
    Qed.

    Lemma any_loop_pres cs : Forall P cs -> forall v w r v' w', I v ->
      any_loop rec cs v w = (r, v', w') -> I v' /\ Q v v'.
    Proof.
      induction 1 as [|c cs Hc H IH]; intros v w r v' w' Iv E1; cbn in E1; [inversion E1; subst; auto|].
      destruct (rec c v w) as [[rr v1] w1] eqn:E2. apply K in E2; auto. destruct E2 as [I1 Q1].
      destruct rr; try (inversion E1; subst; auto).
      apply IH in E1; auto. destruct E1. eauto.
    Qed.

    Lemma oneof_loop_pres cs : Forall P cs -> forall n v w r v' w', I v ->
      oneof_loop rec cs n v w = (r, v', w') -> I v' /\ Q v v'.
    Proof.
      induction 1 as [|c cs Hc H IH]; intros n v w r v' w' Iv E1; cbn in E1; [inversion E1; subst; auto|].
      destruct (rec c v w) as [[rr v1] w1] eqn:E2. apply K in E2; auto. destruct E2 as [I1 Q1].
      destruct rr; try (inversion E1; subst; auto).
      - apply IH in E1; auto. destruct E1. eauto.
      - apply IH in E1; auto. destruct E1. eauto.
    Qed.

    Lemma not_pres c v w r v' w' : P c -> I v -> not_validate rec c v w = (r, v', w') -> I v' /\ Q v v'.
    Proof.
      intros Hc Iv E1. unfold not_validate in E1. destruct c; try (inversion E1; subst; auto; fail);
      (match type of E1 with context[rec ?c v w] =>
         destruct (rec c v w) as [[rr v1] w1] eqn:E2; apply K in E2; auto; destruct E2 end;
       destruct rr; inversion E1; subst; auto).
    Qed.

    Lemma Forall2_set_nth l0 l i x :
      Forall2 (fun x y => I y /\ Q x y) l0 l -> (i < List.length l)%nat -> I x -> Q (nth i l GNil) x ->
      Forall2 (fun x y => I y /\ Q x y) l0 (set_nth i x l).
    Proof.
      intros H. revert i. induction H as [|a b l0 l [Hb Hab] H IH]; intros i Hi Hx Hq; cbn in *; [lia|].
      destruct i; cbn in *; constructor; eauto. apply IH; auto. lia.
    Qed.

    Lemma set_nth_length {A} i (x : A) l : List.length (set_nth i x l) = List.length l.
    Proof. revert i. induction l; intros [|i]; cbn; auto. Qed.

    Lemma set_nth_over {A} i (x : A) l : (List.length l <= i)%nat -> set_nth i x l = l.
    Proof. revert i. induction l as [|a l IH]; intros [|i] H; cbn in *; auto; [lia|]. rewrite IH; auto. lia. Qed.

    Lemma idx_loop_pres jobs : Forall (fun j => P (snd j)) jobs -> forall l0 l w r l' w',
      Forall2 (fun x y => I y /\ Q x y) l0 l ->
      idx_loop rec jobs l w = (r, l', w') -> Forall2 (fun x y => I y /\ Q x y) l0 l'.
    Proof.
      induction 1 as [|[i c] jobs Hc H IH]; intros l0 l w r l' w' F E1; cbn in E1; [inversion E1; subst; auto|].
      destruct (rec c (nth i l GNil) w) as [[rr x] w1] eqn:E2.
      assert (F' : Forall2 (fun x y => I y /\ Q x y) l0 (set_nth i x l)).
      { destruct (Nat.lt_ge_cases i (List.length l)) as [L|L].
        - assert (In_ : I (nth i l GNil)).
          { clear - F L. revert i L. induction F as [|a b ? ? []]; intros [|i] L; cbn in *; try lia; auto. apply IHF. lia. }
          apply K in E2; auto. destruct E2. apply Forall2_set_nth; auto.
        - now rewrite set_nth_over. }
      destruct rr; try (inversion E1; subst; exact F'). eauto.
    Qed.

    Lemma arr_pres a v w r v' w' :
      P (a_items a) -> P (a_add a) -> Forall P (a_pos a) -> I v ->
      arr_validate rec E a v w = (r, v', w') -> I v' /\ Q v v'.
    Proof.
      intros H1 H2 H3 Iv. unfold arr_validate. destruct v as [| | | | | |T ifc l| | | | | |]; try (intros E1; inversion E1; subst; auto; fail).
      set (l0 := match l with Some l => l | None => [] end).
      set (rb := fun l' => GSlice T ifc match l with Some _ => Some l' | None => None end).
      assert (RB : forall l', Forall2 (fun x y => I y /\ Q x y) l0 l' -> I (rb l') /\ Q (GSlice T ifc l) (rb l')).
      { intros l' F. unfold rb. destruct l as [l|]; auto. }
      assert (F0 : Forall2 (fun x y => I y /\ Q x y) l0 l0).
      { unfold l0. destruct l as [l|]; [|constructor]. apply Islice in Iv.
        clear - Iv Qrefl. revert Iv. induction 1; constructor; auto. }
      destruct (_ && _); [intros E1; inversion E1; subst; auto|].
      destruct (_ && _); [intros E1; inversion E1; subst; auto|].
      destruct (_ && _); [intros E1; inversion E1; subst; auto|].
      assert (Jp : Forall (fun j => P (snd j)) (positional_jobs (a_pos a) (List.length l0))).
      { unfold positional_jobs. apply Forall_forall. intros [i c] Hin. apply in_combine_r in Hin.
        rewrite Forall_forall in H3. auto. }
      assert (Jm : forall c l, P c -> Forall (fun j => P (snd j)) (map (fun i : nat => (i, c)) l)).
      { intros c l' Hc. apply Forall_forall. intros j Hin. apply in_map_iff in Hin. destruct Hin as (? & <- & _). exact Hc. }
      assert (EL : forall c l1 w1 r1 l2 w2 j, P c -> Forall2 (fun x y => I y /\ Q x y) l0 l1 ->
        idx_loop rec (map (fun i : nat => (i, c)) j) l1 w1 = (r1, l2, w2) -> Forall2 (fun x y => I y /\ Q x y) l0 l2).
      { intros c l1 w1 r1 l2 w2 j Hc F1 EE. exact (idx_loop_pres _ (Jm c j Hc) l0 l1 w1 r1 l2 w2 F1 EE). }
      destruct (a_items a) eqn:Ei;
        try (match goal with |- context[idx_loop rec ?j l0 w] =>
               destruct (idx_loop rec j l0 w) as [[rr la] w1] eqn:E1 end;
             apply EL in E1; auto; intros E2; inversion E2; subst; apply RB; exact E1).
      destruct (idx_loop rec (positional_jobs _ _) l0 w) as [[rr l1] w1] eqn:E1.
      apply idx_loop_pres with (l0 := l0) in E1; auto.
      destruct rr; try (intros E2; inversion E2; subst; apply RB; exact E1).
      destruct (_ && _)%nat; [|intros E2; inversion E2; subst; apply RB; exact E1].
      destruct (a_add a) eqn:Ea; try (intros E2; inversion E2; subst; apply RB; exact E1);
        (match goal with |- context[idx_loop rec ?j l1 w1] =>
               destruct (idx_loop rec j l1 w1) as [[rr2 lb] w2] eqn:E3 end;
             apply EL in E3; auto; intros E2; inversion E2; subst; apply RB; exact E3).
    Qed.

    Variables (gd : constr -> dres).
    Hypothesis G : forall c d, gd c = DSome d -> Default E c d.

    Lemma props_loop_pres o ps : P (CObj o) ->
      Forall (fun kc => P (snd kc) /\ In kc (o_props o)) ps ->
      forall v pm sn w r v' pm' sn' w', I v ->
      props_loop rec gd E o ps (v, pm, sn) w = (r, (v', pm', sn'), w') -> I v' /\ Q v v'.
    Proof.
      intros Ho. induction 1 as [|[k c] ps [Hc Hin] H IH]; intros v pm sn w r v' pm' sn' w' Iv E1;
        cbn [props_loop] in E1; [inversion E1; subst; auto|].
      destruct (get_prop (deref1 v) k) as [pv|] eqn:Gp; [|inversion E1; subst; auto].
      destruct (look_prop pv) as [| |u x] eqn:L; [inversion E1; subst; auto| |].
      - destruct (is_required o k); [inversion E1; subst; auto|].
        destruct (gd c) eqn:D; try (inversion E1; subst; auto; fail); [eauto|].
        destruct (set_prop E v k d) as [v1| |] eqn:S; try (inversion E1; subst; auto; fail).
        destruct (Qset o k c d v v1 pv) as [I1 Q1]; auto.
        apply IH in E1; auto. destruct E1; eauto.
      - destruct (rec c x w) as [[rr x'] w1] eqn:R.
        assert (Hv : I (if u then v else put_prop v k x') /\ Q v (if u then v else put_prop v k x')).
        { destruct u; auto.
          destruct pv as [|i y]; [cbn in L; discriminate|].
          assert (y = x) as ->.
          { cbn [look_prop] in L. destruct (is_maybe (RV i y)); [|congruence].
            destruct (maybe_of (RV i y)) as [m|]; [destruct (m_valid m)|]; discriminate. }
          apply K in R; auto; [|eapply Iprop; eauto]. destruct R. eapply Qput; eauto. }
        destruct Hv as [I1 Q1].
        destruct rr; try (inversion E1; subst; auto; fail).
        apply IH in E1; auto. destruct E1; eauto.
    Qed.

    Lemma pat_inner_pres src c ns : P c -> forall v pm sn w r v' pm' sn' w', I v ->
      pat_inner rec E src c ns (v, pm, sn) w = (r, (v', pm', sn'), w') -> I v' /\ Q v v'.
    Proof.
      intros Hc. induction ns as [|k ns IH]; intros v pm sn w r v' pm' sn' w' Iv E1;
        cbn [pat_inner] in E1; [inversion E1; subst; auto|].
      destruct (e_rx E src k); cbn [negb] in E1; [|eauto].
      destruct (get_prop (deref1 v) k) as [pv|] eqn:Gp; [|inversion E1; subst; auto].
      destruct (interface pv) as [x|] eqn:Ei; [|inversion E1; subst; auto].
      destruct pv as [|i y]; cbn in Ei; [discriminate|]. injection Ei as ->.
      destruct (rec c x w) as [[rr x'] w1] eqn:R. apply K in R; auto; [|eapply Iprop; eauto]. destruct R.
      destruct (Qput v k i x x') as [I1 Q1]; auto.
      destruct rr; try (inversion E1; subst; auto; fail).
      apply IH in E1; auto. destruct E1; eauto.
    Qed.

    Lemma pats_loop_pres ps : Forall (fun kc => P (snd kc)) ps -> forall v pm sn w r v' pm' sn' w', I v ->
      pats_loop rec E ps (v, pm, sn) w = (r, (v', pm', sn'), w') -> I v' /\ Q v v'.
    Proof.
      induction 1 as [|[[i src] c] ps Hc H IH]; intros v pm sn w r v' pm' sn' w' Iv E1;
        cbn [pats_loop] in E1; [inversion E1; subst; auto|].
      destruct (shuffle w pm) as [ns w1].
      destruct (pat_inner rec E src c ns (v, pm, sn) w1) as [[rr [[v1 pm1] sn1]] w2] eqn:E2.
      apply pat_inner_pres in E2; auto. destruct E2.
      destruct rr; try (inversion E1; subst; auto; fail).
      apply IH in E1; auto. destruct E1; eauto.
    Qed.

    Lemma add_loop_pres c ns : P c -> forall v w r v' w', I v ->
      add_loop rec c ns v w = (r, v', w') -> I v' /\ Q v v'.
    Proof.
      intros Hc. induction ns as [|k ns IH]; intros v w r v' w' Iv E1; cbn [add_loop] in E1; [inversion E1; subst; auto|].
      destruct (get_prop (deref1 v) k) as [pv|] eqn:Gp; [|inversion E1; subst; auto].
      destruct (interface pv) as [x|] eqn:Ei; [|inversion E1; subst; auto].
      destruct pv as [|i y]; cbn in Ei; [discriminate|]. injection Ei as ->.
      destruct (rec c x w) as [[rr x'] w1] eqn:R. apply K in R; auto; [|eapply Iprop; eauto]. destruct R.
      destruct (Qput v k i x x') as [I1 Q1]; auto.
      destruct rr; try (inversion E1; subst; auto; fail).
      apply IH in E1; auto. destruct E1; eauto.
    Qed.

    Lemma deps_loop_pres o sn ns : (forall k, schema_dep o k <> CNil -> P (schema_dep o k)) ->
      forall v w r v' w', I v -> deps_loop rec o sn ns v w = (r, v', w') -> I v' /\ Q v v'.
    Proof.
      intros Hs. induction ns as [|k ns IH]; intros v w r v' w' Iv E1; cbn [deps_loop] in E1; [inversion E1; subst; auto|].
      destruct (prop_deps o k) as [|d ds].
      - destruct (schema_dep o k) eqn:S; [eauto|..];
        (match type of E1 with context[rec ?c v w] =>
           assert (P c) by (rewrite <- S; apply Hs; rewrite S; discriminate);
           destruct (rec c v w) as [[rr v1] w1] eqn:R end;
         apply K in R; auto; destruct R as [I1 Q1];
         destruct rr; try (inversion E1; subst; auto; fail);
         apply IH in E1; auto; destruct E1; eauto).
      - destruct (missing_dep sn (d :: ds)); [inversion E1; subst; auto|eauto].
    Qed.

    Lemma obj_pres o v w r v' w' : P (CObj o) -> I v ->
      obj_validate rec gd E o v w = (r, v', w') -> I v' /\ Q v v'.
    Proof.
      intros Ho Iv. unfold obj_validate.
      destruct (get_names (deref1 v)) as [fields|m|m]; try (intros E1; inversion E1; subst; auto; fail).
      destruct (_ && _); [intros E1; inversion E1; subst; auto|].
      destruct (_ && _); [intros E1; inversion E1; subst; auto|].
      destruct (shuffle w (o_props o)) as [ps w1] eqn:S1.
      destruct (props_loop rec gd E o ps (v, fields, []) w1) as [[rr [[v2 pm2] sn2]] w2] eqn:E1.
      assert (H2 : I v2 /\ Q v v2).
      { eapply (props_loop_pres o ps Ho); [|exact Iv|exact E1]. apply shuffle_perm in S1.
        apply Forall_forall. intros [k x] Hx. apply Permutation_sym in S1.
        assert (In (k, x) (o_props o)) by (eapply Permutation_in; eauto).
        split; auto. eapply Pchild; [exact Ho|]. eapply child_prop; eauto. }
      destruct H2 as [I2 Q2]. destruct rr; try (intros E2; inversion E2; subst; auto; fail).
      destruct (shuffle w2 (o_pats o)) as [pats w3] eqn:S2.
      destruct (pats_loop rec E pats (v2, pm2, sn2) w3) as [[rr [[v4 pm4] sn4]] w4] eqn:E2.
      assert (H4 : I v4 /\ Q v2 v4).
      { eapply (pats_loop_pres pats); [|exact I2|exact E2]. apply shuffle_perm in S2.
        apply Forall_forall. intros [k x] Hx. apply Permutation_sym in S2.
        assert (In (k, x) (o_pats o)) by (eapply Permutation_in; eauto).
        eapply Pchild; [exact Ho|]. eapply child_pat; eauto. }
      destruct H4 as [I4 Q4]. assert (Q v v4) by eauto.
      destruct rr; try (intros E3; inversion E3; subst; auto; fail).
      assert (F : forall v6 w6, I v6 -> Q v v6 ->
        (let '(ns, w7) := shuffle w6 sn4 in deps_loop rec o sn4 ns v6 w7) = (r, v', w') -> I v' /\ Q v v').
      { intros v6 w6 I6 Q6 E3. destruct (shuffle w6 sn4) as [ns w7].
        apply deps_loop_pres in E3; auto; [destruct E3; eauto|].
        intros k Hk. eapply Pchild; [exact Ho|]. now apply child_sdep. }
      destruct pm4 as [|p pm4]; [intros E3; eapply F; eauto|].
      assert (Pa : P (o_add o)) by (eapply Pchild; [exact Ho|apply child_add]).
      destruct (o_add o) eqn:Ea; try (intros E3; inversion E3; subst; auto; fail);
        (destruct (shuffle w4 (p :: pm4)) as [ns w5];
         match goal with |- context[add_loop rec ?c ns v4 w5] =>
           destruct (add_loop rec c ns v4 w5) as [[rr v6] w6] eqn:E3 end;
         apply add_loop_pres in E3; auto; destruct E3 as [I6 Q6]; assert (Q v v6) by eauto;
         destruct rr; try (intros E4; inversion E4; subst; auto; fail); intros E4; eapply F; eauto).
    Qed.
  End loops.

  Theorem validate_pres n : pres (validate n E).
  Proof.
    induction n as [|n IH]; intros c v w r v' w' Pc Iv H; cbn [validate] in H; [inversion H; subst; auto|].
    destruct c; try (inversion H; subst; auto; fail).
    - eapply (arr_pres _ IH); [| | |exact Iv|exact H].
      + eapply Pchild; [exact Pc|apply child_items].
      + eapply Pchild; [exact Pc|apply child_aadd].
      + apply Forall_forall. intros x Hx. eapply Pchild; [exact Pc|now apply child_pos].
    - eapply (obj_pres _ IH); [|exact Pc|exact Iv|exact H]. intros; eapply get_default_sound; eauto.
    - eapply (any_loop_pres _ IH); [|exact Iv|exact H]. apply Forall_forall. intros x Hx. eapply Pchild; [exact Pc|exact Hx].
    - eapply (all_loop_pres _ IH); [|exact Iv|exact H]. apply Forall_forall. intros x Hx. eapply Pchild; [exact Pc|exact Hx].
    - eapply (oneof_loop_pres _ IH); [|exact Iv|exact H]. apply Forall_forall. intros x Hx. eapply Pchild; [exact Pc|exact Hx].
    - eapply (not_pres _ IH); [|exact Iv|exact H]. eapply Pchild; [exact Pc|now left].
    - destruct (e_refs E name) as [c|] eqn:R; [|inversion H; subst; auto].
      eapply IH; [|exact Iv|exact H]. eapply Pchild; [exact Pc|now apply child_ref].
  Qed.
End Frame.
