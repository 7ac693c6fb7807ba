(** Validation without reachable defaults leaves the value untouched (C06). *)
From Verif Require Import Base GoFloat GoValue Maybe Formats Constraint StructInfo Validate Fuel Reach.
Open Scope Z_scope.

Lemma get_default_sound E n : forall c d, get_default n E c = DSome d -> Default E c d.
Proof.
  induction n as [|n IH]; intros c d H; cbn in H; [discriminate|].
  destruct c; try discriminate;
    try (match goal with d0 : option gval |- _ => destruct d0; cbn in H; inversion H; subst; constructor end).
  destruct (e_refs E name) eqn:R; [|discriminate]. econstructor; eauto.
Qed.

Lemma get_default_none E n : forall c, get_default n E c = DNone -> forall d, ~ Default E c d.
Proof.
  induction n as [|n IH]; intros c H d D; cbn in H; [discriminate|].
  inversion D; subst; cbn in H; try discriminate.
  rewrite H0 in H. eapply IH; eauto.
Qed.

Lemma Default_det E c d1 : Default E c d1 -> forall d2, Default E c d2 -> d1 = d2.
Proof.
  induction 1; intros d2 H2; inversion H2; subst; auto. apply IHDefault. congruence.
Qed.

(** ** struct paths *)
Fixpoint get_path (path : list nat) (v : gval) : option gval :=
  match path with
  | [] => Some v
  | i :: p =>
      match v with
      | GStruct T fs => match nth_error fs i with Some (_, x) => get_path p x | None => None end
      | _ => None
      end
  end.

Lemma flat_path v : forall d pre e, In e (flat d pre v) ->
  exists q, q <> [] /\ snd (fst e) = pre ++ q /\ get_path q v = Some (snd (snd e)).
Proof.
  induction v using gval_ind'; intros d pre e He; cbn [flat] in He; try (destruct He; fail).
  assert (G : forall l i done, fs = done ++ l -> List.length done = i ->
     In e (flat_list flat d i pre l) ->
     exists q, q <> [] /\ snd (fst e) = pre ++ q /\ get_path q (GStruct T fs) = Some (snd (snd e))).
  { induction l as [|[fi x] l IHl]; intros i done Hfs Hi Hin; cbn [flat_list] in Hin; [destruct Hin|].
    assert (Nx : nth_error fs i = Some (fi, x)).
    { rewrite Hfs, nth_error_app2 by lia. subst i. now rewrite Nat.sub_diag. }
    destruct Hin as [<-|Hin].
    - exists [i]. cbn [fst snd get_path]. rewrite Nx. repeat split; auto. discriminate.
    - apply in_app_or in Hin. destruct Hin as [Hin|Hin].
      + destruct (f_anon fi && negb (f_iface fi)); [|destruct Hin].
        rewrite Forall_forall in H.
        assert (Hx : In (fi, x) fs) by (eapply nth_error_In; eauto).
        destruct (H _ Hx _ _ _ Hin) as (q & _ & Hq & Hg).
        exists (i :: q). split; [discriminate|]. split; [rewrite Hq, <- app_assoc; reflexivity|].
        cbn [get_path]. rewrite Nx. exact Hg.
      + apply (IHl (S i) (done ++ [(fi, x)])); auto.
        * rewrite <- app_assoc. exact Hfs.
        * rewrite app_length. cbn. lia. }
  apply (G fs 0%nat []); auto.
Qed.

Lemma field_by_name_path v name path fi x :
  field_by_name v name = Some (path, (fi, x)) ->
  get_path path v = Some x /\ f_name fi = name /\ path <> [].
Proof.
  unfold field_by_name.
  set (cands := filter _ (flat 0 [] v)).
  destruct (filter _ cands) as [|[[d p] e] [|]] eqn:F; try discriminate.
  intros [= -> ->].
  assert (I : In (d, path, (fi, x)) (filter (fun e => Nat.eqb (fst (fst e)) (min_depth cands)) cands))
    by (rewrite F; now left).
  apply filter_In in I. destruct I as [I _]. unfold cands in I. apply filter_In in I.
  destruct I as [I N]. cbn in N. apply String.eqb_eq in N.
  destruct (flat_path v 0 [] _ I) as (q & Hn & Hq & Hg). cbn in *. subst. auto.
Qed.

Lemma set_nth_field_same i f fs fi x :
  nth_error fs i = Some (fi, x) -> f x = x -> set_nth_field i f fs = fs.
Proof.
  revert i. induction fs as [|[fi' x'] fs IH]; intros i H E; [destruct i; reflexivity|].
  destruct i; cbn in *.
  - injection H as -> ->. now rewrite E.
  - now rewrite IH.
Qed.

Lemma set_path_same path : forall v x, get_path path v = Some x -> set_path path x v = v.
Proof.
  induction path as [|i p IH]; intros v x H; cbn in *; [congruence|].
  destruct v; auto. destruct (nth_error fs i) as [[fi y]|] eqn:N; [|discriminate].
  f_equal. eapply set_nth_field_same; eauto.
Qed.

(** writing back what was read changes nothing *)
Lemma put_get_target v k i x : get_prop (RV false v) k = Some (RV i x) -> put_target k x v = v.
Proof.
  destruct v; cbn [get_prop put_target]; try discriminate; try reflexivity.
  - destruct kk; try discriminate; destruct m; try discriminate; cbn [put_target];
    destruct (sget k l) eqn:S; try discriminate; intros [= -> ->]; now rewrite supd_same.
  - destruct (extract (GStruct T fs)) as [props|] eqn:X; try discriminate.
    destruct (field_name props k) as [fn|] eqn:F; try discriminate.
    destruct (field_by_name (GStruct T fs) fn) as [[path [fi y]]|] eqn:B; try discriminate.
    intros [= <- ->]. apply field_by_name_path in B. apply set_path_same. tauto.
Qed.

Lemma put_get v k i x : get_prop (deref1 v) k = Some (RV i x) -> put_prop v k x = v.
Proof.
  intros H. destruct v as [| | | | | | | |T a [[j y]|]| | | |];
    try (cbn [deref1 valueOf elem] in H; exact (put_get_target _ _ _ _ H)).
  - cbn in H. discriminate.
  - destruct j; [cbn in H; discriminate|]. cbn [put_prop].
    change (deref1 (GPtr T a (Some (false, y)))) with (RV false y) in H.
    now rewrite (put_get_target _ _ _ _ H).
  - cbn in H. discriminate.
Qed.

Lemma put_look v k pv x : get_prop (deref1 v) k = Some pv -> look_prop pv = LHere false x ->
  put_prop v k x = v.
Proof.
  destruct pv as [|i y]; cbn [look_prop]; [discriminate|].
  destruct (is_maybe (RV i y)).
  - destruct (maybe_of (RV i y)) as [m|]; [destruct (m_valid m)|]; discriminate.
  - intros H [= ->]. eapply put_get; eauto.
Qed.

Lemma set_nth_same {A} i (l : list A) d : set_nth i (nth i l d) l = l.
Proof.
  revert i. induction l as [|x l IH]; intros [|i]; cbn; auto. now rewrite IH.
Qed.

Definition keeps (P : constr -> Prop) (rec : recT) : Prop :=
  forall c v w r v' w', P c -> rec c v w = (r, v', w') -> v' = v.

Section loops.
  Variables (P : constr -> Prop) (rec : recT) (K : keeps P rec).

  Ltac step K c v w :=
    let E := fresh "E" in
    destruct (rec c v w) as [[[]?]?] eqn:E; apply K in E; auto; subst.

  Lemma all_loop_ro cs : Forall P cs -> forall v w r v' w', all_loop rec cs v w = (r, v', w') -> v' = v.
  Proof.
    induction 1 as [|c cs Hc H IH]; intros v w r v' w' E; cbn in E; [congruence|].
    step K c v w; try congruence. eauto.
  Qed.

  Lemma any_loop_ro cs : Forall P cs -> forall v w r v' w', any_loop rec cs v w = (r, v', w') -> v' = v.
  Proof.
    induction 1 as [|c cs Hc H IH]; intros v w r v' w' E; cbn in E; [congruence|].
    step K c v w; try congruence. eauto.
  Qed.

  Lemma oneof_loop_ro cs : Forall P cs -> forall n v w r v' w', oneof_loop rec cs n v w = (r, v', w') -> v' = v.
  Proof.
    induction 1 as [|c cs Hc H IH]; intros n v w r v' w' E; cbn in E; [congruence|].
    step K c v w; try congruence; eauto.
  Qed.

  Lemma not_ro c v w r v' w' : P c -> not_validate rec c v w = (r, v', w') -> v' = v.
  Proof.
    intros Hc E. unfold not_validate in E. destruct c; try congruence;
    (match type of E with context[rec ?c v w] => step K c v w end; congruence).
  Qed.

  Lemma idx_loop_ro jobs : Forall (fun j => P (snd j)) jobs -> forall l w r l' w',
    idx_loop rec jobs l w = (r, l', w') -> l' = l.
  Proof.
    induction 1 as [|[i c] jobs Hc H IH]; intros l w r l' w' E; cbn in E; [congruence|].
    destruct (rec c (nth i l GNil) w) as [[rr x] w1] eqn:E1. apply K in E1; auto. subst x.
    rewrite set_nth_same in E. destruct rr; try congruence. eauto.
  Qed.

  Lemma arr_ro E a v w r v' w' :
    P (a_items a) -> P (a_add a) -> Forall P (a_pos a) ->
    arr_validate rec E a v w = (r, v', w') -> v' = v.
  Proof.
    intros H1 H2 H3. unfold arr_validate. destruct v; try congruence.
    set (l0 := match l with Some l => l | None => [] end).
    assert (RB : GSlice T ifc match l with Some _ => Some l0 | None => None end = GSlice T ifc l)
      by (destruct l; reflexivity).
    destruct (_ && _); [congruence|]. destruct (_ && _); [congruence|]. destruct (_ && _); [congruence|].
    assert (Jp : Forall (fun j => P (snd j)) (positional_jobs (a_pos a) (List.length l0))).
    { unfold positional_jobs. apply Forall_forall. intros [i c] Hin. apply in_combine_r in Hin.
      rewrite Forall_forall in H3. auto. }
    assert (Jm : forall c l, P c -> Forall (fun j => P (snd j)) (map (fun i : nat => (i, c)) l)).
    { intros c l' Hc. apply Forall_forall. intros j Hin. apply in_map_iff in Hin. destruct Hin as (? & <- & _). exact Hc. }
    destruct (a_items a) eqn:Ei;
      try (match goal with |- context[idx_loop rec ?j l0 w] =>
             destruct (idx_loop rec j l0 w) as [[rr ?la] w1] eqn:E1; apply idx_loop_ro in E1; [subst|solve[auto]];
             rewrite RB; congruence end).
    destruct (idx_loop rec (positional_jobs _ _) l0 w) as [[rr l1] w1] eqn:E1.
    apply idx_loop_ro in E1; auto. subst l1. rewrite RB.
    destruct rr; try congruence. destruct (_ && _)%nat; [|congruence].
    destruct (a_add a) eqn:Ea; try congruence;
      (match goal with |- context[idx_loop rec ?j l0 w1] =>
             destruct (idx_loop rec j l0 w1) as [[rr2 ?lb] w2] eqn:E2; apply idx_loop_ro in E2; [subst|solve[auto]];
             rewrite RB; congruence end).
  Qed.

  Variables (gd : constr -> dres).
  Hypothesis G : forall o k c d, P (CObj o) -> In (k, c) (o_props o) -> gd c = DSome d -> False.

  Lemma props_loop_ro E o ps : P (CObj o) ->
    Forall (fun kc => P (snd kc) /\ In kc (o_props o)) ps ->
    forall v pm sn w r v' pm' sn' w',
    props_loop rec gd E o ps (v, pm, sn) w = (r, (v', pm', sn'), w') -> v' = v.
  Proof.
    intros Ho. induction 1 as [|[k c] ps [Hc Hin] H IH]; intros v pm sn w r v' pm' sn' w' E1;
      cbn [props_loop] in E1; [congruence|].
    destruct (get_prop (deref1 v) k) as [pv|] eqn:Gp; [|congruence].
    destruct (look_prop pv) as [| |u x] eqn:L; [congruence| |].
    - destruct (is_required o k); [congruence|].
      destruct (gd c) eqn:D; try congruence; [eauto|]. exfalso. eapply G; eauto.
    - destruct (rec c x w) as [[rr x'] w1] eqn:R. apply K in R; auto. subst x'.
      assert (Hv : (if u then v else put_prop v k x) = v).
      { destruct u; auto. eapply put_look; eauto. }
      rewrite Hv in E1. destruct rr; try congruence. eauto.
  Qed.

  Lemma pat_inner_ro E src c ns : P c -> forall v pm sn w r v' pm' sn' w',
    pat_inner rec E src c ns (v, pm, sn) w = (r, (v', pm', sn'), w') -> v' = v.
  Proof.
    intros Hc. induction ns as [|k ns IH]; intros v pm sn w r v' pm' sn' w' E1;
      cbn [pat_inner] in E1; [congruence|].
    destruct (e_rx E src k); cbn [negb] in E1; [|eauto].
    destruct (get_prop (deref1 v) k) as [pv|] eqn:Gp; [|congruence].
    destruct (interface pv) as [x|] eqn:I; [|congruence].
    destruct (rec c x w) as [[rr x'] w1] eqn:R. apply K in R; auto. subst x'.
    destruct pv as [|i y]; cbn in I; [discriminate|]. injection I as ->.
    rewrite (put_get _ _ _ _ Gp) in E1. destruct rr; try congruence. eauto.
  Qed.

  Lemma pats_loop_ro E ps : Forall (fun kc => P (snd kc)) ps -> forall v pm sn w r v' pm' sn' w',
    pats_loop rec E ps (v, pm, sn) w = (r, (v', pm', sn'), w') -> v' = v.
  Proof.
    induction 1 as [|[[i src] c] ps Hc H IH]; intros v pm sn w r v' pm' sn' w' E1;
      cbn [pats_loop] in E1; [congruence|].
    destruct (shuffle w pm) as [ns w1].
    destruct (pat_inner rec E src c ns (v, pm, sn) w1) as [[rr [[v1 pm1] sn1]] w2] eqn:E2.
    apply pat_inner_ro in E2; auto. subst v1. destruct rr; try congruence. eauto.
  Qed.

  Lemma add_loop_ro c ns : P c -> forall v w r v' w', add_loop rec c ns v w = (r, v', w') -> v' = v.
  Proof.
    intros Hc. induction ns as [|k ns IH]; intros v w r v' w' E1; cbn [add_loop] in E1; [congruence|].
    destruct (get_prop (deref1 v) k) as [pv|] eqn:Gp; [|congruence].
    destruct (interface pv) as [x|] eqn:I; [|congruence].
    destruct (rec c x w) as [[rr x'] w1] eqn:R. apply K in R; auto. subst x'.
    destruct pv as [|i y]; cbn in I; [discriminate|]. injection I as ->.
    rewrite (put_get _ _ _ _ Gp) in E1. destruct rr; try congruence. eauto.
  Qed.

  Lemma deps_loop_ro o sn ns : (forall k, schema_dep o k <> CNil -> P (schema_dep o k)) ->
    forall v w r v' w', deps_loop rec o sn ns v w = (r, v', w') -> v' = v.
  Proof.
    intros Hs. induction ns as [|k ns IH]; intros v w r v' w' E1; cbn [deps_loop] in E1; [congruence|].
    destruct (prop_deps o k) as [|d ds].
    - destruct (schema_dep o k) eqn:S; [eauto|..];
      (match type of E1 with context[rec ?c v w] =>
         assert (P c) by (rewrite <- S; apply Hs; rewrite S; discriminate);
         step K c v w; try congruence; eauto end).
    - destruct (missing_dep sn (d :: ds)); [congruence|eauto].
  Qed.

  Lemma obj_ro E o v w r v' w' : P (CObj o) ->
    Forall (fun kc => P (snd kc)) (o_props o) -> Forall (fun kc => P (snd kc)) (o_pats o) ->
    P (o_add o) -> (forall k, schema_dep o k <> CNil -> P (schema_dep o k)) ->
    obj_validate rec gd E o v w = (r, v', w') -> v' = v.
  Proof.
    intros Ho Hp Hq Ha Hs. unfold obj_validate.
    destruct (get_names (deref1 v)) as [fields|m|m]; try congruence.
    destruct (_ && _); [congruence|]. destruct (_ && _); [congruence|].
    destruct (shuffle w (o_props o)) as [ps w1] eqn:S1.
    destruct (props_loop rec gd E o ps (v, fields, []) w1) as [[rr [[v2 pm2] sn2]] w2] eqn:E1.
    assert (v2 = v).
    { eapply (props_loop_ro E o ps Ho); [|exact E1]. apply shuffle_perm in S1.
      apply Forall_forall. intros x Hx. apply Permutation_sym in S1.
      rewrite Forall_forall in Hp. split; [apply Hp|]; eapply Permutation_in; eauto. }
    subst v2. destruct rr; try congruence.
    destruct (shuffle w2 (o_pats o)) as [pats w3] eqn:S2.
    destruct (pats_loop rec E pats (v, pm2, sn2) w3) as [[rr [[v4 pm4] sn4]] w4] eqn:E2.
    assert (v4 = v).
    { eapply (pats_loop_ro E pats); [|exact E2]. apply shuffle_perm in S2.
      apply Forall_forall. intros x Hx. apply Permutation_sym in S2.
      rewrite Forall_forall in Hq. apply Hq; eapply Permutation_in; eauto. }
    subst v4. destruct rr; try congruence.
    assert (F : forall v6 w6, v6 = v ->
      (let '(ns, w7) := shuffle w6 sn4 in deps_loop rec o sn4 ns v6 w7) = (r, v', w') -> v' = v).
    { intros v6 w6 -> E3. destruct (shuffle w6 sn4) as [ns w7]. eapply deps_loop_ro; eauto. }
    destruct pm4 as [|p pm4]; [intros E3; eapply F; eauto|].
    destruct (o_add o) eqn:Ea; try congruence;
      (destruct (shuffle w4 (p :: pm4)) as [ns w5];
       match goal with |- context[add_loop rec ?c ns v w5] =>
         destruct (add_loop rec c ns v w5) as [[rr v6] w6] eqn:E3 end;
       apply add_loop_ro in E3; auto; subst v6;
       destruct rr; try congruence; intros E4; eapply F; eauto).
  Qed.
End loops.

Theorem validate_readonly E n : forall c v w r v' w', pure E c ->
  validate n E c v w = (r, v', w') -> v' = v.
Proof.
  induction n as [|n IH]; intros c v w r v' w' Pc H; cbn [validate] in H; [congruence|].
  assert (K : keeps (pure E) (validate n E)) by (intros ? ? ? ? ? ? ? ?; eapply IH; eauto).
  destruct c; try congruence.
  - eapply arr_ro; eauto; try (eapply pure_child; eauto using child_items, child_aadd).
    apply Forall_forall. intros x Hx. eapply pure_child; eauto. now apply child_pos.
  - eapply obj_ro with (P := pure E); eauto.
    + intros o' k c d Po Hin Hd. apply get_default_sound in Hd. apply (Po d).
      exists o', k, c. repeat split; auto. constructor.
    + apply Forall_forall. intros [k x] Hx. eapply pure_child; eauto. eapply child_prop; eauto.
    + apply Forall_forall. intros [k x] Hx. eapply pure_child; eauto. eapply child_pat; eauto.
    + eapply pure_child; eauto. apply child_add.
    + intros k Hk. eapply pure_child; eauto. now apply child_sdep.
  - eapply (any_loop_ro _ _ K); [|exact H]. apply Forall_forall. intros x Hx. exact (pure_child E (CAny l) x Hx Pc).
  - eapply (all_loop_ro _ _ K); [|exact H]. apply Forall_forall. intros x Hx. exact (pure_child E (CAll l) x Hx Pc).
  - eapply (oneof_loop_ro _ _ K); [|exact H]. apply Forall_forall. intros x Hx. exact (pure_child E (COneOf l) x Hx Pc).
  - eapply (not_ro _ _ K); [|exact H]. apply (pure_child E (CNot c) c); [now left|exact Pc].
  - destruct (e_refs E name) eqn:R; [|congruence]. eapply (IH c); [|exact H].
    exact (pure_child E (CRef name) c (child_ref E name c R) Pc).
Qed.
