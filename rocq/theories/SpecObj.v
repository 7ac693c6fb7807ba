(** ObjectConstraint.Validate on maps against the declarative meaning in Spec.v, and the
    soundness theorem for all constraints. *)
From Verif Require Import Base GoFloat GoValue Maybe Formats Constraint StructInfo Validate Fuel Reach ReadOnly Spec SpecSound.
Open Scope Z_scope.

Lemma perm_nodup_keys {V} (l l' : list (string * V)) : Permutation l l' -> NoDup (keys l) -> NoDup (keys l').
Proof. intros P. apply Permutation_NoDup. now apply Permutation_map. Qed.

Lemma sget_supd {V} k k' (y : V) m :
  sget k' (supd k y m) = if String.eqb k' k then match sget k m with Some _ => Some y | None => None end else sget k' m.
Proof.
  destruct (String.eqb_spec k' k) as [->|N]; [|now apply sget_supd_other].
  destruct (sget k m) as [z|] eqn:Hz.
  - apply sget_supd_same. apply sget_some_keys. eauto.
  - apply sget_none_keys. rewrite supd_keys. now apply sget_none_keys.
Qed.

(** some pattern of ps matches k *)
Definition matched (E : env) (ps : list ((nat * string) * constr)) (k : string) : Prop :=
  exists p c, In (p, c) ps /\ e_rx E (snd p) k = true.

Lemma matched_dec E ps k : matched E ps k \/ (forall p c, In (p, c) ps -> e_rx E (snd p) k = false).
Proof.
  destruct (existsb (fun pc => e_rx E (snd (fst pc)) k) ps) eqn:X.
  - left. apply existsb_exists in X. destruct X as ([p c] & H1 & H2). exists p, c. auto.
  - right. intros p c H. destruct (e_rx E (snd p) k) eqn:Y; auto. rewrite <- X. symmetry.
    apply existsb_exists. exists (p, c). auto.
Qed.

(** what can be wrong before dependencies are looked at *)
Definition obj_front_bad (R : constr -> gval -> Prop) (E : env) (o : objcfg) (m : list (string * gval)) : Prop :=
  ~ count_ok o m \/
  (exists k, In k (keys (o_props o)) /\ sget k m = None /\ is_required o k = true) \/
  (exists k, In k (keys m) /\ forall c, ~ governs E o k c) \/
  (exists k c x, governs E o k c /\ sget k m = Some x /\ R c x).

Section ObjSound.
  Variables (E : env) (A : constr -> gval -> gval -> Prop) (R : constr -> gval -> Prop) (rec : recT).
  Variable C : constr -> Prop.
  Variables (J : gval -> Prop) (PP : Prop).
  Hypothesis K : forall c x w r x' w', C c -> J x -> rec c x w = (r, x', w') ->
    match r with Pass => A c x x' /\ J x' | Fail _ => R c x | Panic _ => PP | OOF => True end.
  Hypothesis KP : forall c x w r x' w', pure E c -> rec c x w = (r, x', w') -> x' = x.
  Variable gd : constr -> dres.
  Hypothesis Gsome : forall c d, gd c = DSome d -> Default E c d.
  Hypothesis Gnone : forall c, gd c = DNone -> forall d, ~ Default E c d.
  Hypothesis Gpanic : forall c, C c -> gd c = DPanic -> PP.
  Variables (T ET : string).
  Notation M m := (GMap T KString true ET (Some m)).

  Notation good := (good PP).

Definition jmap (m : list (string * gval)) : Prop := ssorted m /\ forall k x, sget k m = Some x -> J x.
  
  Lemma jmap_supd m k y : jmap m -> J y -> jmap (supd k y m).
  Proof.
    intros [S Jm] Jy. split; [unfold ssorted in *; now rewrite supd_keys|]. intros k' x H.
    rewrite sget_supd in H. destruct (String.eqb k' k); eauto. destruct (sget k m); congruence.
  Qed.
  
  Lemma jmap_sset m k y : jmap m -> J y -> jmap (sset k y m).
  Proof.
    intros [S Jm] Jy. split; [now apply sset_sorted|]. intros k' x H.
    destruct (String.eqb_spec k' k) as [->|N].
    - rewrite sget_sset_same in H. congruence.
    - rewrite sget_sset_other in H by auto. eauto.
  Qed.
  
  Lemma jmap_sdel m k : jmap m -> jmap (sdel k m).
  Proof.
    intros [S Jm]. split; [now apply sdel_sorted|]. intros k' x H.
    destruct (String.eqb_spec k' k) as [->|N].
    - rewrite sget_sdel_same in H. congruence.
    - rewrite sget_sdel_other in H by auto. eauto.
  Qed.
  Hypothesis Jmap : forall m, jmap m -> J (M m).

  Lemma gp_map m k : get_prop (deref1 (M m)) k = Some (match sget k m with None => RZero | Some x => RV true x end).
  Proof. cbn. destruct (sget k m); reflexivity. Qed.

  Lemma put_map m k y : put_prop (M m) k y = M (supd k y m).
  Proof. reflexivity. Qed.

  Lemma set_map m k d : set_prop E (M m) k d = GOk (M (match d with GNil => sdel k m | _ => sset k d m end)).
  Proof. destruct d; reflexivity. Qed.

  Lemma props_loop_sound o ps : NoDup (keys ps) -> Forall (fun p => C (snd p)) ps ->
    (forall k c d, In (k, c) ps -> Default E c d -> J d) ->
    forall m pm sn w, jmap m -> NoDup pm ->
    good (props_loop rec gd E o ps (M m, pm, sn) w)
      (fun st => exists m' pm' sn', st = (M m', pm', sn') /\ jmap m' /\ NoDup pm' /\
         (forall k, ~ In k (keys ps) -> sget k m' = sget k m) /\
         (forall k c, In (k, c) ps ->
            match sget k m with
            | Some x => exists x', sget k m' = Some x' /\ A c x x'
            | None => is_required o k = false /\ filled E c (sget k m')
            end) /\
         (forall k, In k pm' <-> In k pm /\ ~ (In k (keys ps) /\ sget k m <> None)) /\
         (forall k, In k sn' <-> In k sn \/ (In k (keys ps) /\ sget k m <> None)))
      ((exists k c x, In (k, c) ps /\ sget k m = Some x /\ R c x) \/
       (exists k, In k (keys ps) /\ sget k m = None /\ is_required o k = true)).
  Proof.
    induction ps as [|[k c] ps IH]; intros ND HC HD m pm sn w Jv NP; cbn [props_loop].
    { cbn [SpecSound.good]. exists m, pm, sn. splits; auto; try tauto; cbn; try tauto. }
    inversion ND as [|? ? Nk ND']; subst. inversion HC as [|? ? Hc HC']; subst.
    assert (HD' : forall k0 c0 d, In (k0, c0) ps -> Default E c0 d -> J d) by (intros; eapply HD; [right|]; eauto).
    specialize (IH ND' HC' HD').
    assert (NKP : forall c0, ~ In (k, c0) ps).
    { intros c0 Hin. apply Nk. cbn. apply in_map_iff. exists (k, c0). auto. }
    rewrite gp_map. destruct (sget k m) as [x|] eqn:Hk.
    - cbn [look_prop is_maybe]. cbn [snd] in Hc.
      assert (Jx : J x) by (eapply Jv; eauto).
      destruct (rec c x w) as [[r x1] w1] eqn:HR; apply K in HR; auto.
      destruct r; [destruct HR as [HA J1]| |exact HR|exact I].
      2:{ cbn [SpecSound.good]. left. exists k, c, x. splits; auto. now left. }
      rewrite put_map.
      specialize (IH (supd k x1 m) (remove_s k pm) (k :: sn) w1 (jmap_supd _ _ _ Jv J1) (remove_s_NoDup _ _ NP)).
      destruct (props_loop rec gd E o ps _ w1) as [[[] st] w2]; cbn [SpecSound.good] in *; auto.
      + destruct IH as (m' & pm' & sn' & -> & J2 & N2 & H1 & H2 & H3 & H4).
        exists m', pm', sn'. splits; auto.
        * intros k0 Hk0. cbn [keys map fst In] in Hk0. rewrite H1 by tauto. apply sget_supd_other. intros ->. tauto.
        * intros k0 c0 [H0|H0].
          -- injection H0 as <- <-. rewrite Hk. exists x1. split; auto. rewrite H1 by auto. rewrite sget_supd, String.eqb_refl, Hk. reflexivity.
          -- specialize (H2 k0 c0 H0). rewrite sget_supd_other in H2; [exact H2|]. intros ->. eapply NKP; eauto.
        * intros k0. rewrite H3, remove_s_In. cbn [keys map fst In].
          rewrite sget_supd. destruct (String.eqb_spec k0 k) as [->|Ne].
          -- rewrite Hk. intuition congruence.
          -- intuition congruence.
        * intros k0. rewrite H4. cbn [keys map fst In]. rewrite sget_supd.
          destruct (String.eqb_spec k0 k) as [->|Ne]; rewrite ?Hk; intuition congruence.
      + destruct IH as [(k0 & c0 & x0 & H1 & H2 & H3)|(k0 & H1 & H2 & H3)].
        * left. exists k0, c0, x0. splits; auto; [now right|]. rewrite sget_supd_other in H2; auto.
          intros ->. eapply NKP; eauto.
        * right. exists k0. splits; auto; [now right|]. rewrite sget_supd in H2. destruct (String.eqb_spec k0 k) as [->|Ne]; auto.
          now rewrite Hk in H2.
    - cbn [look_prop]. destruct (is_required o k) eqn:Rk.
      { cbn [SpecSound.good]. right. exists k. splits; auto. now left. }
      destruct (gd c) as [|d| |] eqn:Gc.
      + specialize (IH m pm sn w Jv NP).
        destruct (props_loop rec gd E o ps _ w) as [[[] st] w2]; cbn [SpecSound.good] in *; auto.
        * destruct IH as (m' & pm' & sn' & -> & J2 & N2 & H1 & H2 & H3 & H4).
          exists m', pm', sn'. splits; auto.
          -- intros k0 Hk0. apply H1. cbn in Hk0. tauto.
          -- intros k0 c0 [H0|H0]; [|now apply H2].
             injection H0 as <- <-. rewrite Hk. split; auto. right. split; [eapply Gnone; eauto|].
             rewrite H1 by auto. exact Hk.
          -- intros k0. rewrite H3. cbn [keys map fst In].
             destruct (String.eqb_spec k0 k) as [->|Ne]; intuition congruence.
          -- intros k0. rewrite H4. cbn [keys map fst In].
             destruct (String.eqb_spec k0 k) as [->|Ne]; intuition congruence.
        * destruct IH as [(k0 & c0 & x0 & H1 & H2 & H3)|(k0 & H1 & H2 & H3)].
          -- left. exists k0, c0, x0. splits; auto. now right.
          -- right. exists k0. splits; auto. now right.
      + rewrite set_map. set (m0 := match d with GNil => sdel k m | _ => sset k d m end).
        assert (Jd : J d) by (eapply HD; [now left|eapply Gsome; eauto]).
        assert (J0 : jmap m0) by (unfold m0; destruct d; (apply jmap_sdel || apply jmap_sset); auto).
        assert (G0 : forall k0, k0 <> k -> sget k0 m0 = sget k0 m).
        { intros k0 Ne. unfold m0. destruct d; (now apply sget_sdel_other) || (now apply sget_sset_other). }
        assert (Gk : sget k m0 = match d with GNil => None | _ => Some d end).
        { unfold m0. destruct d; (apply sget_sdel_same || apply sget_sset_same). }
        specialize (IH m0 pm sn w J0 NP).
        destruct (props_loop rec gd E o ps _ w) as [[[] st] w2]; cbn [SpecSound.good] in *; auto.
        * destruct IH as (m' & pm' & sn' & -> & J2 & N2 & H1 & H2 & H3 & H4).
          exists m', pm', sn'. splits; auto.
          -- intros k0 Hk0. cbn [keys map fst In] in Hk0. rewrite H1 by tauto. apply G0. intros ->; tauto.
          -- intros k0 c0 [H0|H0].
             ++ injection H0 as <- <-. rewrite Hk. split; auto. left. exists d. split; [now apply Gsome|].
                rewrite H1 by auto. exact Gk.
             ++ specialize (H2 k0 c0 H0). rewrite G0 in H2; auto. intros ->. eapply NKP; eauto.
          -- intros k0. rewrite H3. cbn [keys map fst In].
             destruct (String.eqb_spec k0 k) as [->|Ne]; [|rewrite G0 by auto; intuition congruence].
             intuition congruence.
          -- intros k0. rewrite H4. cbn [keys map fst In].
             destruct (String.eqb_spec k0 k) as [->|Ne]; [|rewrite G0 by auto; intuition congruence].
             intuition congruence.
        * destruct IH as [(k0 & c0 & x0 & H1 & H2 & H3)|(k0 & H1 & H2 & H3)].
          -- left. exists k0, c0, x0. splits; auto; [now right|]. rewrite <- G0; auto. intros ->. eapply NKP; eauto.
          -- right. exists k0. splits; auto; [now right|]. rewrite <- G0; auto. intros ->. apply Nk. exact H1.
      + eapply Gpanic; eauto.
      + exact I.
  Qed.

  Lemma pat_inner_sound src c ns : C c -> NoDup ns ->
    forall m pm sn w, jmap m -> NoDup pm -> (forall k, In k ns -> sget k m <> None) ->
    good (pat_inner rec E src c ns (M m, pm, sn) w)
      (fun st => exists m' pm' sn', st = (M m', pm', sn') /\ jmap m' /\ NoDup pm' /\
         (forall k, ~ (In k ns /\ e_rx E src k = true) -> sget k m' = sget k m) /\
         (forall k x, In k ns -> e_rx E src k = true -> sget k m = Some x ->
            exists x', sget k m' = Some x' /\ A c x x') /\
         (forall k, In k pm' <-> In k pm /\ ~ (In k ns /\ e_rx E src k = true)) /\
         (forall k, In k sn' <-> In k sn \/ (In k ns /\ e_rx E src k = true)))
      (exists k x, In k ns /\ e_rx E src k = true /\ sget k m = Some x /\ R c x).
  Proof.
    intros Hc. induction ns as [|k ns IH]; intros ND m pm sn w Jv NP HN; cbn [pat_inner].
    { cbn [SpecSound.good]. exists m, pm, sn. splits; auto; cbn; try tauto. }
    inversion ND as [|? ? Nk ND']; subst. specialize (IH ND').
    destruct (e_rx E src k) eqn:Rx; cbn [negb].
    - rewrite gp_map. destruct (sget k m) as [x|] eqn:Hk; [|exfalso; apply (HN k); [now left|auto]].
      cbn [interface]. assert (Jx : J x) by (eapply Jv; eauto).
      destruct (rec c x w) as [[r x1] w1] eqn:HR; apply K in HR; auto.
      destruct r; [destruct HR as [HA J1]| |exact HR|exact I].
      2:{ cbn [SpecSound.good]. exists k, x. splits; auto. now left. }
      rewrite put_map.
      assert (HN' : forall k0, In k0 ns -> sget k0 (supd k x1 m) <> None).
      { intros k0 H0. rewrite sget_supd. destruct (String.eqb k0 k); [rewrite Hk; congruence|]. apply HN. now right. }
      specialize (IH (supd k x1 m) (remove_s k pm) (k :: sn) w1 (jmap_supd _ _ _ Jv J1) (remove_s_NoDup _ _ NP) HN').
      destruct (pat_inner rec E src c ns _ w1) as [[[] st] w2]; cbn [SpecSound.good] in *; auto.
      + destruct IH as (m' & pm' & sn' & -> & J2 & N2 & H1 & H2 & H3 & H4).
        exists m', pm', sn'. splits; auto.
        * intros k0 Hk0. cbn [In] in Hk0. rewrite H1 by tauto. apply sget_supd_other. intros ->. tauto.
        * intros k0 x0 [<-|H0] Hrx Hx.
          -- exists x1. rewrite H1 by tauto. rewrite sget_supd, String.eqb_refl, Hk. split; auto. congruence.
          -- eapply H2; eauto. rewrite sget_supd_other; auto. intros ->; auto.
        * intros k0. rewrite H3, remove_s_In. destruct (String.eqb_spec k0 k) as [->|Ne]; cbn [In]; intuition congruence.
        * intros k0. rewrite H4. destruct (String.eqb_spec k0 k) as [->|Ne]; cbn [In]; intuition congruence.
      + destruct IH as (k0 & x0 & H1 & H2 & H3 & H4). exists k0, x0. splits; auto; [now right|].
        rewrite sget_supd_other in H3; auto. intros ->; auto.
    - assert (HN' : forall k0, In k0 ns -> sget k0 m <> None) by (intros; apply HN; now right).
      specialize (IH m pm sn w Jv NP HN').
      destruct (pat_inner rec E src c ns _ w) as [[[] st] w2]; cbn [SpecSound.good] in *; auto.
      + destruct IH as (m' & pm' & sn' & -> & J2 & N2 & H1 & H2 & H3 & H4).
        exists m', pm', sn'. splits; auto.
        * intros k0 Hk0. cbn [In] in Hk0. apply H1. tauto.
        * intros k0 x0 [<-|H0] Hrx Hx; [congruence|]. eauto.
        * intros k0. rewrite H3. cbn [In]. destruct (String.eqb_spec k0 k) as [->|Ne]; intuition congruence.
        * intros k0. rewrite H4. cbn [In]. destruct (String.eqb_spec k0 k) as [->|Ne]; intuition congruence.
      + destruct IH as (k0 & x0 & H1 & H2 & H3 & H4). exists k0, x0. splits; auto. now right.
  Qed.

  Lemma pats_loop_sound ps : Forall (fun p => C (snd p)) ps ->
    forall m pm sn w, jmap m -> NoDup pm -> (forall k, In k pm -> sget k m <> None) ->
    good (pats_loop rec E ps (M m, pm, sn) w)
      (fun st => exists m' pm' sn', st = (M m', pm', sn') /\ jmap m' /\ NoDup pm' /\
         (forall k, ~ (In k pm /\ matched E ps k) -> sget k m' = sget k m) /\
         (forall k x, In k pm -> matched E ps k -> sget k m = Some x ->
            exists p c x', In (p, c) ps /\ e_rx E (snd p) k = true /\ sget k m' = Some x' /\ A c x x') /\
         (forall k, In k pm' <-> In k pm /\ ~ matched E ps k) /\
         (forall k, In k sn' <-> In k sn \/ (In k pm /\ matched E ps k)))
      (exists k p c x, In k pm /\ In (p, c) ps /\ e_rx E (snd p) k = true /\ sget k m = Some x /\ R c x).
  Proof.
    induction 1 as [|[[i src] c] ps Hc HC IH]; intros m pm sn w Jv NP HN; cbn [pats_loop].
    { cbn [SpecSound.good]. assert (NM : forall k, ~ matched E [] k) by (intros k (? & ? & [] & _)).
      exists m, pm, sn. splits; auto; try (intros k; specialize (NM k); tauto). }
    assert (MC : forall k, matched E ((i, src, c) :: ps) k <-> e_rx E src k = true \/ matched E ps k).
    { intros k. split.
      - intros (p & c0 & [H|H] & Hr); [injection H as <- <-; now left|right; exists p, c0; auto].
      - intros [H|(p & c0 & H & Hr)]; [exists (i, src), c; split; [now left|auto]|exists p, c0; split; [now right|auto]]. }
    destruct (shuffle w pm) as [ns w1] eqn:Sh. apply shuffle_perm in Sh.
    assert (IN : forall k, In k ns <-> In k pm) by (intros k; split; apply Permutation_in; auto using Permutation_sym).
    assert (NN : NoDup ns) by (eapply Permutation_NoDup; eauto).
    pose proof (pat_inner_sound src c ns Hc NN m pm sn w1 Jv NP (fun k Hk => HN k (proj1 (IN k) Hk))) as PI.
    destruct (pat_inner rec E src c ns _ w1) as [[[] st] w2]; cbn [SpecSound.good] in *; auto.
    - destruct PI as (m1 & pm1 & sn1 & -> & J1 & N1 & H1 & H2 & H3 & H4).
      assert (P1 : forall k, In k pm1 -> sget k m1 <> None).
      { intros k Hk. apply H3 in Hk. rewrite H1 by tauto. apply HN. tauto. }
      specialize (IH m1 pm1 sn1 w2 J1 N1 P1).
      destruct (pats_loop rec E ps _ w2) as [[[] st] w3]; cbn [SpecSound.good] in *; auto.
      + destruct IH as (m' & pm' & sn' & -> & J2 & N2 & G1 & G2 & G3 & G4).
        exists m', pm', sn'. splits; auto.
        * intros k Hk. rewrite MC in Hk. rewrite G1, H1; auto.
          -- rewrite IN. tauto.
          -- rewrite H3, IN. tauto.
        * intros k x Hk Hm Hx. apply MC in Hm. destruct (e_rx E src k) eqn:Rx.
          -- destruct (H2 k x (proj2 (IN k) Hk) Rx Hx) as (x' & Hx' & HA).
             exists (i, src), c, x'. splits; auto; [now left|]. rewrite G1; auto. rewrite H3, IN. tauto.
          -- destruct Hm as [|Hm]; [congruence|].
             destruct (G2 k x) as (p & c0 & x' & I1 & I2 & I3 & I4); auto.
             ++ apply H3. rewrite IN, Rx. intuition congruence.
             ++ rewrite H1; auto. rewrite Rx. intuition congruence.
             ++ exists p, c0, x'. splits; auto. now right.
        * intros k. rewrite G3, H3, MC, IN. destruct (e_rx E src k); intuition congruence.
        * intros k. rewrite G4, H4, H3, MC, IN. destruct (e_rx E src k); intuition congruence.
      + destruct IH as (k & p & c0 & x & I1 & I2 & I3 & I4 & I5). exists k, p, c0, x.
        apply H3 in I1. rewrite H1 in I4 by tauto. splits; auto; [tauto|now right].
    - destruct PI as (k & x & I1 & I2 & I3 & I4). exists k, (i, src), c, x. splits; auto; [now apply IN|now left].
  Qed.

  Lemma add_loop_sound c ns : C c -> NoDup ns ->
    forall m w, jmap m -> (forall k, In k ns -> sget k m <> None) ->
    good (add_loop rec c ns (M m) w)
      (fun v' => exists m', v' = M m' /\ jmap m' /\
         (forall k, ~ In k ns -> sget k m' = sget k m) /\
         (forall k x, In k ns -> sget k m = Some x -> exists x', sget k m' = Some x' /\ A c x x'))
      (exists k x, In k ns /\ sget k m = Some x /\ R c x).
  Proof.
    intros Hc. induction ns as [|k ns IH]; intros ND m w Jv HN; cbn [add_loop].
    { cbn [SpecSound.good]. exists m. splits; auto. cbn; tauto. }
    inversion ND as [|? ? Nk ND']; subst. specialize (IH ND').
    rewrite gp_map. destruct (sget k m) as [x|] eqn:Hk; [|exfalso; apply (HN k); [now left|auto]].
    cbn [interface]. assert (Jx : J x) by (eapply Jv; eauto).
    destruct (rec c x w) as [[r x1] w1] eqn:HR; apply K in HR; auto.
    destruct r; [destruct HR as [HA J1]| |exact HR|exact I].
    2:{ cbn [SpecSound.good]. exists k, x. splits; auto. now left. }
    rewrite put_map.
    assert (HN' : forall k0, In k0 ns -> sget k0 (supd k x1 m) <> None).
    { intros k0 H0. rewrite sget_supd. destruct (String.eqb k0 k); [rewrite Hk; congruence|]. apply HN. now right. }
    specialize (IH (supd k x1 m) w1 (jmap_supd _ _ _ Jv J1) HN').
    destruct (add_loop rec c ns _ w1) as [[[] v1] w2]; cbn [SpecSound.good] in *; auto.
    - destruct IH as (m' & -> & J2 & H1 & H2). exists m'. splits; auto.
      + intros k0 Hk0. cbn in Hk0. rewrite H1 by tauto. apply sget_supd_other. intros ->; tauto.
      + intros k0 x0 [<-|H0] Hx.
        * exists x1. rewrite H1 by auto. rewrite sget_supd, String.eqb_refl, Hk. split; auto. congruence.
        * apply H2; auto. rewrite sget_supd_other; auto. intros ->; auto.
    - destruct IH as (k0 & x0 & H1 & H2 & H3). exists k0, x0. splits; auto; [now right|].
      rewrite sget_supd_other in H2; auto. intros ->; auto.
  Qed.

  Lemma missing_dep_spec sn ds :
    match missing_dep sn ds with
    | Some d => In d ds /\ ~ In d sn
    | None => forall d, In d ds -> In d sn
    end.
  Proof.
    unfold missing_dep. destruct (find _ ds) as [d|] eqn:F.
    - apply find_some in F. destruct F as [H1 H2]. apply negb_true_iff, mem_false in H2. auto.
    - intros d Hd. pose proof (find_none _ _ F d Hd) as H. apply negb_false_iff, mem_In in H. auto.
  Qed.

  Lemma deps_loop_sound o sn ns : (forall k, schema_dep o k <> CNil -> C (schema_dep o k) /\ pure E (schema_dep o k)) ->
    forall v w, J v ->
    good (deps_loop rec o sn ns v w)
      (fun v' => v' = v /\
         (forall k d, In k ns -> In d (prop_deps o k) -> In d sn) /\
         (forall k, In k ns -> prop_deps o k = [] -> schema_dep o k <> CNil -> A (schema_dep o k) v v))
      ((exists k d, In k ns /\ In d (prop_deps o k) /\ ~ In d sn) \/
       (exists k, In k ns /\ prop_deps o k = [] /\ schema_dep o k <> CNil /\ R (schema_dep o k) v)).
  Proof.
    intros HS. induction ns as [|k ns IH]; intros v w Jv; cbn [deps_loop].
    { cbn [SpecSound.good]. splits; auto; intros; cbn [In] in *; contradiction. }
    assert (SKIP : (forall d, In d (prop_deps o k) -> In d sn) ->
      (prop_deps o k = [] -> schema_dep o k <> CNil -> A (schema_dep o k) v v) ->
      forall w', good (deps_loop rec o sn ns v w')
      (fun v' => v' = v /\
         (forall k0 d, In k0 (k :: ns) -> In d (prop_deps o k0) -> In d sn) /\
         (forall k0, In k0 (k :: ns) -> prop_deps o k0 = [] -> schema_dep o k0 <> CNil -> A (schema_dep o k0) v v))
      ((exists k0 d, In k0 (k :: ns) /\ In d (prop_deps o k0) /\ ~ In d sn) \/
       (exists k0, In k0 (k :: ns) /\ prop_deps o k0 = [] /\ schema_dep o k0 <> CNil /\ R (schema_dep o k0) v))).
    { intros S1 S2 w'. specialize (IH v w' Jv). destruct (deps_loop rec o sn ns v w') as [[[] v1] w2]; cbn [SpecSound.good] in *; auto.
      - destruct IH as (-> & H1 & H2). splits; auto.
        + intros k0 d [<-|H0]; eauto.
        + intros k0 [<-|H0]; eauto.
      - destruct IH as [(k0 & d & H1 & H2 & H3)|(k0 & H1 & H2 & H3 & H4)].
        + left. exists k0, d. splits; auto. now right.
        + right. exists k0. splits; auto. now right. }
    destruct (prop_deps o k) as [|d0 ds] eqn:PD.
    - assert (G : schema_dep o k <> CNil -> good match rec (schema_dep o k) v w with
        | (Pass, v', w') => deps_loop rec o sn ns v' w'
        | x => x end
      (fun v' => v' = v /\
         (forall k0 d, In k0 (k :: ns) -> In d (prop_deps o k0) -> In d sn) /\
         (forall k0, In k0 (k :: ns) -> prop_deps o k0 = [] -> schema_dep o k0 <> CNil -> A (schema_dep o k0) v v))
      ((exists k0 d, In k0 (k :: ns) /\ In d (prop_deps o k0) /\ ~ In d sn) \/
       (exists k0, In k0 (k :: ns) /\ prop_deps o k0 = [] /\ schema_dep o k0 <> CNil /\ R (schema_dep o k0) v))).
      { intros NN. destruct (HS k NN) as [HC HP].
        destruct (rec (schema_dep o k) v w) as [[r v1] w1] eqn:HR. pose proof (KP _ _ _ _ _ _ HP HR) as ->.
        apply K in HR; auto. destruct r; [|right|exact HR|exact I].
        - apply SKIP; intros; [contradiction|tauto].
        - exists k. splits; auto. now left. }
      destruct (schema_dep o k) eqn:SD; try (apply G; discriminate).
      apply SKIP; intros; [contradiction|congruence].
    - pose proof (missing_dep_spec sn (d0 :: ds)) as MD.
      destruct (missing_dep sn (d0 :: ds)) as [d|].
      + cbn [SpecSound.good]. left. exists k, d. rewrite PD. splits; try tauto. now left.
      + apply SKIP; auto. discriminate.
  Qed.

  (** everything up to the dependency checks; [OK] and [BAD] describe those *)
  Lemma obj_sound_gen o m w (OK : gval -> Prop) (BAD : Prop) : jmap m ->
    ssorted (o_props o) ->
    (forall k c, In (k, c) (o_props o) -> C c) ->
    (forall p c, In (p, c) (o_pats o) -> C c) ->
    (o_add o <> CNil -> C (o_add o)) ->
    (forall k c d, In (k, c) (o_props o) -> Default E c d -> J d) ->
    (obj_front_bad R E o m -> BAD) ->
    (forall m1 sn ns w, jmap m1 -> props_sem A E o m m1 -> (forall k, In k ns <-> seen E o m k) ->
       (forall k, In k sn <-> seen E o m k) -> good (deps_loop rec o sn ns (M m1) w) OK BAD) ->
    good (obj_validate rec gd E o (M m) w) OK BAD.
  Proof.
    intros Jv SP CP CT CA DD BF DEP. unfold obj_validate. cbn [deref1 valueOf elem get_names].
    assert (LK : List.length (keys m) = List.length m) by apply map_length. rewrite LK.
    pose proof (within_bool (o_min o) (o_max o) (Z.of_nat (List.length m))) as W.
    destruct ((-1 <? o_min o) && _); [apply BF; left; unfold count_ok; intuition congruence|].
    destruct ((-1 <? o_max o) && _); [apply BF; left; unfold count_ok; intuition congruence|].
    assert (CO : count_ok o m) by (unfold count_ok; tauto). clear W.
    destruct (shuffle w (o_props o)) as [ps w1] eqn:Sh. apply shuffle_perm in Sh.
    assert (KP1 : forall k, In k (keys ps) <-> In k (keys (o_props o))).
    { intros k. split; apply Permutation_in; [apply Permutation_sym|]; now apply Permutation_map. }
    assert (KP2 : forall k c, In (k, c) ps <-> In (k, c) (o_props o)).
    { intros k c. split; apply Permutation_in; auto using Permutation_sym. }
    assert (SG : forall k c, In (k, c) (o_props o) <-> sget k (o_props o) = Some c).
    { intros k c. split; [apply nodup_sget, ssorted_nodup; auto|apply sget_in]. }
    assert (NDP : NoDup (keys ps)) by (eapply perm_nodup_keys; eauto; now apply ssorted_nodup).
    assert (FC : Forall (fun p => C (snd p)) ps).
    { apply Forall_forall. intros [k c] Hk. cbn. apply KP2 in Hk. eauto. }
    assert (NK : NoDup (keys m)) by (apply ssorted_nodup, Jv).
    pose proof (props_loop_sound o ps NDP FC (fun k c d Hk => DD k c d (proj1 (KP2 k c) Hk)) m (keys m) [] w1 Jv NK) as PL.
    destruct (props_loop rec gd E o ps (M m, keys m, []) w1) as [[[] st1] w2]; cbn [SpecSound.good] in PL.
    2:{ destruct st1 as [[v2 ?] ?]. cbn [SpecSound.good]. apply BF.
        destruct PL as [(k & c & x & H1 & H2 & H3)|(k & H1 & H2 & H3)].
        - right. right. right. exists k, c, x. splits; auto. unfold governs.
          apply KP2, SG in H1. now rewrite H1.
        - right. left. exists k. splits; auto. now apply KP1. }
    2:{ destruct st1 as [[? ?] ?]. exact PL. }
    2:{ destruct st1 as [[? ?] ?]. exact I. }
    destruct PL as (m1 & pm1 & sn1 & -> & J1 & N1 & H1 & H2 & H3 & H4).
    assert (IK : forall k, In k (keys m) <-> sget k m <> None).
    { intros k. rewrite <- sget_some_keys. destruct (sget k m); split; try congruence; eauto. intros [? ?]; discriminate. }
    destruct (shuffle w2 (o_pats o)) as [pats w3] eqn:Sh2. apply shuffle_perm in Sh2.
    assert (KT : forall p c, In (p, c) pats <-> In (p, c) (o_pats o)).
    { intros p c. split; apply Permutation_in; auto using Permutation_sym. }
    assert (FT : Forall (fun p => C (snd p)) pats).
    { apply Forall_forall. intros [k c] Hk. cbn. apply KT in Hk. eauto. }
    assert (MT : forall k, matched E pats k <-> matched E (o_pats o) k).
    { intros k. split; intros (p & c & Hp & Hr); exists p, c; split; auto; now apply KT. }
    assert (P1 : forall k, In k pm1 -> In k (keys m) /\ ~ In k (keys ps)).
    { intros k Hk. apply H3 in Hk. destruct Hk as [Hk Nk]. split; auto. intros Hp. apply Nk. split; auto. now apply IK. }
    assert (P1' : forall k, In k pm1 -> sget k m1 <> None).
    { intros k Hk. apply P1 in Hk. rewrite H1 by tauto. apply IK. tauto. }
    pose proof (pats_loop_sound pats FT m1 pm1 sn1 w3 J1 N1 P1') as PT.
    destruct (pats_loop rec E pats (M m1, pm1, sn1) w3) as [[[] st2] w4]; cbn [SpecSound.good] in PT.
    2:{ destruct st2 as [[v4 ?] ?]. cbn [SpecSound.good]. apply BF.
        destruct PT as (k & p & c & x & G1 & G2 & G3 & G4 & G5).
        right. right. right. exists k, c, x. apply P1 in G1. destruct G1 as [G0 G1].
        rewrite H1 in G4 by auto. splits; auto. unfold governs.
        destruct (sget k (o_props o)) eqn:Sk; [exfalso; apply G1, KP1, sget_some_keys; eauto|].
        left. exists p. split; auto. now apply KT. }
    2:{ destruct st2 as [[? ?] ?]. exact PT. }
    2:{ destruct st2 as [[? ?] ?]. exact I. }
    destruct PT as (m2 & pm2 & sn2 & -> & J2 & N2 & G1 & G2 & G3 & G4).
    (* additional properties *)
    set (r5 := match pm2 with [] => _ | _ :: _ => _ end).
    assert (P2 : forall k, In k pm2 -> In k (keys m) /\ ~ In k (keys ps) /\ ~ matched E (o_pats o) k /\ sget k m2 = sget k m).
    { intros k Hk. apply G3 in Hk. destruct Hk as [Hk Hm]. pose proof (P1 k Hk). rewrite <- MT.
      splits; try tauto. rewrite G1 by tauto. apply H1. tauto. }
    assert (R5 : good r5
      (fun v' => exists m', v' = M m' /\ jmap m' /\
         (forall k, ~ In k pm2 -> sget k m' = sget k m2) /\
         (forall k x, In k pm2 -> sget k m2 = Some x -> o_add o <> CNil /\ exists x', sget k m' = Some x' /\ A (o_add o) x x'))
      BAD).
    { assert (GA : pm2 <> [] -> o_add o <> CNil ->
        good (let '(ns, w5) := shuffle w4 pm2 in add_loop rec (o_add o) ns (M m2) w5)
          (fun v' => exists m', v' = M m' /\ jmap m' /\
         (forall k, ~ In k pm2 -> sget k m' = sget k m2) /\
         (forall k x, In k pm2 -> sget k m2 = Some x -> o_add o <> CNil /\ exists x', sget k m' = Some x' /\ A (o_add o) x x'))
      BAD).
      { intros _ NA. destruct (shuffle w4 pm2) as [ns w5] eqn:Sh3. apply shuffle_perm in Sh3.
        assert (IN : forall k, In k ns <-> In k pm2) by (intros k; split; apply Permutation_in; auto using Permutation_sym).
        assert (NN : NoDup ns) by (eapply Permutation_NoDup; eauto).
        assert (PQ : forall k, In k ns -> sget k m2 <> None).
        { intros k Hk. apply IN, P2 in Hk. destruct Hk as (A1 & _ & _ & A4). rewrite A4. now apply IK. }
        pose proof (add_loop_sound (o_add o) ns (CA NA) NN m2 w5 J2 PQ) as AL.
        destruct (add_loop rec (o_add o) ns (M m2) w5) as [[[] v5] w6]; cbn [SpecSound.good] in *; auto.
        - destruct AL as (m' & -> & J3 & A1 & A2). exists m'. splits; auto.
          + intros k Hk. apply A1. now rewrite IN.
          + intros k x Hk Hx. split; auto. apply A2; auto. now apply IN.
        - destruct AL as (k & x & A1 & A2 & A3). apply IN in A1. apply P2 in A1. destruct A1 as (B1 & B2 & B3 & B4).
          apply BF. right. right. right. exists k, (o_add o), x. rewrite B4 in A2. splits; auto.
          unfold governs. destruct (sget k (o_props o)) eqn:Sk; [exfalso; apply B2, KP1, sget_some_keys; eauto|].
          right. splits; auto. destruct (matched_dec E (o_pats o) k); auto; contradiction. }
      unfold r5. destruct pm2 as [|k0 pm2'] eqn:Ep.
      { cbn [SpecSound.good]. exists m2. splits; auto; intros; cbn [In] in *; contradiction. }
      destruct (o_add o) eqn:Oa; try (apply GA; discriminate).
      cbn [SpecSound.good]. apply BF. right. right. left. exists k0. destruct (P2 k0) as (B1 & B2 & B3 & B4); [now left|].
      split; auto. intros c Hg. unfold governs in Hg.
      destruct (sget k0 (o_props o)) eqn:Sk; [apply B2, KP1, sget_some_keys; eauto|].
      destruct Hg as [(p & Hp & Hr)|(_ & -> & Hn)]; [apply B3; exists p, c; auto|congruence]. }
    destruct r5 as [[[] v5] w6]; cbn [SpecSound.good] in R5; try exact R5; try contradiction.
    destruct R5 as (m3 & -> & J3 & A1 & A2).
    destruct (shuffle w6 sn2) as [ns w7] eqn:Sh4. apply shuffle_perm in Sh4.
    assert (IS : forall k, In k ns <-> In k sn2) by (intros k; split; apply Permutation_in; auto using Permutation_sym).
    assert (SE : forall k, In k sn2 <-> seen E o m k).
    { intros k. rewrite G4, H4, H3, KP1. unfold seen. rewrite <- IK. cbn [In]. change (exists p c, In (p, c) (o_pats o) /\ e_rx E (snd p) k = true) with (matched E (o_pats o) k).
      rewrite MT. destruct (in_dec string_dec k (keys (o_props o))); tauto. }
    assert (PS : props_sem A E o m m3).
    { unfold props_sem. splits; auto; [apply J3| |].
      - intros k x Hx. unfold governs.
        destruct (sget k (o_props o)) as [c|] eqn:Sk.
        + assert (Hin : In (k, c) ps) by (apply KP2, SG; auto).
          assert (Hk : In k (keys ps)) by (apply KP1, sget_some_keys; eauto).
          specialize (H2 k c Hin). rewrite Hx in H2. destruct H2 as (x' & Hx' & HA).
          exists c, x'. splits; auto.
          assert (N2k : ~ In k pm2) by (intros HH; apply P2 in HH; tauto).
          assert (N1k : ~ In k pm1) by (intros HH; apply P1 in HH; tauto).
          rewrite A1, G1 by tauto. exact Hx'.
        + assert (Hk : ~ In k (keys ps)) by (rewrite KP1; now apply sget_none_keys).
          assert (Hp1 : In k pm1) by (apply H3; split; [apply IK; congruence|tauto]).
          assert (Hx1 : sget k m1 = Some x) by (rewrite H1 by auto; exact Hx).
          destruct (matched_dec E (o_pats o) k) as [Hm|Hm].
          * destruct (G2 k x Hp1 (proj2 (MT k) Hm) Hx1) as (p & c & x' & B1 & B2 & B3 & B4).
            exists c, x'. splits; auto.
            -- left. exists p. split; auto. now apply KT.
            -- rewrite A1; auto. rewrite G3, MT. tauto.
          * assert (Nm : ~ matched E (o_pats o) k).
            { intros (p & c & Hp & Hr). rewrite (Hm p c Hp) in Hr. discriminate. }
            assert (Hp2 : In k pm2) by (apply G3; rewrite MT; auto).
            assert (Hx2 : sget k m2 = Some x) by (rewrite G1; [exact Hx1|rewrite MT; tauto]).
            destruct (A2 k x Hp2 Hx2) as (NA & x' & B1 & B2).
            exists (o_add o), x'. splits; auto.
      - intros k Hk.
        assert (N1k : ~ In k pm1) by (intros HH; apply P1 in HH; destruct HH as [HH _]; apply IK in HH; contradiction).
        assert (N2k : ~ In k pm2) by (intros HH; apply G3 in HH; tauto).
        assert (E3 : sget k m3 = sget k m1) by (rewrite A1, G1 by tauto; reflexivity).
        destruct (sget k (o_props o)) as [c|] eqn:Sk.
        + assert (Hin : In (k, c) ps) by (apply KP2, SG; auto).
          specialize (H2 k c Hin). rewrite Hk in H2. rewrite E3. exact H2.
        + rewrite E3, H1; auto. rewrite KP1. now apply sget_none_keys. }
    apply DEP; auto. intros k. now rewrite IS.
  Qed.

  Lemma obj_sound_map o m w : jmap m ->
    ssorted (o_props o) ->
    (forall k c, In (k, c) (o_props o) -> C c) ->
    (forall p c, In (p, c) (o_pats o) -> C c) ->
    (o_add o <> CNil -> C (o_add o)) ->
    (forall k, schema_dep o k <> CNil -> C (schema_dep o k) /\ pure E (schema_dep o k)) ->
    (forall k c d, In (k, c) (o_props o) -> Default E c d -> J d) ->
    good (obj_validate rec gd E o (M m) w)
      (fun v' => obj_sem A R E o (M m) (Some v') /\ J v')
      (obj_sem A R E o (M m) None).
  Proof.
    intros Jv SP CP CT CA CS DD. apply obj_sound_gen; auto.
    { cbn [obj_sem]. unfold obj_front_bad. tauto. }
    intros m3 sn ns w7 J3 PS IS SE.
    assert (JM : J (M m3)) by (apply Jmap; exact J3).
    pose proof (deps_loop_sound o sn ns CS (M m3) w7 JM) as DL.
    destruct (deps_loop rec o sn ns (M m3) w7) as [[[] v8] w8]; cbn [SpecSound.good] in *; auto.
    - destruct DL as (-> & D1 & D2). split; auto. cbn [obj_sem]. exists m3. splits; auto.
      + intros k d Hs Hd. apply SE. eapply D1; eauto. now apply IS.
      + intros k Hs. apply D2. now apply IS.
    - cbn [obj_sem]. destruct DL as [(k & d & D1 & D2 & D3)|(k & D1 & D2 & D3 & D4)].
      + right. right. right. right. left. exists k, d. splits; auto.
        * now apply IS.
        * now rewrite <- SE.
      + right. right. right. right. right. exists k, m3. splits; auto. now apply IS.
  Qed.
End ObjSound.
