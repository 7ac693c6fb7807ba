(** Validate does not panic on documents (C27), whatever the constraint does with
    defaults; the only conditions are no nil children, comparable enumeration values and
    defaults that are documents themselves. *)
From Verif Require Import Base GoFloat GoValue Maybe Formats Constraint StructInfo Validate Fuel Reach ReadOnly Frame Spec SpecSound.
Open Scope Z_scope.

Definition sane (E : env) (c : constr) : Prop := c <> CNil /\ Deep E (fun x => x = CNil \/ node_ok E x) c.

Lemma sane_child E c x : In x (children E c) -> x <> CNil -> sane E c -> sane E x.
Proof. intros H N [_ D]. split; auto. eapply Deep_child; eauto. Qed.
Lemma sane_here E c : sane E c -> node_ok E c.
Proof. intros [N D]. destruct (Deep_here _ _ _ D); [contradiction|auto]. Qed.

(** maps keep their entries *)
Definition grow (v v' : gval) : Prop :=
  match v with
  | GMap T kk i ET (Some m) => exists m', v' = GMap T kk i ET (Some m') /\ incl (keys m) (keys m')
  | _ => True
  end.

Lemma grow_refl v : grow v v.
Proof. destruct v; cbn; auto. destruct m; auto. eauto using incl_refl. Qed.
Lemma grow_trans a b c : grow a b -> grow b c -> grow a c.
Proof.
  destruct a; cbn; auto. destruct m; auto. intros (m1 & -> & A) (m2 & -> & B). exists m2.
  split; auto. eapply incl_tran; eauto.
Qed.

(** documents have no pointers, structs or Maybes *)
Lemma jdoc_prop v k i x : jdoc v -> get_prop (deref1 v) k = Some (RV i x) ->
  exists T ET m, v = GMap T KString true ET (Some m) /\ sget k m = Some x /\ i = true /\ jdoc x.
Proof.
  intros J G. destruct J; try discriminate. cbn in G.
  destruct (sget k m) as [y|] eqn:S; [|discriminate]. injection G as <- <-. eauto 10.
Qed.

Lemma jdoc_put v k i x x' : jdoc v -> get_prop (deref1 v) k = Some (RV i x) -> jdoc x' ->
  jdoc (put_prop v k x') /\ grow v (put_prop v k x').
Proof.
  intros J G J'. destruct (jdoc_prop v k i x J G) as (T & ET & m & -> & S & _ & _).
  inversion J as [| | | | | | | |? ? ? SS HM]; subst. cbn [put_prop put_target]. split.
  - constructor.
    + unfold ssorted in *. now rewrite supd_keys.
    + intros j y Q. destruct (String.eqb_spec j k) as [->|N].
      * rewrite sget_supd_same in Q by (apply sget_some_keys; eauto). now injection Q as <-.
      * rewrite sget_supd_other in Q by auto. eauto.
  - cbn. eexists. split; [reflexivity|]. rewrite supd_keys. apply incl_refl.
Qed.

Lemma jdoc_set E v k d pv : jdoc v -> jdoc d -> get_prop (deref1 v) k = Some pv -> look_prop pv = LMissing ->
  forall r, set_prop E v k d = r -> (forall m, r <> GPanic m) /\ (forall v', r = GOk v' -> jdoc v' /\ grow v v').
Proof.
  intros J Jd G L r S.
  destruct J; cbn [set_prop set_target] in S; try (subst r; split; [discriminate|discriminate]).
  cbn in G. destruct (sget k m) as [y|] eqn:Sk.
  { injection G as <-. discriminate L. }
  assert (IN : incl (keys m) (keys (sdel k m))) by (rewrite sdel_absent by auto; apply incl_refl).
  assert (Ks : forall x, incl (keys m) (keys (sset k x m))).
  { intros x j Hj. apply sset_keys. auto. }
  assert (Q : r = GOk (GMap T KString true ET (Some (match d with GNil => sdel k m | _ => sset k d m end))))
    by (destruct d; cbn in S; auto).
  clear S. subst r. split; [discriminate|]. intros v' [= <-]. split.
  - constructor.
    + destruct d; auto using sset_sorted, sdel_sorted.
    + intros j x Hx. assert (A : sget j m = Some x \/ x = d).
      { destruct (String.eqb_spec j k) as [->|N].
        - destruct d; rewrite ?sget_sset_same, ?sget_sdel_same in Hx; try discriminate; right; congruence.
        - destruct d; rewrite ?sget_sset_other, ?sget_sdel_other in Hx by auto; auto. }
      destruct A as [A| ->]; [eauto|assumption].
  - cbn. eexists. split; [reflexivity|]. destruct d; auto.
Qed.

Lemma jdoc_rec E n : pres (sane E) jdoc grow (validate n E).
Proof.
  (* children may be nil, so the frame theorem is used with a weaker predicate *)
  assert (K : pres (fun c => Deep E (fun x => x = CNil \/ node_ok E x) c) jdoc grow (validate n E)).
  { apply validate_pres.
    - intros v _. apply grow_refl.
    - exact grow_trans.
    - intros c x D I. eapply Deep_child; eauto.
    - intros v k i x J G. destruct (jdoc_prop v k i x J G) as (? & ? & ? & _ & _ & _ & Jx). exact Jx.
    - intros v k i x x' J G J' _. eapply jdoc_put; eauto.
    - intros o k c d v v' pv D I Df J G L S.
      assert (Jd : jdoc d).
      { destruct (Deep_here _ _ _ D) as [X|(_ & _ & _ & H)]; [discriminate|eauto]. }
      destruct (jdoc_set E v k d pv J Jd G L _ S) as [_ H]. now apply H.
    - intros T i l J. inversion J; subst. now apply Forall_forall.
    - intros T i l l' J F. split; [|exact I]. constructor. clear J. intros x Hx.
      induction F as [|a b ? ? [] F IH]; cbn in *; [tauto|]. destruct Hx; subst; auto. }
  intros c v w r v' w' [_ D] J H. eapply K; eauto.
Qed.

Definition calm (r : res) : Prop := forall m, r <> Panic m.

Section loops.
  Variables (E : env) (n : nat).
  Let rec := validate n E.
  Hypothesis IH : forall c v w, sane E c -> jdoc v -> calm (fst (fst (rec c v w))).

  Ltac call c v w J :=
    let r := fresh "r" in let v1 := fresh "v1" in let w1 := fresh "w1" in let R := fresh "R" in
    let C := fresh "C" in let J1 := fresh "J1" in let G1 := fresh "G1" in
    match goal with Sc : sane E c |- _ =>
      pose proof (IH c v w Sc J) as C;
      destruct (rec c v w) as [[r v1] w1] eqn:R;
      destruct (jdoc_rec E n c v w r v1 w1 Sc J R) as [J1 G1]; cbn [fst] in C
    end.

  Lemma calm_of m : calm (Fail m). Proof. discriminate. Qed.
  Lemma calm_pass : calm Pass. Proof. discriminate. Qed.
  Lemma calm_oof : calm OOF. Proof. discriminate. Qed.
  Hint Resolve calm_of calm_pass calm_oof : core.

  Lemma all_calm l : Forall (sane E) l -> forall v w, jdoc v -> calm (fst (fst (all_loop rec l v w))).
  Proof.
    induction 1 as [|c l Hc Hl IHl]; intros v w J; cbn [all_loop fst]; auto.
    call c v w J. destruct r; cbn; auto.
  Qed.
  Lemma any_calm l : Forall (sane E) l -> forall v w, jdoc v -> calm (fst (fst (any_loop rec l v w))).
  Proof.
    induction 1 as [|c l Hc Hl IHl]; intros v w J; cbn [any_loop fst]; auto.
    call c v w J. destruct r; cbn; auto.
  Qed.
  Lemma oneof_calm l : Forall (sane E) l -> forall i v w, jdoc v -> calm (fst (fst (oneof_loop rec l i v w))).
  Proof.
    induction 1 as [|c l Hc Hl IHl]; intros i v w J; cbn [oneof_loop fst]; [destruct i as [|[|]]; auto|].
    call c v w J. destruct r; cbn; auto.
  Qed.

  Lemma set_nth_docs i y : jdoc y -> forall l, (forall x, In x l -> jdoc x) -> forall x, In x (set_nth i y l) -> jdoc x.
  Proof.
    intros Jy l. revert i. induction l as [|a l IHl]; intros [|i] J x Hx; cbn in *; auto; destruct Hx; subst; auto.
    eapply IHl; eauto.
  Qed.

  Lemma idx_calm jobs : Forall (fun j => sane E (snd j)) jobs -> forall l w, (forall x, In x l -> jdoc x) ->
    let '(r, l', w') := idx_loop rec jobs l w in calm r /\ forall x, In x l' -> jdoc x.
  Proof.
    induction 1 as [|[i c] jobs Hc Hl IHl]; intros l w J; cbn [idx_loop]; [split; auto|].
    assert (Jn : jdoc (nth i l GNil)).
    { destruct (nth_in_or_default i l GNil) as [A|A]; [auto|]. rewrite A. constructor. }
    cbn [snd] in Hc. call c (nth i l GNil) w Jn.
    pose proof (set_nth_docs i v1 J1 l J) as JS.
    destruct r; try (split; auto; fail). now apply IHl.
  Qed.

  Section obj.
    Variable o : objcfg.
    Hypothesis So : sane E (CObj o).

    Lemma prop_sane k c : In (k, c) (o_props o) -> sane E c.
    Proof.
      intros I. destruct (sane_here _ _ So) as (_ & H & _).
      eapply sane_child; [eapply child_prop; eauto|eauto|exact So].
    Qed.
    Lemma pat_sane p c : In (p, c) (o_pats o) -> sane E c.
    Proof.
      intros I. destruct (sane_here _ _ So) as (_ & _ & H & _).
      eapply sane_child; [eapply child_pat; eauto|eauto|exact So].
    Qed.

    Lemma default_calm m : forall c, sane E c -> get_default m E c <> DPanic.
    Proof.
      clear. induction m as [|m IHm]; intros c W; cbn [get_default]; [discriminate|].
      destruct c; try discriminate; try (destruct d; discriminate).
      - destruct W; congruence.
      - destruct (e_refs E name) as [c'|] eqn:Rf; [|discriminate]. apply IHm.
        pose proof (sane_here _ _ W) as NO. cbn in NO.
        eapply sane_child; [eapply child_ref; eauto|congruence|exact W].
    Qed.

    Lemma get_calm v k : jdoc v -> exists pv, get_prop (deref1 v) k = Some pv /\ look_prop pv <> LPanic /\
      (forall x, interface pv = Some x -> exists i, pv = RV i x /\ jdoc x) /\
      (forall u x, look_prop pv = LHere u x -> u = false /\ interface pv = Some x).
    Proof.
      intros J. destruct J; cbn; try (eexists; split; [reflexivity|]; split; [discriminate|]; split; [discriminate|discriminate]).
      destruct (sget k m) as [x|] eqn:S.
      - exists (RV true x). cbn. split; [reflexivity|]. split; [discriminate|]. split.
        + intros y [= <-]. eauto.
        + intros u y [= <- <-]. auto.
      - exists RZero. cbn. repeat split; discriminate.
    Qed.

    (** names waiting in premain are still entries *)
    Definition isobj (v : gval) (l : list string) : Prop :=
      exists T ET m, v = GMap T KString true ET (Some m) /\ incl l (keys m).
    Lemma isobj_grow v v' l : isobj v l -> grow v v' -> isobj v' l.
    Proof.
      intros (T & ET & m & -> & A) (m' & -> & B). exists T, ET, m'. split; auto. eapply incl_tran; eauto.
    Qed.
    Lemma isobj_sub v l l' : isobj v l -> incl l' l -> isobj v l'.
    Proof. intros (T & ET & m & -> & A) B. exists T, ET, m. split; auto. eapply incl_tran; eauto. Qed.
    Lemma isobj_get v l k : isobj v l -> In k l -> exists i x, get_prop (deref1 v) k = Some (RV i x).
    Proof.
      intros (T & ET & m & -> & A) I. apply A in I. apply sget_some_keys in I as (x & S). cbn. rewrite S. eauto.
    Qed.
    Lemma remove_incl k l : incl (remove_s k l) l.
    Proof. intros x H. now apply remove_s_In in H. Qed.

    Lemma props_calm ps : (forall e, In e ps -> In e (o_props o)) -> forall v pm sn w, jdoc v -> isobj v pm ->
      let '(r, (v', pm', sn'), w') := props_loop rec (get_default n E) E o ps (v, pm, sn) w in
      calm r /\ (r = Pass -> jdoc v' /\ isobj v' pm').
    Proof.
      induction ps as [|[k c] ps IHp]; intros Q v pm sn w J O; cbn [props_loop]; [split; auto|].
      assert (Q' : forall e, In e ps -> In e (o_props o)) by (intros; apply Q; now right).
      assert (Sc : sane E c) by (eapply prop_sane; apply Q; now left).
      destruct (get_calm v k J) as (pv & G & NL & IJ & LH). rewrite G.
      destruct (look_prop pv) as [| |u x] eqn:L; [congruence| |].
      - destruct (is_required o k); [split; auto; discriminate|].
        destruct (get_default n E c) as [|d| |] eqn:GD; [now apply IHp| | |split; auto; discriminate].
        + destruct (jdoc_set E v k d pv J) with (r := set_prop E v k d) as [A B]; auto.
          { destruct (sane_here _ _ So) as (_ & _ & _ & H). eapply H; [apply Q; now left|].
            eapply get_default_sound; eauto. }
          destruct (set_prop E v k d) as [v1|e|e]; [|split; auto; discriminate|destruct (A e eq_refl)].
          destruct (B v1 eq_refl). apply IHp; auto. eapply isobj_grow; eauto.
        + destruct (default_calm n c Sc GD).
      - destruct (LH u x eq_refl) as (-> & Ix). destruct (IJ x Ix) as (i & -> & Jx).
        call c x w Jx. destruct (jdoc_put v k i x v1 J G J1) as [J2 G2].
        destruct r; try (split; auto; discriminate).
        apply IHp; auto. eapply isobj_sub; [eapply isobj_grow; eauto|apply remove_incl].
    Qed.

    Lemma pat_inner_calm src c ns : sane E c -> forall v pm sn w, jdoc v -> isobj v ns -> isobj v pm ->
      let '(r, (v', pm', sn'), w') := pat_inner rec E src c ns (v, pm, sn) w in
      calm r /\ (r = Pass -> jdoc v' /\ isobj v' pm').
    Proof.
      intros Sc. induction ns as [|k ns IHn]; intros v pm sn w J O O2; cbn [pat_inner]; [split; auto|].
      assert (O' : isobj v ns) by (eapply isobj_sub; [exact O|]; intros x; now right).
      destruct (negb (e_rx E src k)); [now apply IHn|].
      destruct (isobj_get v (k :: ns) k O) as (i & x & G); [now left|]. rewrite G. cbn [interface].
      destruct (jdoc_prop v k i x J G) as (_ & _ & _ & _ & _ & _ & Jx).
      call c x w Jx. destruct (jdoc_put v k i x v1 J G J1) as [J2 G2].
      destruct r; try (split; auto; discriminate).
      apply IHn; auto; [eapply isobj_grow; [exact O'|exact G2]|].
      eapply isobj_sub; [eapply isobj_grow; [exact O2|exact G2]|apply remove_incl].
    Qed.

    Lemma pats_calm ps : (forall e, In e ps -> In e (o_pats o)) -> forall v pm sn w, jdoc v -> isobj v pm ->
      let '(r, (v', pm', sn'), w') := pats_loop rec E ps (v, pm, sn) w in
      calm r /\ (r = Pass -> jdoc v' /\ isobj v' pm').
    Proof.
      induction ps as [|[[i src] c] ps IHp]; intros Q v pm sn w J O; cbn [pats_loop]; [split; auto|].
      destruct (shuffle w pm) as [ns w1] eqn:Sh. apply shuffle_perm in Sh.
      assert (Sc : sane E c) by (eapply pat_sane; apply Q; now left).
      assert (On : isobj v ns).
      { eapply isobj_sub; [exact O|]. intros x Hx. eapply Permutation_in; [symmetry; exact Sh|exact Hx]. }
      pose proof (pat_inner_calm src c ns Sc v pm sn w1 J On O) as P.
      destruct (pat_inner rec E src c ns (v, pm, sn) w1) as [[r [[v1 pm1] sn1]] w2].
      destruct P as [C P]. destruct r; try (split; auto; discriminate).
      destruct (P eq_refl). apply IHp; auto. intros e He. apply Q. now right.
    Qed.

    Lemma add_calm c ns : sane E c -> forall v w, jdoc v -> isobj v ns ->
      let '(r, v', w') := add_loop rec c ns v w in calm r /\ (r = Pass -> jdoc v').
    Proof.
      intros Sc. induction ns as [|k ns IHn]; intros v w J O; cbn [add_loop]; [split; auto|].
      assert (O' : isobj v ns) by (eapply isobj_sub; [exact O|]; intros x; now right).
      destruct (isobj_get v (k :: ns) k O) as (i & x & G); [now left|]. rewrite G. cbn [interface].
      destruct (jdoc_prop v k i x J G) as (_ & _ & _ & _ & _ & _ & Jx).
      call c x w Jx. destruct (jdoc_put v k i x v1 J G J1) as [J2 G2].
      destruct r; try (split; auto; discriminate).
      apply IHn; auto. eapply isobj_grow; eauto.
    Qed.

    Lemma deps_calm sn ns : forall v w, jdoc v -> calm (fst (fst (deps_loop rec o sn ns v w))).
    Proof.
      induction ns as [|k ns IHn]; intros v w J; cbn [deps_loop fst]; auto.
      destruct (prop_deps o k) as [|d ds].
      - assert (SD : schema_dep o k <> CNil -> sane E (schema_dep o k)).
        { intros N. eapply sane_child; [apply child_sdep; exact N|exact N|exact So]. }
        destruct (schema_dep o k) eqn:Sq; [now apply IHn|..];
          (specialize (SD ltac:(discriminate));
           match goal with |- context[rec ?c v w] => call c v w J end;
           destruct r; cbn; auto).
      - destruct (missing_dep sn (d :: ds)); cbn; auto.
    Qed.

    Lemma obj_calm v w : jdoc v -> calm (fst (fst (obj_validate rec (get_default n E) E o v w))).
    Proof.
      intros J. unfold obj_validate.
      destruct J as [| | | | | | | |T ET m SS HM]; cbn [deref1 valueOf elem get_names]; try (cbn; auto; fail).
      assert (J : jdoc (GMap T KString true ET (Some m))) by now constructor.
      cbv zeta.
      destruct (_ && _); [cbn; auto|]. destruct (_ && _); [cbn; auto|].
      assert (O : isobj (GMap T KString true ET (Some m)) (keys m)) by (exists T, ET, m; auto using incl_refl).
      destruct (shuffle w (o_props o)) as [ps w1] eqn:Sh. apply shuffle_perm in Sh.
      pose proof (props_calm ps (fun e He => Permutation_in _ (Permutation_sym Sh) He)
                    (GMap T KString true ET (Some m)) (keys m) [] w1 J O) as P.
      destruct (props_loop rec (get_default n E) E o ps (GMap T KString true ET (Some m), keys m, []) w1)
        as [[r1 [[v1 pm1] sn1]] w2].
      destruct P as [C P]. destruct r1; try (exact C).
      destruct (P eq_refl) as [J1 O1].
      destruct (shuffle w2 (o_pats o)) as [pats w3] eqn:Sh2. apply shuffle_perm in Sh2.
      pose proof (pats_calm pats (fun e He => Permutation_in _ (Permutation_sym Sh2) He) v1 pm1 sn1 w3 J1 O1) as P2.
      destruct (pats_loop rec E pats (v1, pm1, sn1) w3) as [[r2 [[v2 pm2] sn2]] w4].
      destruct P2 as [C2 P2]. destruct r2; try (exact C2).
      destruct (P2 eq_refl) as [J2 O2].
      destruct pm2 as [|p pm2].
      { destruct (shuffle w4 sn2) as [ns w7]. now apply deps_calm. }
      destruct (shuffle w4 (p :: pm2)) as [ns w5] eqn:Sh3. apply shuffle_perm in Sh3.
      assert (On : isobj v2 ns).
      { eapply isobj_sub; [exact O2|]. intros x Hx. eapply Permutation_in; [symmetry; exact Sh3|exact Hx]. }
      assert (Sa : o_add o <> CNil -> sane E (o_add o)).
      { intros N. eapply sane_child; [apply child_add|exact N|exact So]. }
      destruct (o_add o) eqn:Oa; [cbn; auto|..];
        (specialize (Sa ltac:(discriminate));
         match goal with |- context[add_loop rec ?c ns v2 w5] =>
           pose proof (add_calm c ns Sa v2 w5 J2 On) as P3; destruct (add_loop rec c ns v2 w5) as [[r3 v3] w6] end;
         destruct P3 as [C3 P3]; destruct r3; try (exact C3);
         destruct (shuffle w6 sn2) as [ns' w7]; apply deps_calm; auto).
    Qed.
  End obj.
End loops.

Lemma enum_calm l v : comparables l -> jdoc v -> calm (enum_loop l v).
Proof. intros C J. pose proof (enum_loop_spec l v C J) as H. destruct (enum_loop l v); try discriminate. contradiction. Qed.
Lemma num_calm m f : opt comparables (n_enum m) -> calm (num_check m f).
Proof. intros C. pose proof (num_check_spec m f C) as H. destruct (num_check m f); try discriminate. contradiction. Qed.
Lemma str_calm E q x : opt comparables (s_enum q) -> calm (str_check E q x).
Proof. intros C. pose proof (str_check_spec E q x C) as H. destruct (str_check E q x); try discriminate. contradiction. Qed.
Lemma numv_calm m v : opt comparables (n_enum m) -> calm (num_validate m v).
Proof.
  intros C. unfold num_validate. destruct (deref1 v) as [|[|] []]; try discriminate. now apply num_calm.
Qed.

Theorem validate_no_panic E n : forall c v w, sane E c -> jdoc v -> calm (fst (fst (validate n E c v w))).
Proof.
  induction n as [|n IH]; intros c v w S J; [discriminate|]. cbn [validate].
  pose proof (sane_here _ _ S) as N.
  assert (L : forall l, (forall x, In x l -> In x (children E c)) -> ~ In CNil l -> Forall (sane E) l).
  { intros l H NI. apply Forall_forall. intros x Hx. eapply sane_child; [apply H, Hx| |exact S].
    intros ->. contradiction. }
  destruct c; cbn [node_ok] in N; cbn [fst]; try discriminate.
  - destruct S; congruence.
  - unfold null_validate. destruct v; try discriminate; repeat match goal with
      | |- context[match ?x with _ => _ end] => destruct x; try discriminate end.
  - unfold bool_validate. destruct v; discriminate.
  - unfold str_validate. destruct (deref1 v) as [|[|] []]; try discriminate. now apply str_calm.
  - now apply numv_calm.
  - unfold int_validate. destruct (deref1 v) as [|[|] []]; try discriminate; try (now apply numv_calm).
    destruct (negb _); [discriminate|now apply numv_calm].
  - unfold arr_validate.
    destruct v; try discriminate.
    set (els := match l with None => [] | Some l => l end).
    assert (JL : forall x, In x els -> jdoc x) by (subst els; inversion J; subst; cbn; auto; tauto).
    destruct (_ && _); [discriminate|]. destruct (_ && _); [discriminate|]. destruct (_ && _); [discriminate|].
    assert (IT : a_items a <> CNil -> sane E (a_items a)).
    { intros NI. eapply sane_child; [apply child_items|exact NI|exact S]. }
    assert (AD : a_add a <> CNil -> sane E (a_add a)).
    { intros NI. eapply sane_child; [apply child_aadd|exact NI|exact S]. }
    assert (MS : forall c l, sane E c -> Forall (fun j : nat * constr => sane E (snd j)) (map (fun i => (i, c)) l)).
    { intros c l' Sc. apply Forall_forall. intros j Hj. apply in_map_iff in Hj as (i & <- & _). exact Sc. }
    destruct (a_items a) eqn:AI;
      [|specialize (IT ltac:(discriminate));
        match goal with |- context[idx_loop ?r (map ?f ?l) els w] =>
          pose proof (idx_calm E n IH (map f l) (MS _ l IT) els w JL) as C2;
          destruct (idx_loop r (map f l) els w) as [[r2 l2] w2] end;
        destruct C2 as [C2 _]; exact C2 ..].
    { assert (PJ : Forall (fun j => sane E (snd j)) (positional_jobs (a_pos a) (List.length els))).
      { apply Forall_forall. intros [i c] Hj. unfold positional_jobs in Hj. apply in_combine_r in Hj. cbn.
        assert (F : Forall (sane E) (a_pos a)) by (apply L; [intros x; apply child_pos|exact N]).
        rewrite Forall_forall in F. auto. }
      pose proof (idx_calm E n IH _ PJ els w JL) as C1.
      destruct (idx_loop (validate n E) (positional_jobs (a_pos a) (List.length els)) els w) as [[r1 l1] w1].
      destruct C1 as [C1 JL1]. destruct r1; try exact C1.
      destruct (_ && _); [|discriminate].
      destruct (a_add a) eqn:AA; [discriminate|..];
        (specialize (AD ltac:(discriminate));
         match goal with |- context[idx_loop ?r (map ?f ?l) l1 w1] =>
           pose proof (idx_calm E n IH (map f l) (MS _ l AD) l1 w1 JL1) as C2;
           destruct (idx_loop r (map f l) l1 w1) as [[r2 l2] w2] end;
         destruct C2 as [C2 _]; exact C2). }
  - apply (obj_calm E n IH o S v w J).
  - now apply (enum_calm l v N J).
  - apply (any_calm E n IH); auto.
  - apply (all_calm E n IH); auto.
  - apply (oneof_calm E n IH); auto.
  - unfold not_validate. destruct c; try discriminate; cbn [fst];
      (match goal with |- context[validate n E ?c v w] =>
        assert (Sc : sane E c) by (apply (sane_child E (CNot c) c); [now left|discriminate|exact S]);
        pose proof (IH c v w Sc J) as C; destruct (validate n E c v w) as [[[] ?] ?] end; try discriminate; exact C).
  - destruct (e_refs E name) as [c'|] eqn:Rf; [|discriminate]. apply IH; auto.
    eapply sane_child; [eapply child_ref; eauto|congruence|exact S].
Qed.
