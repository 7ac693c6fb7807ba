(** Defaults reach Maybe fields through a pointer (C38). *)
From Verif Require Import Base GoFloat GoValue Maybe Formats Constraint StructInfo Validate Fuel Reach ReadOnly
  Frame MaybeProofs Simulate StructProofs.
Open Scope Z_scope.

(** ** Specification: the value a Maybe field of a kind holds after default [d] was put
    into it.  Integer and float fields take any number, converted by Go's rules; the
    others take what their Set takes. *)
Inductive Stored (tp : string -> Z + string) : mkind -> gval -> gval -> Prop :=
| st_int_int T k z : - 2 ^ 63 <= z < 2 ^ 63 -> Stored tp KInt (GInt T k z) (GInt "int64" Kint64 z)
| st_int_uint T k z y : - 2 ^ 63 <= y < 2 ^ 63 -> (exists q, z = y + q * 2 ^ 64) ->
    Stored tp KInt (GUint T k z) (GInt "int64" Kint64 y)
| st_int_float T is32 f : Stored tp KInt (GFloat T is32 f) (GInt "int64" Kint64 (f64_to_int64 (rv_float is32 f)))
| st_float_int T k z : Stored tp KFloat (GInt T k z) (GFloat "float64" false (f64_of_Z z))
| st_float_uint T k z : Stored tp KFloat (GUint T k z) (GFloat "float64" false (f64_of_Z z))
| st_float_float T is32 f : Stored tp KFloat (GFloat T is32 f) (GFloat "float64" false (rv_float is32 f))
| st_other k d y : k <> KInt -> k <> KFloat -> Takes tp k d y -> Stored tp k d y.

Lemma wrap_range z : - 2 ^ 63 <= wrap 64 z < 2 ^ 63.
Proof. unfold wrap. pose proof (Z.mod_pos_bound (z + 2 ^ (64 - 1)) (2 ^ 64)). lia. Qed.
Lemma wrap_id z : - 2 ^ 63 <= z < 2 ^ 63 -> wrap 64 z = z.
Proof. intros H. unfold wrap. rewrite Z.mod_small; lia. Qed.
Lemma wrap_cong z : exists q, z = wrap 64 z + q * 2 ^ 64.
Proof.
  unfold wrap. exists ((z + 2 ^ (64 - 1)) / 2 ^ 64).
  pose proof (Z.div_mod (z + 2 ^ (64 - 1)) (2 ^ 64)). lia.
Qed.

(** numbers as Go has them *)
Definition in_kind (d : gval) : Prop :=
  match d with GInt _ _ z => - 2 ^ 63 <= z < 2 ^ 63 | _ => True end.

Lemma stored_set E m d m' : in_kind d -> m_set (e_time E) m (coerce d false (GMaybe m)) = inl m' ->
  m_valid m' = true /\ kind_of m' = kind_of m /\ Stored (e_time E) (kind_of m) d (m_value m').
Proof.
  intros K H. apply set_exact in H as (V & KO & T). split; [auto|]. split; [auto|].
  destruct m; cbn [coerce kind_of] in *.
  - apply st_other; try discriminate. revert T. destruct d; auto.
  - destruct d; cbn [to_float64] in T; inversion T; subst; try constructor.
  - destruct d; cbn [to_int64] in T; inversion T; subst.
    + rewrite wrap_id by auto. now constructor.
    + constructor; [apply wrap_range|apply wrap_cong].
    + constructor.
  - apply st_other; try discriminate. revert T. destruct d; auto.
  - apply st_other; try discriminate. revert T. destruct d; auto.
  - apply st_other; try discriminate. revert T. destruct d; auto.
Qed.

(** ** A Maybe field that is set stays as it is *)
Definition set_fields_stay (fs fs' : list (finfo * gval)) : Prop :=
  map fst fs' = map fst fs /\
  forall j fi m, nth_error fs j = Some (fi, GMaybe m) -> m_valid m = true -> nth_error fs' j = Some (fi, GMaybe m).

Definition stay (x x' : gval) : Prop :=
  match x with
  | GMaybe m => m_valid m = true -> x' = x
  | GPtr T a (Some (false, GStruct TS fs)) =>
      exists fs', x' = GPtr T a (Some (false, GStruct TS fs')) /\ set_fields_stay fs fs'
  | _ => True
  end.

Lemma sfs_refl fs : set_fields_stay fs fs.
Proof. split; auto. Qed.

Lemma stay_refl v : stay v v.
Proof. destruct v; cbn; auto. destruct p as [[[|] []]|]; auto. eauto using sfs_refl. Qed.

Lemma stay_trans a b c : stay a b -> stay b c -> stay a c.
Proof.
  destruct a; cbn; auto.
  - destruct p as [[[|] []]|]; auto. intros (fs1 & -> & A1 & A2) (fs2 & -> & B1 & B2).
    exists fs2. split; [reflexivity|]. split; [congruence|]. eauto.
  - intros A B V. specialize (A V). subst b. now apply B.
Qed.

Lemma set_nth_field_nth i f fs j :
  nth_error (set_nth_field i f fs) j =
    if Nat.eqb i j then option_map (fun e => (fst e, f (snd e))) (nth_error fs j) else nth_error fs j.
Proof.
  revert i j. induction fs as [|[fi x] fs IH]; intros [|i] [|j]; cbn; auto.
  - destruct (Nat.eqb i j); reflexivity.
Qed.

Lemma set_nth_field_fst i f fs : map fst (set_nth_field i f fs) = map fst fs.
Proof. revert i. induction fs as [|[fi x] fs IH]; intros [|i]; cbn; auto. now rewrite IH. Qed.

Lemma put_struct_path TS fs k y :
  put_target k y (GStruct TS fs) = GStruct TS fs \/
  exists path fn fi x, field_by_name (GStruct TS fs) fn = Some (path, (fi, x)) /\
    get_prop (RV false (GStruct TS fs)) k = Some (RV (f_iface fi) x) /\
    put_target k y (GStruct TS fs) = set_path path y (GStruct TS fs).
Proof.
  cbn [put_target get_prop]. destruct (extract (GStruct TS fs)) as [props|]; auto.
  destruct (field_name props k) as [fn|]; auto.
  destruct (field_by_name (GStruct TS fs) fn) as [[path [fi x]]|] eqn:B; auto.
  right. exists path, fn, fi, x. auto.
Qed.

(** overwriting what a path holds leaves set Maybe fields alone unless the path is such a field *)
Lemma set_path_stay TS fs path x y : get_path path (GStruct TS fs) = Some x -> path <> [] ->
  stay x y -> exists fs', set_path path y (GStruct TS fs) = GStruct TS fs' /\ set_fields_stay fs fs'.
Proof.
  intros G NE St. destruct path as [|i p]; [congruence|]. cbn [set_path get_path] in *.
  eexists. split; [reflexivity|]. split; [apply set_nth_field_fst|].
  intros j fi m N V. rewrite set_nth_field_nth. destruct (Nat.eqb_spec i j) as [->|]; [|auto].
  rewrite N in *. cbn [option_map fst snd]. destruct p as [|i' p]; cbn [get_path set_path] in *.
  - injection G as <-. cbn in St. now rewrite (St V).
  - discriminate.
Qed.

Lemma stay_put v k i x x' : get_prop (deref1 v) k = Some (RV i x) -> stay x x' -> stay v (put_prop v k x').
Proof.
  intros G Q. destruct v; cbn [stay]; auto.
  - destruct p as [[[|] []]|]; auto. cbn [deref1 valueOf elem] in G.
    destruct (put_struct_path T0 fs k x') as [Q'|(path & fn & fi & y & B & G' & Q')].
    + exists fs. cbn [put_prop]. rewrite Q'. eauto using sfs_refl.
    + rewrite G in G'. injection G' as -> ->.
      destruct (field_by_name_path _ _ _ _ _ B) as (GP & _ & NE).
      destruct (set_path_stay T0 fs path y x' GP NE Q) as (fs' & SP & SF).
      exists fs'. cbn [put_prop]. rewrite Q', SP. auto.
Qed.

Lemma stay_set E v k d v' pv : get_prop (deref1 v) k = Some pv -> look_prop pv = LMissing ->
  set_prop E v k d = GOk v' -> stay v v'.
Proof.
  intros G L ST. destruct v; cbn [stay]; auto.
  - destruct p as [[[|] []]|]; auto.
    cbn [set_prop] in ST. unfold gmapres in ST.
    destruct (set_target E true (GStruct T0 fs) k d) as [x'|e|e] eqn:SQ; try discriminate.
    injection ST as <-. cbn [deref1 valueOf elem] in G. cbn [get_prop] in G. cbn [set_target] in SQ.
    destruct (extract (GStruct T0 fs)) as [props|]; [|discriminate].
    destruct (field_name props k) as [fn|]; [|discriminate].
    destruct (field_by_name (GStruct T0 fs) fn) as [[path [fi f]]|] eqn:B; [|discriminate].
    injection G as <-. destruct (field_by_name_path _ _ _ _ _ B) as (GP & _ & NE).
    cbn [look_prop] in L. destruct (is_maybe (RV (f_iface fi) f)) eqn:M; [|discriminate].
    destruct (maybe_of (RV (f_iface fi) f)) as [m|] eqn:MO; [|discriminate].
    destruct (m_valid m) eqn:V; [discriminate|].
    assert (Q : exists y, x' = set_path path y (GStruct T0 fs) /\ stay f y).
    { destruct (f_iface fi), f; cbn in M, MO; try discriminate.
      - destruct p as [[[|] []]|]; try discriminate.
        cbn in MO. rewrite M in MO. injection MO as ->.
        destruct d; try discriminate;
          (match type of SQ with context[m_set ?t ?m ?x] => destruct (m_set t m x); [|discriminate] end;
           injection SQ as <-; eexists; split; [reflexivity|exact I]).
      - injection MO as ->.
        destruct d; try discriminate;
          (match type of SQ with context[m_set ?t ?m ?x] => destruct (m_set t m x); [|discriminate] end;
           injection SQ as <-; eexists; split; [reflexivity|cbn; intros; congruence]). }
    destruct Q as (y & -> & SF).
    destruct (set_path_stay T0 fs path f y GP NE SF) as (fs' & -> & SF'). eauto.
  - cbn in ST. discriminate.
Qed.

Definition any_c (c : constr) : Prop := True.
Definition any_v (v : gval) : Prop := True.

Lemma stay_rec E n : pres any_c any_v stay (validate n E).
Proof.
  apply validate_pres; unfold any_c, any_v; auto.
  - intros v _. apply stay_refl.
  - exact stay_trans.
  - intros v k i x x' _ G _ Q. split; [exact I|]. eapply stay_put; eauto.
  - intros o k c d v v' pv _ Hin Hd _ G L ST. split; [exact I|]. eapply stay_set; eauto.
  - intros T i l _. now apply Forall_forall.
Qed.

Theorem set_fields_kept E n c v w r v' w' : validate n E c v w = (r, v', w') -> stay v v'.
Proof. intros H. now apply (stay_rec E n) in H. Qed.

(** ** Other properties leave an unset field alone *)
(** [touched k fs fs']: only the field standing for k may differ *)
Definition touched (k : string) (fs fs' : list (finfo * gval)) : Prop :=
  map fst fs' = map fst fs /\
  forall j fi x, nth_error fs j = Some (fi, x) -> json_name fi <> Some k -> nth_error fs' j = Some (fi, x).

Lemma same_infos fs fs' : map fst fs' = map fst fs ->
  (no_embedded fs -> no_embedded fs') /\ (distinct_fields fs -> distinct_fields fs') /\
  (distinct_props fs -> distinct_props fs').
Proof.
  intros Q.
  assert (N : forall j e, nth_error fs' j = Some e -> exists e0, nth_error fs j = Some e0 /\ fst e0 = fst e).
  { intros j e H. assert (H1 : nth_error (map fst fs') j = Some (fst e)) by now apply map_nth_error.
    rewrite Q in H1. rewrite nth_error_map in H1. destruct (nth_error fs j) as [e0|]; [|discriminate].
    exists e0. split; auto. cbn in H1. congruence. }
  split; [|split].
  - intros F e I. apply In_nth_error in I as [j I]. destruct (N j e I) as (e0 & I0 & <-).
    apply F. eapply nth_error_In; eauto.
  - intros D i j e e' A B X Y. destruct (N i e A) as (a & A0 & QA), (N j e' B) as (b & B0 & QB).
    apply (D i j a b A0 B0); congruence.
  - intros D i j e e' k A B X Y. destruct (N i e A) as (a & A0 & QA), (N j e' B) as (b & B0 & QB).
    apply (D i j a b k A0 B0); congruence.
Qed.

Lemma set_path_touched TS fs k j fi x y : distinct_props fs -> nth_error fs j = Some (fi, x) -> json_name fi = Some k ->
  exists fs', set_path [j] y (GStruct TS fs) = GStruct TS fs' /\ touched k fs fs' /\ nth_error fs' j = Some (fi, y).
Proof.
  intros D N J. cbn [set_path]. eexists. split; [reflexivity|]. split.
  - split; [apply set_nth_field_fst|]. intros i fi' x' N' J'. rewrite set_nth_field_nth.
    destruct (Nat.eqb_spec j i) as [->|]; [|auto]. rewrite N in N'. congruence.
  - rewrite set_nth_field_nth, Nat.eqb_refl, N. reflexivity.
Qed.

Section field.
  Variables (T : string) (fs : list (finfo * gval)).
  Hypothesis F : no_embedded fs.
  Hypothesis D : distinct_fields fs.
  Hypothesis P : distinct_props fs.

  Lemma locate k e : last_field k fs = Some e -> exists j,
    nth_error fs j = Some e /\ json_name (fst e) = Some k /\
    field_by_name (GStruct T fs) (f_name (fst e)) = Some ([j], e).
  Proof using F D.
    intros L. apply last_field_some in L as [I J]. apply In_nth_error in I as [j I].
    exists j. split; [auto|]. split; [auto|]. apply field_by_name_flat; auto.
    eapply json_name_exported; eauto.
  Qed.

  Lemma put_touched k y : exists fs', put_target k y (GStruct T fs) = GStruct T fs' /\ touched k fs fs'.
  Proof.
    cbn [put_target]. destruct (extract_flat T fs F) as (props & -> & _ & L).
    unfold field_name. rewrite L. destruct (last_field k fs) as [e|] eqn:Q; cbn [option_map].
    - destruct (locate k e Q) as (j & N & J & B). cbn [info_of p_field]. rewrite B.
      destruct e as [fi x]. destruct (set_path_touched T fs k j fi x y P N J) as (fs' & A & B' & _). eauto.
    - exists fs. split; [reflexivity|]. split; auto.
  Qed.

  Lemma set_touched E addr k d v' : set_target E addr (GStruct T fs) k d = GOk v' ->
    exists fs', v' = GStruct T fs' /\ touched k fs fs'.
  Proof.
    cbn [set_target]. destruct (extract_flat T fs F) as (props & -> & _ & L).
    unfold field_name. rewrite L. destruct (last_field k fs) as [e|] eqn:Q; cbn [option_map]; [|discriminate].
    destruct (locate k e Q) as (j & N & J & B). cbn [info_of p_field]. rewrite B. destruct e as [fi x].
    assert (W : forall y, GOk (set_path [j] y (GStruct T fs)) = GOk v' ->
      exists fs', v' = GStruct T fs' /\ touched k fs fs').
    { intros y [= <-]. destruct (set_path_touched T fs k j fi x y P N J) as (fs' & A & B' & _). eauto. }
    intros H. destruct d; [discriminate|..];
      repeat match type of H with
      | (let dv := _ in _) = _ => cbv zeta in H
      | (if ?b then _ else _) = _ => destruct b; try discriminate
      | match ?m with _ => _ end = _ => destruct m; try discriminate
      end; eapply W; exact H.
  Qed.

  (** setting the default of an unset Maybe field through a pointer *)
  Lemma set_unset E k d fi m j v' : nth_error fs j = Some (fi, GMaybe m) -> f_iface fi = false ->
    json_name fi = Some k -> set_target E true (GStruct T fs) k d = GOk v' ->
    exists fs' m', v' = GStruct T fs' /\ map fst fs' = map fst fs /\ nth_error fs' j = Some (fi, GMaybe m') /\
      m_set (e_time E) m (coerce d false (GMaybe m)) = inl m'.
  Proof.
    intros N IFC J H. cbn [set_target] in H. destruct (extract_flat T fs F) as (props & EX & _ & L).
    rewrite EX in H. unfold field_name in H. rewrite L in H.
    assert (Q : last_field k fs = Some (fi, GMaybe m)).
    { apply last_field_iff; auto. split; [eapply nth_error_In; eauto|auto]. }
    rewrite Q in H. cbn [option_map info_of p_field] in H.
    pose proof (field_by_name_flat T fs j _ F D N (json_name_exported _ _ J)) as B.
    rewrite B in H. rewrite IFC in H. cbn [is_maybe] in H.
    assert (H' : match m_set (e_time E) m (coerce d false (GMaybe m)) with
      | inl m' => GOk (set_path [j] (GMaybe m') (GStruct T fs)) | inr e => GErr e end = GOk v')
      by (destruct d; try discriminate; exact H).
    destruct (m_set (e_time E) m (coerce d false (GMaybe m))) as [m'|]; [|discriminate].
    injection H' as <-. destruct (set_path_touched T fs k j fi _ (GMaybe m') P N J) as (fs' & A & [B1 B2] & C).
    exists fs', m'. auto.
  Qed.
End field.

(** ** The theorem *)
Definition at_ptr (PT : string) (a : Z) (T : string) (fs : list (finfo * gval)) : gval :=
  GPtr PT a (Some (false, GStruct T fs)).

Section reach.
  Variables (E : env) (o : objcfg) (PT T : string) (a : Z) (j : nat) (fi : finfo) (m : maybe) (k : string) (c : constr) (d : gval).
  Hypothesis Ifc : f_iface fi = false.
  Hypothesis Unset : m_valid m = false.
  Hypothesis Name : json_name fi = Some k.
  Hypothesis Opt : is_required o k = false.
  Hypothesis Def : Default E c d.
  Variable n : nat.
  Let rec := validate n E.

  Definition done_at (fs : list (finfo * gval)) : Prop :=
    exists m', nth_error fs j = Some (fi, GMaybe m') /\ m_valid m' = true /\
      m_set (e_time E) m (coerce d false (GMaybe m)) = inl m'.

  Lemma done_stay fs fs' : done_at fs -> set_fields_stay fs fs' -> done_at fs'.
  Proof. intros (m' & N & V & Q) [_ H]. exists m'. auto. Qed.

  Lemma props_stay ps v pm sn w r v' pm' sn' w' : (forall e, In e ps -> In e (o_props o)) ->
    props_loop rec (get_default n E) E o ps (v, pm, sn) w = (r, (v', pm', sn'), w') -> stay v v'.
  Proof.
    intros Q H.
    eapply (props_loop_pres E any_c any_v stay) in H; [apply H|..]; unfold any_c, any_v; auto.
    - intros x _. apply stay_refl.
    - exact stay_trans.
    - intros. split; [exact I|]. eapply stay_put; eauto.
    - intros. split; [exact I|]. eapply stay_set; eauto.
    - apply stay_rec.
    - intros. eapply get_default_sound; eauto.
    - apply Forall_forall. intros e He. auto.
  Qed.

  (** the property loop: the field is set when its property is reached *)
  Lemma props_reach ps : (forall e, In e ps -> In e (o_props o)) -> In (k, c) ps -> NoDup (map fst ps) ->
    forall fs pm sn w v' pm' sn' w', no_embedded fs -> distinct_fields fs -> distinct_props fs ->
    nth_error fs j = Some (fi, GMaybe m) ->
    props_loop rec (get_default n E) E o ps (at_ptr PT a T fs, pm, sn) w = (Pass, (v', pm', sn'), w') ->
    exists fs', v' = at_ptr PT a T fs' /\ map fst fs' = map fst fs /\ done_at fs'.
  Proof.
    induction ps as [|[k1 c1] ps IH]; intros Q I ND fs pm sn w v' pm' sn' w' F D P N H; [destruct I|].
    inversion ND as [|? ? NI ND']; subst. cbn [map fst] in *.
    assert (Q' : forall e, In e ps -> In e (o_props o)) by (intros; apply Q; now right).
    cbn [props_loop] in H.
    assert (Dr : deref1 (at_ptr PT a T fs) = RV false (GStruct T fs)) by reflexivity.
    destruct (String.string_dec k1 k) as [->|NK].
    - assert (c1 = c) as ->.
      { destruct I as [[= ->]|I]; [reflexivity|]. exfalso. apply NI. apply in_map_iff. exists (k, c). auto. }
      rewrite Dr, (struct_property T fs k fi (GMaybe m) F D P (nth_error_In _ _ N) Name), Ifc in H.
      cbn [look_prop is_maybe maybe_of] in H. rewrite Unset, Opt in H.
      destruct (get_default n E c) as [|d'| |] eqn:GD; try discriminate.
      { exfalso. eapply get_default_none; eauto. }
      apply get_default_sound in GD. pose proof (Default_det E c d Def d' GD). subst d'.
      unfold at_ptr in H at 1. cbn [set_prop] in H. unfold gmapres in H.
      destruct (set_target E true (GStruct T fs) k d) as [v1|e|e] eqn:ST; try discriminate.
      destruct (set_unset T fs F D P E k d fi m j v1 N Ifc Name ST) as (fs1 & m' & -> & FF & N1 & MS).
      apply props_stay in H; [|exact Q']. cbn [stay] in H. destruct H as (fs2 & -> & S1 & S2).
      exists fs2. split; [reflexivity|]. split; [congruence|]. exists m'.
      pose proof (proj1 (set_exact _ _ _ _) MS) as (V & _). auto.
    - destruct I as [[= -> ->]|I]; [congruence|].
      assert (ST : forall v1 pm1 sn1 w1 fs1, v1 = at_ptr PT a T fs1 -> touched k1 fs fs1 ->
        props_loop rec (get_default n E) E o ps (v1, pm1, sn1) w1 = (Pass, (v', pm', sn'), w') ->
        exists fs', v' = at_ptr PT a T fs' /\ map fst fs' = map fst fs /\ done_at fs').
      { intros v1 pm1 sn1 w1 fs1 -> [T1 T2] H1. destruct (same_infos fs fs1 T1) as (A & B & C).
        destruct (IH Q' I ND' fs1 pm1 sn1 w1 v' pm' sn' w') as (fs' & A1 & A2 & A3); auto.
        - apply T2; auto. congruence.
        - exists fs'. repeat split; auto. congruence. }
      assert (T0 : touched k1 fs fs) by (split; auto).
      destruct (get_prop (deref1 (at_ptr PT a T fs)) k1) as [pv|]; [|discriminate].
      destruct (look_prop pv) as [| |u x].
      + discriminate.
      + destruct (is_required o k1); [discriminate|].
        destruct (get_default n E c1) as [|d'| |]; try discriminate; [eapply ST; eauto|].
        unfold at_ptr in H at 1. cbn [set_prop] in H. unfold gmapres in H.
        destruct (set_target E true (GStruct T fs) k1 d') as [v1|e|e] eqn:SQ; try discriminate.
        destruct (set_touched T fs F D P E true k1 d' v1 SQ) as (fs1 & -> & TT).
        eapply ST; [reflexivity|exact TT|exact H].
      + destruct (rec c1 x w) as [[r1 x'] w1]. destruct r1; try discriminate.
        destruct u; [eapply ST; eauto|].
        destruct (put_touched T fs F D P k1 x') as (fs1 & PQ & TT).
        eapply ST; [|exact TT|exact H]. unfold at_ptr. cbn [put_prop]. now rewrite PQ.
  Qed.
End reach.

Theorem default_reaches_field E n o PT a T fs w v' w' j fi m k c d :
  no_embedded fs -> distinct_fields fs -> distinct_props fs -> NoDup (map fst (o_props o)) ->
  nth_error fs j = Some (fi, GMaybe m) -> f_iface fi = false -> m_valid m = false -> json_name fi = Some k ->
  In (k, c) (o_props o) -> is_required o k = false -> Default E c d -> in_kind d ->
  validate n E (CObj o) (GPtr PT a (Some (false, GStruct T fs))) w = (Pass, v', w') ->
  exists fs' m', v' = GPtr PT a (Some (false, GStruct T fs')) /\ map fst fs' = map fst fs /\
    nth_error fs' j = Some (fi, GMaybe m') /\
    m_valid m' = true /\ kind_of m' = kind_of m /\ Stored (e_time E) (kind_of m) d (m_value m').
Proof.
  intros F D P ND N Ifc Unset Name I Opt Def IK H.
  destruct n as [|n]; [discriminate|]. cbn [validate] in H. unfold obj_validate in H.
  destruct (get_names (deref1 (GPtr PT a (Some (false, GStruct T fs))))) as [l|e|e]; try discriminate.
  destruct (_ && _); [discriminate|]. destruct (_ && _); [discriminate|].
  destruct (shuffle w (o_props o)) as [ps w1] eqn:Sh. apply shuffle_perm in Sh.
  assert (Q : forall e, In e ps -> In e (o_props o))
    by (intros e He; eapply Permutation_in; [symmetry; exact Sh|exact He]).
  destruct (props_loop (validate n E) (get_default n E) E o ps (GPtr PT a (Some (false, GStruct T fs)), l, []) w1)
    as [[r1 [[v1 pm1] sn1]] w2] eqn:PL.
  destruct r1; try discriminate.
  destruct (props_reach E o PT T a j fi m k c d Ifc Unset Name Opt Def n ps Q
              (Permutation_in _ Sh I) (Permutation_NoDup (Permutation_map fst Sh) ND) fs l [] w1 v1 pm1 sn1 w2 F D P N PL)
    as (fs1 & -> & F1 & DN).
  assert (ST : stay (at_ptr PT a T fs1) v').
  { clear - H.
    assert (A1 : forall (v : gval), any_v v -> stay v v) by (intros; apply stay_refl).
    assert (A2 : forall a b c, stay a b -> stay b c -> stay a c) by exact stay_trans.
    assert (A5 : forall v k i x x', any_v v -> get_prop (deref1 v) k = Some (RV i x) -> any_v x' -> stay x x' ->
      any_v (put_prop v k x') /\ stay v (put_prop v k x')) by (intros; split; [exact I|eapply stay_put; eauto]).
    destruct (shuffle w2 (o_pats o)) as [pats w3].
    destruct (pats_loop (validate n E) E pats (at_ptr PT a T fs1, pm1, sn1) w3) as [[r2 [[v2 pm2] sn2]] w4] eqn:PT1.
    apply (pats_loop_pres E any_c any_v stay) in PT1; auto; try (unfold any_v, any_c; now auto);
      [|apply stay_rec|apply Forall_forall; now unfold any_c].
    destruct PT1 as [_ S2]. destruct r2; try discriminate.
    assert (DL : forall v3 w5, stay (at_ptr PT a T fs1) v3 ->
      (let '(ns, w7) := shuffle w5 sn2 in deps_loop (validate n E) o sn2 ns v3 w7) = (Pass, v', w') ->
      stay (at_ptr PT a T fs1) v').
    { intros v3 w5 S3 HD. destruct (shuffle w5 sn2) as [ns w7].
      apply (deps_loop_pres any_c any_v stay) in HD; auto; try (unfold any_v, any_c; now auto); [|apply stay_rec].
      eapply stay_trans; [exact S3|apply HD]. }
    destruct pm2 as [|p pm2]; [eapply DL; eauto|].
    destruct (shuffle w4 (p :: pm2)) as [ns w5].
    destruct (o_add o); try discriminate;
      (match type of H with context[add_loop ?rr ?c ns v2 w5] =>
         destruct (add_loop rr c ns v2 w5) as [[r3 v3] w6] eqn:AL end;
       apply (add_loop_pres any_c any_v stay) in AL; auto; try (unfold any_v, any_c; now auto); [|apply stay_rec];
       destruct AL as [_ S3]; destruct r3; try discriminate; eapply DL; [|exact H]; eapply stay_trans; eauto). }
  cbn [at_ptr stay] in ST. destruct ST as (fs2 & -> & SF).
  destruct (done_stay E j fi m d fs1 fs2 DN SF) as (m' & N2 & V2 & MS).
  exists fs2, m'. destruct SF as [SF1 _].
  destruct (stored_set E m d m' IK MS) as (_ & KO & SD).
  split; [reflexivity|]. split; [congruence|]. auto.
Qed.

(** By value the struct cannot be written to: such a validation never passes. *)
Lemma set_by_value E T fs k d fi m j : no_embedded fs -> distinct_fields fs -> distinct_props fs ->
  nth_error fs j = Some (fi, GMaybe m) -> f_iface fi = false -> json_name fi = Some k ->
  exists msg, set_target E false (GStruct T fs) k d = GPanic msg.
Proof.
  intros F D P N Ifc J. cbn [set_target]. destruct (extract_flat T fs F) as (props & -> & _ & L).
  unfold field_name. rewrite L.
  assert (Q : last_field k fs = Some (fi, GMaybe m)).
  { apply last_field_iff; auto. split; [eapply nth_error_In; eauto|auto]. }
  rewrite Q. cbn [option_map info_of p_field].
  rewrite (field_by_name_flat T fs j _ F D N (json_name_exported _ _ J)), Ifc. cbn [is_maybe].
  destruct d; eauto.
Qed.

Theorem by_value_never_passes E n o T fs w v' w' j fi m k c d :
  no_embedded fs -> distinct_fields fs -> distinct_props fs -> NoDup (map fst (o_props o)) ->
  nth_error fs j = Some (fi, GMaybe m) -> f_iface fi = false -> m_valid m = false -> json_name fi = Some k ->
  In (k, c) (o_props o) -> is_required o k = false -> Default E c d ->
  validate n E (CObj o) (GStruct T fs) w <> (Pass, v', w').
Proof.
  intros F D P ND N Ifc Unset Name I Opt Def H.
  destruct n as [|n]; [discriminate|]. cbn [validate] in H. unfold obj_validate in H.
  destruct (get_names (deref1 (GStruct T fs))) as [l|e|e]; try discriminate.
  destruct (_ && _); [discriminate|]. destruct (_ && _); [discriminate|].
  destruct (shuffle w (o_props o)) as [ps w1] eqn:Sh. apply shuffle_perm in Sh.
  pose proof (Permutation_in _ Sh I) as I'.
  pose proof (Permutation_NoDup (Permutation_map fst Sh) ND) as ND'.
  assert (K : forall ps, In (k, c) ps -> NoDup (map fst ps) ->
    forall fs pm sn w v' pm' sn' w', no_embedded fs -> distinct_fields fs -> distinct_props fs ->
    nth_error fs j = Some (fi, GMaybe m) ->
    props_loop (validate n E) (get_default n E) E o ps (GStruct T fs, pm, sn) w <> (Pass, (v', pm', sn'), w')).
  { clear - Ifc Unset Name Opt Def.
    induction ps as [|[k1 c1] ps IH]; intros I ND fs pm sn w v' pm' sn' w' F D P N H; [destruct I|].
    inversion ND as [|? ? NI ND']; subst. cbn [map fst] in *. cbn [props_loop] in H.
    assert (Dr : deref1 (GStruct T fs) = RV false (GStruct T fs)) by reflexivity.
    destruct (String.string_dec k1 k) as [->|NK].
    - assert (c1 = c) as ->.
      { destruct I as [[= ->]|I]; [reflexivity|]. exfalso. apply NI. apply in_map_iff. exists (k, c). auto. }
      rewrite Dr, (struct_property T fs k fi (GMaybe m) F D P (nth_error_In _ _ N) Name), Ifc in H.
      cbn [look_prop is_maybe maybe_of] in H. rewrite Unset, Opt in H.
      destruct (get_default n E c) as [|d'| |] eqn:GD; try discriminate.
      { eapply get_default_none; eauto. }
      cbn [set_prop] in H. destruct (set_by_value E T fs k d' fi m j F D P N Ifc Name) as (msg & SV).
      rewrite SV in H. discriminate.
    - destruct I as [[= -> ->]|I]; [congruence|].
      assert (ST : forall v1 pm1 sn1 w1 fs1, v1 = GStruct T fs1 -> touched k1 fs fs1 ->
        props_loop (validate n E) (get_default n E) E o ps (v1, pm1, sn1) w1 = (Pass, (v', pm', sn'), w') -> False).
      { intros v1 pm1 sn1 w1 fs1 -> [T1 T2] H1. destruct (same_infos fs fs1 T1) as (A & B & C).
        eapply (IH I ND' fs1); [auto|auto|auto| |exact H1]. apply T2; auto. congruence. }
      assert (T0 : touched k1 fs fs) by (split; auto).
      destruct (get_prop (deref1 (GStruct T fs)) k1) as [pv|]; [|discriminate].
      destruct (look_prop pv) as [| |u x].
      + discriminate.
      + destruct (is_required o k1); [discriminate|].
        destruct (get_default n E c1) as [|d'| |]; try discriminate; [eapply ST; eauto|].
        cbn [set_prop] in H. destruct (set_target E false (GStruct T fs) k1 d') as [v1|e|e] eqn:SQ; try discriminate.
        destruct (set_touched T fs F D P E false k1 d' v1 SQ) as (fs1 & -> & TT).
        eapply ST; [reflexivity|exact TT|exact H].
      + destruct (validate n E c1 x w) as [[r1 x'] w1]. destruct r1; try discriminate.
        destruct u; [eapply ST; eauto|].
        destruct (put_touched T fs F D P k1 x') as (fs1 & PQ & TT).
        eapply ST; [|exact TT|exact H]. cbn [put_prop]. exact PQ. }
  destruct (props_loop (validate n E) (get_default n E) E o ps (GStruct T fs, l, []) w1)
    as [[r1 [[v1 pm1] sn1]] w2] eqn:PL.
  destruct r1; try discriminate. eapply K; eauto.
Qed.
