(** Structs (C34, C35, C51): which properties a struct has, and why validating a struct or
    a pointer gives the verdict of validating the corresponding map. *)
From Verif Require Import Base GoFloat GoValue Maybe Formats Constraint StructInfo Validate Fuel Reach ReadOnly Simulate.
Open Scope Z_scope.

(** ** Specification of the names (C34) *)
(** the part of a json tag before its first comma *)
Fixpoint before_comma (t : string) : string :=
  match t with
  | EmptyString => ""
  | String c r => if Ascii.eqb c ","%char then "" else String c (before_comma r)
  end.

(** the property a field stands for, if any *)
Definition json_name (fi : finfo) : option string :=
  if negb (f_exported fi) || String.eqb (f_tag fi) "-" then None
  else Some (match before_comma (f_tag fi) with EmptyString => f_name fi | n => n end).

(** no embedded fields *)
Definition no_embedded (fs : list (finfo * gval)) : Prop := forall e, In e fs -> f_anon (fst e) = false.

(** Go rejects two fields of one name (except the blank one, which is not exported) *)
Definition distinct_fields (fs : list (finfo * gval)) : Prop :=
  forall i j e e', nth_error fs i = Some e -> nth_error fs j = Some e' ->
    f_exported (fst e) = true -> f_name (fst e) = f_name (fst e') -> i = j.

Definition distinct_props (fs : list (finfo * gval)) : Prop :=
  forall i j e e' k, nth_error fs i = Some e -> nth_error fs j = Some e' ->
    json_name (fst e) = Some k -> json_name (fst e') = Some k -> i = j.

(** the last field standing for a property *)
Fixpoint last_field (k : string) (fs : list (finfo * gval)) : option (finfo * gval) :=
  match fs with
  | [] => None
  | e :: r =>
      match last_field k r with
      | Some x => Some x
      | None =>
          match json_name (fst e) with
          | Some n => if String.eqb n k then Some e else None
          | None => None
          end
      end
  end.

(** ** The tag scanner *)
Lemma substring_before_comma s : String.substring 0 (String.length (before_comma s)) s = before_comma s.
Proof.
  induction s as [|c r IH]; cbn; [reflexivity|].
  destruct (Ascii.eqb c ","%char); cbn; [reflexivity|]. now rewrite IH.
Qed.

Lemma tag_flen_len r : forall j, tag_flen (S j) j r = (j + String.length (before_comma r))%nat.
Proof.
  induction r as [|c r IH]; intros j; cbn; [lia|].
  destruct (Ascii.eqb c ","%char); cbn; [lia|]. rewrite IH. lia.
Qed.

Lemma prop_name_json fi :
  prop_name fi = match before_comma (f_tag fi) with EmptyString => f_name fi | n => n end.
Proof.
  unfold prop_name. destruct (f_tag fi) as [|c r] eqn:T; [reflexivity|].
  cbn [before_comma]. destruct (Ascii.eqb c ","%char) eqn:C; [reflexivity|].
  cbn [tag_flen]. rewrite C, tag_flen_len.
  replace (0 + String.length (before_comma r) + 1)%nat with (S (String.length (before_comma r))) by lia.
  cbn [String.substring]. now rewrite substring_before_comma.
Qed.

(** ** Extraction *)
Definition info_of (e : finfo * gval) : propinfo :=
  {| p_field := f_name (fst e); p_maybe := is_maybe (RV (f_iface (fst e)) (snd e)) |}.

Lemma extract_list_flat fs : no_embedded fs -> forall acc, ssorted acc ->
  exists props, extract_list extract fs acc = Some props /\ ssorted props /\
    forall k, sget k props = match last_field k fs with Some e => Some (info_of e) | None => sget k acc end.
Proof.
  induction fs as [|[fi x] fs IH]; intros F acc S; cbn [extract_list].
  - exists acc. auto.
  - assert (F' : no_embedded fs) by (intros e He; apply F; now right).
    specialize (F (fi, x) (or_introl eq_refl)). cbn [fst] in F. rewrite F.
    cbn [last_field fst]. unfold json_name.
    destruct (f_exported fi); cbn [negb orb].
    + destruct (String.eqb (f_tag fi) "-").
      * destruct (IH F' acc S) as (p & E & Sp & L). exists p. repeat split; auto.
        intros k. rewrite L. now destruct (last_field k fs).
      * rewrite <- prop_name_json.
        destruct (IH F' (sset (prop_name fi) (info_of (fi, x)) acc)) as (p & E & Sp & L).
        { now apply sset_sorted. }
        exists p. split; [exact E|]. split; [exact Sp|]. intros k. rewrite L.
        destruct (last_field k fs); auto.
        destruct (String.eqb_spec (prop_name fi) k) as [<-|N]; [apply sget_sset_same|].
        apply sget_sset_other. congruence.
    + destruct (IH F' acc S) as (p & E & Sp & L). exists p. repeat split; auto.
      intros k. rewrite L. now destruct (last_field k fs).
Qed.

Lemma extract_flat T fs : no_embedded fs ->
  exists props, extract (GStruct T fs) = Some props /\ ssorted props /\
    forall k, sget k props = option_map info_of (last_field k fs).
Proof.
  intros F. destruct (extract_list_flat fs F []) as (p & E & S & L).
  { constructor. }
  exists p. cbn [extract]. split; [exact E|]. split; [exact S|]. intros k. rewrite L. now destruct (last_field k fs).
Qed.

Lemma last_field_some k fs e : last_field k fs = Some e -> In e fs /\ json_name (fst e) = Some k.
Proof.
  induction fs as [|e' fs IH]; cbn; [discriminate|].
  destruct (last_field k fs) as [x|].
  - intros [= ->]. destruct IH; auto.
  - destruct (json_name (fst e')) as [n|] eqn:J; [|discriminate].
    destruct (String.eqb_spec n k) as [->|]; [|discriminate]. intros [= ->]. auto.
Qed.

Lemma last_field_none k fs : last_field k fs = None -> forall e, In e fs -> json_name (fst e) <> Some k.
Proof.
  induction fs as [|e' fs IH]; cbn; [tauto|].
  destruct (last_field k fs) as [x|]; [discriminate|].
  intros H e [<-|I]; [|now apply IH].
  destruct (json_name (fst e')) as [n|]; [|discriminate].
  destruct (String.eqb_spec n k); congruence.
Qed.

Lemma last_field_iff k fs e : distinct_props fs ->
  (last_field k fs = Some e <-> In e fs /\ json_name (fst e) = Some k).
Proof.
  intros D. split; [apply last_field_some|]. intros [I J].
  destruct (last_field k fs) as [e'|] eqn:L.
  - apply last_field_some in L as [I' J'].
    apply In_nth_error in I as [i I], I' as [j I'].
    assert (i = j) by (eapply D; eauto). congruence.
  - exfalso. eapply last_field_none; eauto.
Qed.

(** ** FieldByName *)
Fixpoint indexed (i : nat) (fs : list (finfo * gval)) : list (nat * list nat * (finfo * gval)) :=
  match fs with
  | [] => []
  | e :: r => (0%nat, [i], e) :: indexed (S i) r
  end.

Lemma flat_indexed T fs : no_embedded fs -> flat 0 [] (GStruct T fs) = indexed 0 fs.
Proof.
  intros F. cbn [flat]. generalize 0%nat at 2 3 as i.
  induction fs as [|[fi x] fs IH]; intros i; cbn [flat_list indexed]; [reflexivity|].
  pose proof (F (fi, x) (or_introl eq_refl)) as A. cbn [fst] in A. rewrite A. cbn [andb].
  cbn [app]. f_equal. apply IH. intros e He. apply F. now right.
Qed.

Lemma indexed_none n fs : (forall e, In e fs -> f_name (fst e) <> n) -> forall i,
  filter (fun e => String.eqb (f_name (fst (snd e))) n) (indexed i fs) = [].
Proof.
  induction fs as [|e fs IH]; intros H i; cbn; [reflexivity|].
  destruct (String.eqb_spec (f_name (fst e)) n) as [Q|Q].
  - exfalso. apply (H e); auto. now left.
  - apply IH. intros e' He. apply H. now right.
Qed.

Lemma indexed_one fs : forall j e i, nth_error fs j = Some e ->
  (forall j' e', nth_error fs j' = Some e' -> f_name (fst e') = f_name (fst e) -> j' = j) ->
  filter (fun e' => String.eqb (f_name (fst (snd e'))) (f_name (fst e))) (indexed i fs) = [(0%nat, [(i + j)%nat], e)].
Proof.
  induction fs as [|e0 fs IH]; intros j e i N U; [destruct j; discriminate|].
  destruct j as [|j]; cbn [nth_error] in N; cbn [indexed filter snd].
  - injection N as ->. rewrite String.eqb_refl, Nat.add_0_r. f_equal.
    apply indexed_none. intros e' I Q. apply In_nth_error in I as [j' I].
    specialize (U (S j') e' I Q). discriminate.
  - destruct (String.eqb_spec (f_name (fst e0)) (f_name (fst e))) as [Q|Q].
    + specialize (U 0%nat e0 eq_refl Q). discriminate.
    + rewrite (IH j e (S i) N); [now replace (i + S j)%nat with (S i + j)%nat by lia|].
      intros j' e' N' Q'. specialize (U (S j') e' N' Q'). lia.
Qed.

Lemma field_by_name_flat T fs j e : no_embedded fs -> distinct_fields fs ->
  nth_error fs j = Some e -> f_exported (fst e) = true ->
  field_by_name (GStruct T fs) (f_name (fst e)) = Some ([j], e).
Proof.
  intros F D N X. unfold field_by_name. rewrite flat_indexed by auto.
  rewrite (indexed_one fs j e 0 N).
  - reflexivity.
  - intros j' e' N' Q. symmetry. eapply D; eauto.
Qed.

Lemma json_name_exported fi k : json_name fi = Some k -> f_exported fi = true.
Proof. unfold json_name. destruct (f_exported fi); cbn; congruence. Qed.

(** ** C34: reading a property *)
(** Without any assumption about the property names: the last field standing for a name. *)
Theorem struct_property_last T fs k : no_embedded fs -> distinct_fields fs ->
  get_prop (RV false (GStruct T fs)) k =
    Some match last_field k fs with Some (fi, x) => RV (f_iface fi) x | None => RZero end.
Proof.
  intros F D. cbn [get_prop].
  destruct (extract_flat T fs F) as (props & -> & _ & L).
  unfold field_name. rewrite L. destruct (last_field k fs) as [[fi x]|] eqn:Q; [|reflexivity].
  apply last_field_some in Q as [I J]. apply In_nth_error in I as [j I].
  cbn [option_map info_of p_field fst]. cbn [fst] in J.
  pose proof (field_by_name_flat T fs j (fi, x) F D I (json_name_exported _ _ J)) as B.
  cbn [fst] in B. now rewrite B.
Qed.

Theorem struct_property T fs k fi x : no_embedded fs -> distinct_fields fs -> distinct_props fs ->
  In (fi, x) fs -> json_name fi = Some k ->
  get_prop (RV false (GStruct T fs)) k = Some (RV (f_iface fi) x).
Proof.
  intros F D P I J. rewrite struct_property_last by auto.
  assert (L : last_field k fs = Some (fi, x)) by (apply last_field_iff; auto). now rewrite L.
Qed.

Theorem struct_no_property T fs k : no_embedded fs -> distinct_fields fs ->
  (forall fi x, In (fi, x) fs -> json_name fi <> Some k) ->
  get_prop (RV false (GStruct T fs)) k = Some RZero.
Proof.
  intros F D H. rewrite struct_property_last by auto.
  destruct (last_field k fs) as [[fi x]|] eqn:L; [|reflexivity].
  apply last_field_some in L as [I J]. exfalso. exact (H fi x I J).
Qed.

(** ** C34: listing the properties *)
(** A Maybe field is listed when it is valid.  [None]: the code panics (nil *Maybe). *)
Definition shown (e : finfo * gval) : option bool :=
  if is_maybe (RV (f_iface (fst e)) (snd e))
  then option_map m_valid (maybe_of (RV (f_iface (fst e)) (snd e)))
  else Some true.

Definition maybes_readable (fs : list (finfo * gval)) : Prop := forall e, In e fs -> shown e <> None.

Definition listed_name (fs : list (finfo * gval)) (k : string) : bool :=
  match last_field k fs with
  | Some e => match shown e with Some b => b | None => false end
  | None => false
  end.

Lemma prop_names_flat T fs : no_embedded fs -> distinct_fields fs -> maybes_readable fs ->
  forall props, (forall k i, In (k, i) props -> exists e, last_field k fs = Some e /\ i = info_of e) ->
  prop_names props (GStruct T fs) = Some (filter (listed_name fs) (keys props)).
Proof.
  intros F D R. induction props as [|[k i] props IH]; intros H; [reflexivity|].
  unfold prop_names in *. cbn [fold_right]. rewrite IH by (intros; apply H; now right).
  destruct (H k i (or_introl eq_refl)) as (e & Q & ->).
  cbn [snd fst keys map filter]. set (g := listed_name fs). assert (Gk : g k = match shown e with Some b => b | None => false end) by (unfold g, listed_name; now rewrite Q). rewrite Gk.
  cbn [info_of p_maybe p_field].
  pose proof (last_field_some k fs e Q) as [I J]. pose proof (R e I) as Re.
  unfold shown in *. destruct (is_maybe (RV (f_iface (fst e)) (snd e))) eqn:M; [|reflexivity].
  apply In_nth_error in I as [j I].
  rewrite (field_by_name_flat T fs j e F D I (json_name_exported _ _ J)).
  destruct e as [fi x]. cbn [fst snd] in *.
  destruct (maybe_of (RV (f_iface fi) x)) as [m|]; [|cbn in Re; congruence].
  cbn [option_map]. destruct (m_valid m); reflexivity.
Qed.

Lemma get_names_flat T fs : no_embedded fs -> distinct_fields fs -> maybes_readable fs ->
  exists props, get_names (RV false (GStruct T fs)) = GOk (filter (listed_name fs) (keys props)) /\
    ssorted props /\ forall k, sget k props = option_map info_of (last_field k fs).
Proof.
  intros F D R. destruct (extract_flat T fs F) as (props & E & S & L).
  exists props. split; [|auto]. cbn [get_names elem]. rewrite E.
  rewrite (prop_names_flat T fs F D R); [reflexivity|].
  intros k i I. apply nodup_sget in I; [|now apply ssorted_nodup].
  rewrite L in I. destruct (last_field k fs) as [e|]; [|discriminate].
  exists e. split; [reflexivity|]. cbn in I. congruence.
Qed.

Theorem struct_names T fs : no_embedded fs -> distinct_fields fs -> distinct_props fs -> maybes_readable fs ->
  exists l, get_names (RV false (GStruct T fs)) = GOk l /\ NoDup l /\
    forall k, In k l <-> exists e, In e fs /\ json_name (fst e) = Some k /\ shown e = Some true.
Proof.
  intros F D P R. destruct (get_names_flat T fs F D R) as (props & E & S & L).
  eexists. split; [exact E|]. split.
  - apply NoDup_filter. now apply ssorted_nodup.
  - intros k. rewrite filter_In. unfold listed_name. split.
    + intros [_ H]. destruct (last_field k fs) as [e|] eqn:Q; [|discriminate].
      apply last_field_some in Q as [I J]. exists e. repeat split; auto.
      destruct (shown e) as [[|]|]; congruence.
    + intros (e & I & J & Sh).
      assert (Q : last_field k fs = Some e) by (apply last_field_iff; auto).
      rewrite Q, Sh. split; [|reflexivity]. apply sget_some_keys.
      exists (info_of e). now rewrite L, Q.
Qed.

(** ** The map a struct stands for (C35) *)
(** the value of a field as a property: Maybes are unwrapped, unset Maybes are absent *)
Definition field_value (e : finfo * gval) : option gval :=
  if is_maybe (RV (f_iface (fst e)) (snd e))
  then match maybe_of (RV (f_iface (fst e)) (snd e)) with
       | Some m => if m_valid m then Some (m_value m) else None
       | None => None
       end
  else Some (snd e).

Fixpoint as_map (fs : list (finfo * gval)) : list (string * gval) :=
  match fs with
  | [] => []
  | e :: r =>
      match json_name (fst e), field_value e with
      | Some k, Some x => sset k x (as_map r)
      | _, _ => as_map r
      end
  end.

Definition map_value (fs : list (finfo * gval)) : gval :=
  GMap "map[string]interface {}" KString true "interface {}" (Some (as_map fs)).

Lemma as_map_sorted fs : ssorted (as_map fs).
Proof.
  induction fs as [|e fs IH]; cbn [as_map]; [constructor|].
  destruct (json_name (fst e)), (field_value e); auto. now apply sset_sorted.
Qed.

Lemma distinct_props_tail e fs : distinct_props (e :: fs) -> distinct_props fs.
Proof.
  intros D i j a b k A B JA JB. assert (X : S i = S j) by (eapply (D (S i) (S j)); eauto). lia.
Qed.

Lemma as_map_get fs : distinct_props fs -> forall k,
  sget k (as_map fs) = match last_field k fs with Some e => field_value e | None => None end.
Proof.
  induction fs as [|e fs IH]; intros D k; cbn [as_map last_field]; [reflexivity|].
  pose proof (IH (distinct_props_tail _ _ D)) as IH'.
  destruct (json_name (fst e)) as [n|] eqn:J.
  - assert (L : last_field n fs = None).
    { destruct (last_field n fs) as [e'|] eqn:L; [|reflexivity].
      apply last_field_some in L as [I' J']. apply In_nth_error in I' as [j I'].
      assert (X : 0%nat = S j) by (exact (D 0%nat (S j) e e' n eq_refl I' J J')). discriminate. }
    destruct (String.eqb_spec n k) as [->|N].
    + rewrite L. destruct (field_value e) as [x|]; [apply sget_sset_same|]. now rewrite IH', L.
    + destruct (field_value e) as [x|]; [rewrite sget_sset_other by congruence|];
        rewrite IH'; now destruct (last_field k fs).
  - rewrite IH'. now destruct (last_field k fs).
Qed.

Lemma filter_sorted f l : StronglySorted slt l -> StronglySorted slt (filter f l).
Proof.
  induction 1 as [|x l S IH F]; cbn; [constructor|].
  destruct (f x); [|exact IH]. constructor; [exact IH|].
  apply Forall_forall. intros y Y. apply filter_In in Y as [Y _]. rewrite Forall_forall in F. auto.
Qed.

Lemma sorted_same l1 : forall l2, StronglySorted slt l1 -> StronglySorted slt l2 ->
  (forall k, In k l1 <-> In k l2) -> l1 = l2.
Proof.
  induction l1 as [|x l1 IH]; intros [|y l2] S1 S2 H; auto.
  - destruct (proj2 (H y)); now left.
  - destruct (proj1 (H x)); now left.
  - inversion S1 as [|? ? S1' F1]; inversion S2 as [|? ? S2' F2]; subst.
    rewrite Forall_forall in F1, F2.
    assert (x = y).
    { destruct (proj1 (H x) (or_introl eq_refl)) as [|A]; auto.
      destruct (proj2 (H y) (or_introl eq_refl)) as [|B]; auto.
      exfalso. eapply slt_irrefl, slt_trans; [apply F2, A|apply F1, B]. }
    subst. f_equal. apply IH; auto. intros k. specialize (H k). cbn in H. split; intros K.
    + destruct (proj1 H (or_intror K)) as [<-|]; auto. exfalso. eapply slt_irrefl, F1, K.
    + destruct (proj2 H (or_intror K)) as [<-|]; auto. exfalso. eapply slt_irrefl, F2, K.
Qed.

Lemma shown_field_value e : shown e <> None -> (shown e = Some true <-> exists x, field_value e = Some x).
Proof.
  unfold shown, field_value. destruct (is_maybe _); [|split; eauto].
  destruct (maybe_of _) as [m|]; cbn; [|congruence]. intros _.
  destruct (m_valid m); split; eauto; try congruence. intros [x X]. congruence.
Qed.

Lemma map_names T fs : no_embedded fs -> distinct_fields fs -> distinct_props fs -> maybes_readable fs ->
  get_names (RV false (GStruct T fs)) = GOk (keys (as_map fs)).
Proof.
  intros F D P R. destruct (get_names_flat T fs F D R) as (props & -> & S & L).
  f_equal. apply sorted_same.
  - now apply filter_sorted.
  - apply as_map_sorted.
  - intros k. rewrite filter_In, <- sget_some_keys, <- sget_some_keys, L, as_map_get by auto.
    unfold listed_name. destruct (last_field k fs) as [e|] eqn:Q.
    + assert (Re : shown e <> None) by (apply R; now apply last_field_some in Q).
      pose proof (shown_field_value e Re) as [A B]. cbn. split.
      * intros [_ X]. apply A. destruct (shown e) as [[|]|]; congruence.
      * intros X. rewrite (B X). split; eauto.
    + split; [intros [_ X]; discriminate|intros [x X]; discriminate].
Qed.

(** the struct itself or a pointer to it *)
Definition struct_or_pointer (T : string) (fs : list (finfo * gval)) (v : gval) : Prop :=
  v = GStruct T fs \/ exists PT a, v = GPtr PT a (Some (false, GStruct T fs)).

Lemma sop_deref T fs v : struct_or_pointer T fs v -> deref1 v = RV false (GStruct T fs).
Proof. intros [->|(PT & a & ->)]; reflexivity. Qed.

(** every Maybe property of the struct is declared with AddProp wherever an Object
    constraint is applied to it *)
Definition maybes_declared (E : env) (c : constr) (fs : list (finfo * gval)) : Prop :=
  forall o k fi x, Applied E c (CObj o) -> In (fi, x) fs -> json_name fi = Some k ->
    is_maybe (RV (f_iface fi) x) = true -> In k (map fst (o_props o)).

Theorem struct_as_map E n c T fs v w :
  no_embedded fs -> distinct_fields fs -> distinct_props fs -> maybes_readable fs ->
  struct_or_pointer T fs v -> pure E c -> (forall l, ~ Applied E c (CEnum l)) -> maybes_declared E c fs ->
  same_verdict (fst (fst (validate n E c v w))) (fst (fst (validate n E c (map_value fs) w))).
Proof.
  intros F D P R SP Pu EN MD.
  pose proof (sop_deref T fs v SP) as Dv.
  assert (G : forall k, get_prop (deref1 v) k =
    Some match last_field k fs with Some (fi, x) => RV (f_iface fi) x | None => RZero end)
    by (intros k; rewrite Dv; now apply struct_property_last).
  assert (Gm : forall k, get_prop (deref1 (map_value fs)) k =
    Some match last_field k fs with
         | Some e => match field_value e with Some x => RV true x | None => RZero end
         | None => RZero end).
  { intros k. cbn [map_value deref1 valueOf elem get_prop]. rewrite as_map_get by auto.
    destruct (last_field k fs) as [e|]; [|reflexivity]. now destruct (field_value e). }
  set (Sim := fun s m => s = v /\ m = map_value fs).
  set (Bad := fun k => exists e, last_field k fs = Some e /\ is_maybe (RV (f_iface (fst e)) (snd e)) = true).
  set (Absent := fun k => exists e, last_field k fs = Some e /\ shown e = Some false).
  assert (K : rel_out Sim (validate n E c v w) (validate n E c (map_value fs) w)); [|now destruct K].
  apply (validate_sim E Sim Bad Absent (fun x x' => x' = x) c).
  - intros s m [-> ->]. split; [|repeat split].
    destruct SP as [->|(PT & a & ->)]; repeat split.
  - intros s m [-> ->]. rewrite Dv. rewrite (map_names T fs) by auto. reflexivity.
  - intros s m k [-> ->]. rewrite Gm. pose proof (G k) as Gk. rewrite Gk.
    pose proof (Gm k) as Gmk.
    destruct (last_field k fs) as [[fi x]|] eqn:L.
    2: { split; [exact I|]. split; [intros ? ? ? (? & Q); discriminate|]. right. split; [reflexivity|].
         intros; discriminate. }
    unfold field_value in *. cbn [fst snd] in *.
    assert (Re : shown (fi, x) <> None) by (apply R; now apply last_field_some in L).
    unfold shown in Re. cbn [fst snd] in Re.
    cbn [look_prop]. destruct (is_maybe (RV (f_iface fi) x)) eqn:M.
    + destruct (maybe_of (RV (f_iface fi) x)) as [mb|]; [|cbn in Re; congruence].
      destruct (m_valid mb) eqn:V; cbn [look_prop is_maybe same_look].
      * split; [reflexivity|]. split; [|left; exists (fi, x); auto].
        intros y y' -> (u & Q). injection Q as <- <-. cbn [kept]. split; [reflexivity|].
        eapply put_get. exact Gmk.
      * split; [exact I|]. split; [intros ? ? ? (? & Q); discriminate|]. left. exists (fi, x). auto.
    + cbn [look_prop is_maybe same_look kept interface]. split; [reflexivity|]. split.
      * intros y y' -> (u & Q). injection Q as <- <-. split; [eapply put_get; exact Gk|eapply put_get; exact Gmk].
      * right. split; [reflexivity|]. intros y y' [= <-] ->. split; [eapply put_get; exact Gk|eapply put_get; exact Gmk].
  - intros s m k pv [-> ->] (e & L & M). rewrite G, L. intros [= <-]. destruct e as [fi x].
    assert (Re : shown (fi, x) <> None) by (apply R; now apply last_field_some in L).
    unfold Absent. cbn [look_prop fst snd] in *. rewrite M.
    unfold shown in Re. cbn [fst snd] in Re. rewrite M in Re.
    destruct (maybe_of (RV (f_iface fi) x)) as [mb|] eqn:MO; [|cbn in Re; congruence].
    destruct (m_valid mb) eqn:V; [right; eauto|]. left. exists (fi, x). split; [exact L|].
    unfold shown. cbn [fst snd]. now rewrite M, MO, <- V.
  - intros s m k l [-> ->] (e & L & Sh). rewrite Dv, (map_names T fs) by auto. intros [= <-].
    rewrite <- sget_some_keys, as_map_get, L by auto. intros X.
    apply shown_field_value in X; congruence.
  - intros s m k d o x S Re I Df. exfalso. apply (Pu d). exists o, k, x. auto.
  - intros n' x y w' r y' w'' Rx V. eapply validate_readonly; [|exact V].
    intros d (o & k & p & A & B & C). apply (Pu d). exists o, k, p. split; [|auto].
    eapply reach_trans; eauto.
  - exact EN.
  - intros o k A (e & L & M). right. destruct e as [fi x]. apply last_field_some in L as [I J].
    eapply MD; eauto.
  - constructor.
  - split; reflexivity.
Qed.

(** ** Pointers (C51) *)
Theorem pointer_to_map E n c PT a T kk i ET l w : (forall l, ~ Applied E c (CEnum l)) ->
  rel_out (fun s m => s = GPtr PT a (Some (false, m)))
    (validate n E c (GPtr PT a (Some (false, GMap T kk i ET (Some l)))) w)
    (validate n E c (GMap T kk i ET (Some l)) w).
Proof.
  intros EN.
  set (Sim := fun s m => s = GPtr PT a (Some (false, m)) /\ exists l, m = GMap T kk i ET (Some l)).
  assert (K : rel_out Sim
    (validate n E c (GPtr PT a (Some (false, GMap T kk i ET (Some l)))) w)
    (validate n E c (GMap T kk i ET (Some l)) w)).
  2: { destruct K as (A & [B _] & C). repeat split; auto. }
  apply (validate_sim E Sim (fun _ => False) (fun _ => False) (fun _ _ => True) c).
  - intros s m (-> & l' & ->). repeat split.
  - intros s m (-> & l' & ->). cbn [deref1 valueOf elem get_names].
    destruct kk; auto; now destruct (keys l').
  - intros s m k (-> & l' & ->). cbn [deref1 valueOf elem].
    destruct (get_prop (RV false (GMap T kk i ET (Some l'))) k) as [pv|] eqn:G; [|exact I].
    assert (PP : forall x', Sim (put_prop (GPtr PT a (Some (false, GMap T kk i ET (Some l')))) k x')
                                (put_prop (GMap T kk i ET (Some l')) k x')).
    { intros x'. cbn [put_prop put_target]. split; [reflexivity|eauto]. }
    split; [destruct (look_prop pv); cbn; auto|]. split; [|right; auto].
    intros x x' _ _. unfold kept.
    assert (SS : Sim (GPtr PT a (Some (false, GMap T kk i ET (Some l')))) (GMap T kk i ET (Some l')))
      by (split; eauto).
    destruct (look_prop pv) as [| |[|] y]; auto.
  - intros s m k pv _ [].
  - intros s m k l' _ [].
  - intros s m k d o x (-> & l' & ->) _ _ _. cbn [set_prop set_target].
    destruct kk; cbn; auto; (destruct d; [split; [reflexivity|eauto]|..]);
      (match goal with |- context[if ?b then _ else _] => destruct b end; cbn; auto; split; [reflexivity|eauto]).
  - trivial.
  - exact EN.
  - intros o k _ [].
  - constructor.
  - split; eauto.
Qed.

Theorem pointer_to_struct E n c PT a T fs w : pure E c -> (forall l, ~ Applied E c (CEnum l)) ->
  same_verdict (fst (fst (validate n E c (GPtr PT a (Some (false, GStruct T fs))) w)))
               (fst (fst (validate n E c (GStruct T fs) w))).
Proof.
  intros Pu EN.
  set (Sim := fun s m => s = GPtr PT a (Some (false, GStruct T fs)) /\ m = GStruct T fs).
  assert (K : rel_out Sim (validate n E c (GPtr PT a (Some (false, GStruct T fs))) w)
                          (validate n E c (GStruct T fs) w)); [|now destruct K].
  apply (validate_sim E Sim (fun _ => False) (fun _ => False) (fun x x' => x' = x) c).
  - intros s m [-> ->]. repeat split.
  - intros s m [-> ->]. change (deref1 (GPtr PT a (Some (false, GStruct T fs)))) with (deref1 (GStruct T fs)).
    now destruct (get_names (deref1 (GStruct T fs))).
  - intros s m k [-> ->]. change (deref1 (GPtr PT a (Some (false, GStruct T fs)))) with (deref1 (GStruct T fs)).
    destruct (get_prop (deref1 (GStruct T fs)) k) as [pv|] eqn:G; [|exact I].
    assert (PP : forall x, interface pv = Some x ->
      Sim (put_prop (GPtr PT a (Some (false, GStruct T fs))) k x) (put_prop (GStruct T fs) k x)).
    { intros x X. destruct pv as [|j y]; [discriminate|]. injection X as ->. split.
      - eapply put_get. exact G.
      - eapply put_get. exact G. }
    split; [destruct (look_prop pv); cbn; auto|]. split.
    + intros x x' -> (u & Q). rewrite Q. unfold kept. destruct u; [split; reflexivity|].
      apply PP. destruct pv as [|j y]; [discriminate|]. cbn [look_prop] in Q.
      destruct (is_maybe (RV j y)); [|injection Q as <-; reflexivity].
      destruct (maybe_of (RV j y)) as [m|]; [destruct (m_valid m)|]; discriminate.
    + right. split; [reflexivity|]. intros x x' X ->. auto.
  - intros s m k pv _ [].
  - intros s m k l _ [].
  - intros s m k d o x S Re I Df. exfalso. apply (Pu d). exists o, k, x. auto.
  - intros n' x y w' r y' w'' Rx V. eapply validate_readonly; [|exact V].
    intros d (o & k & p & A & B & C). apply (Pu d). exists o, k, p. split; [|auto].
    eapply reach_trans; eauto.
  - exact EN.
  - intros o k _ [].
  - constructor.
  - split; reflexivity.
Qed.
