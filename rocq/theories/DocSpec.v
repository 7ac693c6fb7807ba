(** The documented meaning of constraints (C01), with no trace of how Validate computes it:
    every matching pattern applies, every required name must be there, dependencies look
    at what is present, additional items are those after the positional ones, and unique
    items are pairwise different.  Where the code deviates (see Refuted.v) the guard
    [regular] excludes the constraint; on the rest Validate decides exactly this. *)
From Verif Require Import Base GoFloat FloatSpec FloatProofs GoValue Maybe Formats HostSpec Constraint StructInfo Validate Fuel Reach ReadOnly Preserve Spec SpecSound SpecObj SpecMain ConstrInd Terminate Scalars Structure.
Open Scope Z_scope.

(** ** Specification *)
Definition doc_format (E : env) (fmt s : string) : Prop :=
  if String.eqb fmt "ipv6" then e_ip E s = true /\ In ":"%char (chars s) else format_ok E fmt s.

Definition doc_string (E : env) (c : strcfg) (s : string) : Prop :=
  (0 <= s_min c -> s_min c <= Z.of_nat (String.length s)) /\
  (0 <= s_max c -> Z.of_nat (String.length s) <= s_max c) /\
  doc_format E (s_fmt c) s /\
  (forall rx, s_rx c = Some rx -> e_rx E rx s = true) /\
  (forall l, s_enum c = Some l -> In (gstr s) l).

Definition whole (x : xval) : Prop := x = XPosInf \/ x = XNegInf \/ integral x.

(** scalar constraints *)
Definition means (E : env) (c : constr) (v : gval) : Prop :=
  match c with
  | CNull => exists k, go_nil v k
  | CBool _ => exists T b, v = GBool T b
  | CStr _ s => exists T x, v = GStr T x /\ doc_string E s x
  | CNum _ m => exists T i f, v = GFloat T i f /\ number_meaning m (fval (widen i f))
  | CInt _ m =>
      (exists T k z, v = GInt T k z /\ number_meaning m (xZ z)) \/
      (exists T k z, v = GUint T k z /\ number_meaning m (xZ z)) \/
      (exists T i f, v = GFloat T i f /\ whole (fval (widen i f)) /\ number_meaning m (fval (widen i f)))
  | CEnum l => exists e, In e l /\ go_equal e v
  | _ => False
  end.

(** the constraint for the element at index j *)
Definition item_rule (a : arrcfg) (j : nat) (c : constr) : Prop :=
  c <> CNil /\
  match a_items a with
  | CNil =>
      match nth_error (a_pos a) j with
      | Some p => c = p
      | None => a_pos a <> [] /\ c = a_add a
      end
  | x => c = x
  end.

(** the element at index j is not allowed at all *)
Definition surplus (a : arrcfg) (j : nat) : Prop :=
  a_items a = CNil /\ a_pos a <> [] /\ nth_error (a_pos a) j = None /\ a_add a = CNil.

Definition elements (ol : option (list gval)) : list gval := match ol with Some l => l | None => [] end.

Definition matches (E : env) (o : objcfg) (k : string) (c : constr) : Prop :=
  exists p, In (p, c) (o_pats o) /\ e_rx E (snd p) k = true.

(** listed, or matched by a pattern *)
Definition covered (E : env) (o : objcfg) (k : string) : Prop :=
  In k (keys (o_props o)) \/ exists c, matches E o k c.

(** c is one of the constraints property k has to satisfy *)
Definition applies (E : env) (o : objcfg) (k : string) (c : constr) : Prop :=
  sget k (o_props o) = Some c \/ matches E o k c \/
  (~ covered E o k /\ c = o_add o /\ c <> CNil).

Definition sizes (lo hi : Z) (n : nat) : Prop := (0 <= lo -> lo <= Z.of_nat n) /\ (0 <= hi -> Z.of_nat n <= hi).

Inductive Satisfies (E : env) : constr -> gval -> Prop :=
| s_empty v : Satisfies E CEmpty v
| s_scalar c v : means E c v -> Satisfies E c v
| s_array a T i ol :
    sizes (a_min a) (a_max a) (List.length (elements ol)) ->
    (a_uniq a = true -> NoDup (elements ol)) ->
    (forall j, (j < List.length (elements ol))%nat -> ~ surplus a j) ->
    (forall j x c, nth_error (elements ol) j = Some x -> item_rule a j c -> Satisfies E c x) ->
    Satisfies E (CArr a) (GSlice T i ol)
| s_object o T kk i ET m :
    sizes (o_min o) (o_max o) (List.length m) ->
    (forall k, is_required o k = true -> In k (keys m)) ->
    (forall k, In k (keys m) -> covered E o k \/ o_add o <> CNil) ->
    (forall k x c, sget k m = Some x -> applies E o k c -> Satisfies E c x) ->
    (forall k d, In k (keys m) -> In d (prop_deps o k) -> In d (keys m)) ->
    (forall k, In k (keys m) -> schema_dep o k <> CNil -> Satisfies E (schema_dep o k) (GMap T kk i ET (Some m))) ->
    Satisfies E (CObj o) (GMap T kk i ET (Some m))
| s_all l v : (forall c, In c l -> Satisfies E c v) -> Satisfies E (CAll l) v
| s_any l c v : In c l -> Satisfies E c v -> Satisfies E (CAny l) v
| s_oneof l1 c l2 v : Satisfies E c v -> (forall c', In c' (l1 ++ l2) -> Violates E c' v) ->
    Satisfies E (COneOf (l1 ++ c :: l2)) v
| s_not c v : Violates E c v -> Satisfies E (CNot c) v
| s_ref n c v : e_refs E n = Some c -> Satisfies E c v -> Satisfies E (CRef n) v
with Violates (E : env) : constr -> gval -> Prop :=
| v_scalar c v : scalar_c c = true -> ~ means E c v -> Violates E c v
| v_array_kind a v : (forall T i ol, v <> GSlice T i ol) -> Violates E (CArr a) v
| v_array_size a T i ol : ~ sizes (a_min a) (a_max a) (List.length (elements ol)) -> Violates E (CArr a) (GSlice T i ol)
| v_array_unique a T i ol : a_uniq a = true -> ~ NoDup (elements ol) -> Violates E (CArr a) (GSlice T i ol)
| v_array_surplus a T i ol j : (j < List.length (elements ol))%nat -> surplus a j -> Violates E (CArr a) (GSlice T i ol)
| v_array_item a T i ol j x c : nth_error (elements ol) j = Some x -> item_rule a j c -> Violates E c x ->
    Violates E (CArr a) (GSlice T i ol)
| v_object_kind o v : (forall T kk i ET m, v <> GMap T kk i ET (Some m)) -> Violates E (CObj o) v
| v_object_size o T kk i ET m : ~ sizes (o_min o) (o_max o) (List.length m) -> Violates E (CObj o) (GMap T kk i ET (Some m))
| v_object_required o T kk i ET m k : is_required o k = true -> ~ In k (keys m) -> Violates E (CObj o) (GMap T kk i ET (Some m))
| v_object_extra o T kk i ET m k : In k (keys m) -> ~ covered E o k -> o_add o = CNil -> Violates E (CObj o) (GMap T kk i ET (Some m))
| v_object_prop o T kk i ET m k x c : sget k m = Some x -> applies E o k c -> Violates E c x ->
    Violates E (CObj o) (GMap T kk i ET (Some m))
| v_object_dep o T kk i ET m k d : In k (keys m) -> In d (prop_deps o k) -> ~ In d (keys m) ->
    Violates E (CObj o) (GMap T kk i ET (Some m))
| v_object_sdep o T kk i ET m k : In k (keys m) -> schema_dep o k <> CNil ->
    Violates E (schema_dep o k) (GMap T kk i ET (Some m)) -> Violates E (CObj o) (GMap T kk i ET (Some m))
| v_all l c v : In c l -> Violates E c v -> Violates E (CAll l) v
| v_any l v : (forall c, In c l -> Violates E c v) -> Violates E (CAny l) v
| v_oneof_none l v : (forall c, In c l -> Violates E c v) -> Violates E (COneOf l) v
| v_oneof_two l1 c1 l2 c2 l3 v : Satisfies E c1 v -> Satisfies E c2 v -> Violates E (COneOf (l1 ++ c1 :: l2 ++ c2 :: l3)) v
| v_not c v : Satisfies E c v -> Violates E (CNot c) v
| v_not_unset v : Violates E (CNot CNil) v
| v_ref n c v : e_refs E n = Some c -> Violates E c v -> Violates E (CRef n) v
| v_ref_missing n v : e_refs E n = None -> Violates E (CRef n) v.

(** ** No value both satisfies and violates a constraint *)
Scheme Sat_mut := Minimality for Satisfies Sort Prop
  with Vio_mut := Minimality for Violates Sort Prop.

Lemma scalar_not_composite E c v : means E c v -> scalar_c c = true.
Proof. destruct c; cbn; try tauto. Qed.

Lemma Violates_nil E v : ~ Violates E CNil v.
Proof. intros H. inversion H; subst. discriminate. Qed.

Lemma split_two {A} (l1 : list A) c l2 l1' a l2' b l3' : l1 ++ c :: l2 = l1' ++ a :: l2' ++ b :: l3' ->
  In a (l1 ++ l2) \/ In b (l1 ++ l2).
Proof.
  revert l1'. induction l1 as [|x l1 IH]; intros l1' H.
  - destruct l1' as [|y l1']; cbn in H; injection H as -> ->.
    + right. cbn. apply in_or_app. right. now left.
    + left. cbn. apply in_or_app. right. now left.
  - destruct l1' as [|y l1']; cbn in H; injection H as -> H.
    + left. now left.
    + destruct (IH _ H); [left|right]; now right.
Qed.

Ltac vio := match goal with H : Satisfies _ _ _ |- False => inversion H; subst end;
  try (cbn in *; tauto); try congruence; try discriminate; unfold not in *; eauto.

Theorem Satisfies_not_Violates E c v : Satisfies E c v -> Violates E c v -> False.
Proof.
  revert c v. apply (Sat_mut E (fun c v => Violates E c v -> False) (fun c v => Satisfies E c v -> False)).
  all: intros.
  - inversion H; subst; discriminate.
  - pose proof (scalar_not_composite _ _ _ H). inversion H0; subst; try discriminate. auto.
  - inversion H4; subst; try discriminate; auto; try congruence; eauto.
    eapply H1; eauto.
  - inversion H7; subst; try discriminate; auto; try congruence; eauto.
    destruct (H1 _ H12); auto.
  - inversion H1; subst; try discriminate; eauto.
  - inversion H2; subst; try discriminate; eauto.
  - inversion H3 as [? ? SC| | | | | | | | | | | | | | |l v' HA|? c1 ? c2 ? v' HA HB| | | |]; subst; try discriminate.
    + apply H0. apply HA. apply in_or_app. right. now left.
    + destruct (split_two _ _ _ _ _ _ _ _ (eq_sym H4)) as [I|I]; eapply H2; eauto.
  - inversion H1; subst; try discriminate; auto. eapply Violates_nil; eauto.
  - inversion H2; subst; try discriminate; auto; try congruence.
  - vio.
  - vio.
  - vio.
  - vio.
  - vio.
  - vio.
  - vio.
  - vio.
  - vio.
  - vio. destruct (H11 _ H); auto.
  - vio.
  - vio.
  - vio.
  - vio.
  - vio.
  - vio. eapply H0; [|eauto]. apply in_or_app. right. now left.
  - inversion H3 as [|? ? M| | | | |? c ? v0 HA HB HE| |]; subst; [cbn in *; tauto|].
    destruct (split_two _ _ _ _ _ _ _ _ HE) as [I|I]; [apply H0|apply H2]; eauto.
  - vio.
  - vio. eapply Violates_nil; eauto.
  - vio.
  - vio.
Qed.

(** ** Documents: decoded JSON, also with Go's integer types.  Floats are
    binary64 data and integers are those float64 can hold exactly. *)
Inductive doc : gval -> Prop :=
| d_nil : doc GNil
| d_bool T b : doc (GBool T b)
| d_int T k z : Z.abs z <= 2 ^ 53 -> doc (GInt T k z)
| d_uint T k z : Z.abs z <= 2 ^ 53 -> doc (GUint T k z)
| d_float T i f : valid64 (widen i f) = true -> doc (GFloat T i f)
| d_str s : doc (GStr "string" s)
| d_slice_nil T i : doc (GSlice T i None)
| d_slice T i l : (forall x, In x l -> doc x) -> doc (GSlice T i (Some l))
| d_map T ET m : ssorted m -> (forall k x, sget k m = Some x -> doc x) ->
    doc (GMap T KString true ET (Some m)).

Lemma doc_jdoc v : doc v -> jdoc v.
Proof. induction 1; constructor; auto. Qed.

(** ** Regular constraints: those without the features in which the code deviates *)
(** comparing elements by their text is exact for strings *)
Definition texty (c : constr) : Prop := match c with CStr _ _ => True | _ => False end.

Definition node_regular (E : env) (c : constr) : Prop :=
  match c with
  | CStr _ s => s_fmt s <> "ipv6"%string /\ str_enum_ok s
  | CNum _ m | CInt _ m => numcfg_ok m
  | CEnum l => Forall scalar_lit l
  | CArr a =>
      ~ In CNil (a_pos a) /\
      (a_items a <> CNil -> a_pos a = []) /\
      (a_pos a <> [] -> a_add a = CNil \/ a_add a = CEmpty) /\
      (a_uniq a = true -> texty (a_items a))
  | CObj o =>
      ssorted (o_props o) /\
      (forall k x, In (k, x) (o_props o) -> x <> CNil) /\
      (forall p x, In (p, x) (o_pats o) -> x <> CNil) /\
      (forall k x d, In (k, x) (o_props o) -> Default E x d -> doc d) /\
      (forall k, is_required o k = true -> In k (keys (o_props o))) /\
      (forall k c1 c2, applies E o k c1 -> applies E o k c2 -> c1 = c2) /\
      (forall k d, In d (prop_deps o k) -> covered E o k /\ covered E o d) /\
      (forall k, schema_dep o k <> CNil -> covered E o k /\ prop_deps o k = [] /\ pure E c)
  | CAny l | COneOf l => ~ In CNil l /\ forall x, In x l -> pure E x
  | CAll l => ~ In CNil l /\ forall l1 x l2, l = l1 ++ x :: l2 -> l2 <> [] -> pure E x
  | CNot x => pure E x
  | CRef n => e_refs E n <> Some CNil
  | _ => True
  end.

Definition regular (E : env) (c : constr) : Prop :=
  c <> CNil /\ Deep E (fun x => x = CNil \/ node_regular E x) c.

Lemma regular_child E c x : In x (children E c) -> x <> CNil -> regular E c -> regular E x.
Proof. intros H N [_ D]. split; auto. eapply Deep_child; eauto. Qed.
Lemma regular_here E c : regular E c -> node_regular E c.
Proof. intros [N D]. destruct (Deep_here _ _ _ D); [contradiction|auto]. Qed.

(** *** Scalars *)
Lemma doc_string_ok E c s : s_fmt c <> "ipv6"%string -> str_enum_ok c -> (str_ok E c s <-> doc_string E c s).
Proof.
  intros N OK. rewrite str_ok_meaning by auto. unfold string_meaning, doc_string, doc_format.
  destruct (String.eqb_spec (s_fmt c) "ipv6"); [contradiction|]. reflexivity.
Qed.

Lemma listed_scalar l v : Forall scalar_lit l -> (listed l v <-> exists e, In e l /\ go_equal e v).
Proof.
  rewrite Forall_forall. intros F. split; intros (e & He & Q); exists e; (split; [exact He|]);
    destruct (ieq_scalar e v (F e He)) as (b & Hb & Hg).
  - rewrite Q in Hb. injection Hb as <-. now apply Hg.
  - apply Hg in Q. congruence.
Qed.

Lemma scalar_means E c v : scalar_c c = true -> node_regular E c -> doc v -> (scalar_ok E c v <-> means E c v).
Proof.
  intros SC NR D. destruct c; try discriminate; cbn [scalar_ok means node_regular] in *.
  - destruct D; (split; intros G; [try contradiction; eexists; constructor|try exact I; destruct G as [k0 G]; inversion G]).
  - destruct D; (split; intros G; [try contradiction; eauto|destruct G as (? & ? & G); try discriminate G; exact I]).
  - destruct D; try (split; [tauto|intros (? & ? & ? & _); discriminate]). destruct NR.
    rewrite doc_string_ok by auto. split; [eauto|]. intros (? & ? & Q & ?). injection Q as <- <-. auto.
  - destruct D; try (split; [tauto|intros (? & ? & ? & ? & _); discriminate]).
    rewrite num_ok_meaning by auto. split; [eauto 6|]. intros (? & ? & ? & Q & ?). injection Q as <- <- <-. auto.
  - assert (IZ : forall z, Z.abs z <= 2 ^ 53 -> (num_ok c (f64_of_Z z) <-> number_meaning c (xZ z))).
    { intros z Hz. rewrite num_ok_meaning; auto; [now apply number_meaning_Z|now apply f64_of_Z_small]. }
    destruct D; try (split; [tauto|intros [(? & ? & ? & ? & _)|[(? & ? & ? & ? & _)|(? & ? & ? & ? & _)]]; discriminate]).
    + rewrite IZ by auto. split; [eauto 6|]. intros [(? & ? & ? & Q & ?)|[(? & ? & ? & Q & _)|(? & ? & ? & Q & _)]]; try discriminate.
      injection Q as <- <- <-. auto.
    + rewrite IZ by auto. split; [eauto 7|]. intros [(? & ? & ? & Q & _)|[(? & ? & ? & Q & ?)|(? & ? & ? & Q & _)]]; try discriminate.
      injection Q as <- <- <-. auto.
    + rewrite num_ok_meaning by auto. rewrite feq_comm, ffloor_spec by auto. fold (whole (fval (widen i f))). split; [eauto 9|].
      intros [(? & ? & ? & Q & _)|[(? & ? & ? & Q & _)|(? & ? & ? & Q & ?)]]; try discriminate. injection Q as <- <- <-. auto.
  - now apply listed_scalar.
Qed.

Lemma regular_node_ok E c : scalar_c c = true -> node_regular E c -> node_ok E c.
Proof.
  intros SC NR. destruct c; try discriminate; cbn [node_regular node_ok] in *; auto.
  - destruct NR as [_ NR]. destruct (s_enum c) as [l|] eqn:S; cbn; auto. apply scalar_comparable. auto.
  - now apply enum_comp.
  - now apply enum_comp.
  - now apply scalar_comparable.
Qed.

(** *** Arrays *)
Lemma strings_dec l : (forall x, In x l -> doc x) -> (exists ss, l = map gstr ss) \/ (exists j x, nth_error l j = Some x /\ forall T s, x <> GStr T s).
Proof.
  induction l as [|x l IH]; intros D; [left; exists []; auto|].
  assert (X : (exists s, x = gstr s) \/ forall T s, x <> GStr T s).
  { destruct (D x (or_introl eq_refl)); try (right; intros; discriminate). left. eauto. }
  destruct X as [[s ->]|X]; [|right; exists 0%nat, x; auto].
  destruct IH as [[ss ->]|(j & y & H1 & H2)]; [intros; apply D; now right|left; exists (s :: ss); auto|right; exists (S j), y; auto].
Qed.

Lemma nodup_gstr ss : NoDup (map gstr ss) -> NoDup ss.
Proof. apply NoDup_map_inv. Qed.

Section Arr.
  Variables (E : env) (A : constr -> gval -> gval -> Prop).
  Hypothesis HA : forall c x x', A c x x' -> Satisfies E c x.

  Lemma arr_pass a T i ol v' : node_regular E (CArr a) ->
    arr_sem A (Violates E) E a (GSlice T i ol) (Some v') -> Satisfies E (CArr a) (GSlice T i ol).
  Proof.
    intros (R1 & R2 & R3 & R4) H. cbn [arr_sem] in H. fold (elements ol) in H.
    destruct H as (W & U & TM & l' & _ & L & EL). apply s_array.
    - exact W.
    - intros Hu. eapply NoDup_map_inv. now apply U.
    - intros j Hj (S1 & S2 & S3 & S4). apply TM. unfold too_many. apply nth_error_None in S3. splits; auto; try lia.
      all: assert (List.length (a_pos a) <> 0%nat) by (destruct (a_pos a); [congruence|discriminate]); lia.
    - intros j x c Hx [NC HI].
      assert (Hx' : exists x', nth_error l' j = Some x').
      { destruct (nth_error l' j) eqn:N; eauto. apply nth_error_None in N. assert (j < List.length (elements ol))%nat by (apply nth_error_Some; congruence). lia. }
      destruct Hx' as [x' Hx']. specialize (EL j x x' Hx Hx'). unfold elem_cs in EL.
      destruct (a_items a) eqn:IT.
      2-15: subst c; inversion EL; subst; eapply HA; eassumption.
      destruct (nth_error (a_pos a) j) as [p|] eqn:NP.
      + subst c. inversion EL; subst. eapply HA; eassumption.
      + destruct HI as [NE ->]. destruct (R3 NE) as [Q|Q]; [congruence|]. rewrite Q. apply s_empty.
  Qed.

  Lemma arr_fail a T i ol : (forall x, In x (elements ol) -> doc x) -> node_regular E (CArr a) ->
    arr_sem A (Violates E) E a (GSlice T i ol) None -> Violates E (CArr a) (GSlice T i ol).
  Proof.
    intros DL (R1 & R2 & R3 & R4) H. cbn [arr_sem] in H. fold (elements ol) in H.
    destruct H as [H|[[U H]|[(T1 & T2 & T3)|(j & x & c1 & c & c2 & x1 & Hx & EC & CH & HR)]]].
    - now apply v_array_size.
    - specialize (R4 U). destruct (a_items a) eqn:IT; try contradiction.
      destruct (strings_dec (elements ol) DL) as [[ss Hs]|(j & x & Hx & Nx)].
      + apply v_array_unique; auto. intros ND. apply H. rewrite Hs in *. apply nodup_gstr in ND.
        rewrite map_map. replace (map (fun x => sprint E true (gstr x)) ss) with ss; auto.
        rewrite <- map_id at 1. apply map_ext. reflexivity.
      + eapply v_array_item with (c := a_items a); eauto.
        * unfold item_rule. rewrite IT. split; [discriminate|reflexivity].
        * rewrite IT. apply v_scalar; auto. cbn. intros (T0 & s0 & -> & _). eapply Nx; eauto.
    - eapply v_array_surplus with (j := List.length (a_pos a)); [lia|]. unfold surplus. splits; auto.
      + intros Q. rewrite Q in T3. cbn in T3. lia.
      + apply nth_error_None. lia.
    - assert (NV : c <> CNil) by (intros ->; eapply Violates_nil; eauto).
      unfold elem_cs in EC. destruct (a_items a) eqn:IT.
      2-15: destruct c1 as [|? [|? ?]]; try discriminate; injection EC as <- <-; inversion CH; subst;
        (eapply v_array_item; [exact Hx| |exact HR]); unfold item_rule; rewrite IT; split; auto; discriminate.
      destruct (nth_error (a_pos a) j) as [p|] eqn:NP.
      + destruct c1 as [|y c1]; cbn in EC.
        * injection EC as <- _. inversion CH; subst. eapply v_array_item; eauto. unfold item_rule. rewrite IT, NP. auto.
        * injection EC as <- EC. destruct (_ && _); [|destruct c1; discriminate].
          destruct c1 as [|? [|? ?]]; try discriminate. injection EC as <- _.
          assert (NE : a_pos a <> []) by (intros Q; rewrite Q in NP; destruct j; discriminate).
          destruct (R3 NE) as [Q|Q]; [congruence|]. rewrite Q in HR. inversion HR; discriminate.
      + cbn [app] in EC. destruct (a_pos a) as [|p0 ps] eqn:PE; [destruct c1; discriminate EC|].
        rewrite <- PE in *. destruct (_ && _); [|destruct c1; discriminate EC].
        destruct c1 as [|? [|? ?]]; try discriminate. injection EC as <- _. inversion CH; subst.
        assert (NE : a_pos a <> []) by congruence.
        eapply v_array_item; eauto. unfold item_rule. rewrite IT, NP. auto.
  Qed.
End Arr.

(** *** Objects *)
Lemma governs_applies E o k c : governs E o k c -> applies E o k c.
Proof.
  unfold governs, applies, matches. destruct (sget k (o_props o)) as [c'|] eqn:S.
  - intros ->. auto.
  - intros [H|(N & -> & NC)]; auto. right. right. splits; auto. intros [H|(c & p & H1 & H2)].
    + apply sget_some_keys in H. destruct H; congruence.
    + rewrite (N _ _ H1) in H2. discriminate.
Qed.

Lemma covered_dec E o k : covered E o k \/ ~ covered E o k.
Proof.
  destruct (in_dec string_dec k (keys (o_props o))) as [I|NI]; [left; now left|].
  destruct (matched_dec E (o_pats o) k) as [(p & c & H1 & H2)|NM].
  - left. right. exists c, p. auto.
  - right. intros [?|(c & p & H1 & H2)]; [contradiction|]. rewrite (NM _ _ H1) in H2. discriminate.
Qed.

Lemma seen_covered E o m k : seen E o m k <-> In k (keys m) /\ covered E o k.
Proof.
  unfold seen, covered, matches. split; intros [H1 [H2|H2]]; (split; [exact H1|]); auto; right.
  - destruct H2 as (p & c & H). exists c, p. auto.
  - destruct H2 as (c & p & H). exists p, c. auto.
Qed.

Lemma not_governed E o k : (forall c, ~ governs E o k c) -> ~ covered E o k /\ o_add o = CNil.
Proof.
  unfold governs. intros H. destruct (sget k (o_props o)) as [c|] eqn:S; [exfalso; eapply H; eauto|].
  assert (NC : ~ covered E o k).
  { intros [I|(c & p & H1 & H2)]; [apply sget_some_keys in I; destruct I; congruence|].
    apply (H c). left. eauto. }
  split; auto. destruct (o_add o) eqn:A; auto; exfalso;
    (eapply H; right; splits; [|reflexivity|discriminate]);
    intros p c' Hp; destruct (e_rx E (snd p) k) eqn:X; auto; exfalso; apply NC; right; exists c', p; auto.
Qed.

Section Obj.
  Variables (E : env) (A : constr -> gval -> gval -> Prop).
  Hypothesis HA : forall c x x', A c x x' -> Satisfies E c x /\ (pure E c -> x' = x).

  Lemma props_pure o m m1 : ssorted m -> ssorted m1 -> pure E (CObj o) -> props_sem A E o m m1 -> m1 = m.
  Proof.
    intros S S1 P (_ & _ & P1 & P2). apply ssorted_ext; auto. intros k.
    destruct (sget k m) as [x|] eqn:G.
    - destruct (P1 k x G) as (c & x' & GV & G1 & HX). rewrite G1. f_equal. apply HA in HX. apply HX.
      eapply pure_child; [|exact P]. eapply governs_child; eauto.
    - specialize (P2 k G). destruct (sget k (o_props o)) as [c|] eqn:L; auto.
      destruct P2 as [_ [(d & D & _)|[_ ->]]]; auto. exfalso. apply (P d). exists o, k, c. splits; auto; [constructor|now apply sget_in].
  Qed.

  Lemma obj_doc_pass o T ET m v' : ssorted m -> node_regular E (CObj o) ->
    obj_sem A (Violates E) E o (GMap T KString true ET (Some m)) (Some v') ->
    Satisfies E (CObj o) (GMap T KString true ET (Some m)).
  Proof.
    intros SM (R1 & R2 & R3 & R4 & R5 & R6 & R7 & R8) (m1 & -> & PS & D1 & D2).
    pose proof PS as (CO & S1 & P1 & P2). apply s_object.
    - exact CO.
    - intros k Hk. destruct (sget k m) eqn:G; [apply sget_some_keys; eauto|].
      specialize (P2 k G). pose proof (R5 k Hk) as I. apply sget_some_keys in I. destruct I as [c Hc].
      rewrite Hc in P2. destruct P2. congruence.
    - intros k I. apply sget_some_keys in I. destruct I as [x Hx]. destruct (P1 k x Hx) as (c & x' & GV & _).
      unfold governs in GV. destruct (sget k (o_props o)) eqn:L; [left; left; apply sget_some_keys; eauto|].
      destruct GV as [(p & H1 & H2)|(_ & -> & N)]; auto. left. right. exists c, p. auto.
    - intros k x c Hx AP. destruct (P1 k x Hx) as (c' & x' & GV & _ & AX).
      rewrite (R6 k c c' AP (governs_applies _ _ _ _ GV)). now apply HA in AX.
    - intros k d I1 I2. destruct (R7 k d I2) as [C1 C2].
      assert (Q : seen E o m d) by (eapply D1; [|exact I2]; apply seen_covered; auto). apply Q.
    - intros k I N. destruct (R8 k N) as (C1 & PD & PU).
      assert (Q : m1 = m) by (eapply props_pure; eauto). subst m1.
      apply (HA _ _ (GMap T KString true ET (Some m))). apply D2; auto. apply seen_covered; auto.
  Qed.

  Lemma obj_doc_fail o T ET m : ssorted m -> node_regular E (CObj o) ->
    obj_sem A (Violates E) E o (GMap T KString true ET (Some m)) None ->
    Violates E (CObj o) (GMap T KString true ET (Some m)).
  Proof.
    intros SM (R1 & R2 & R3 & R4 & R5 & R6 & R7 & R8) H. cbn [obj_sem] in H.
    destruct H as [H|[(k & H1 & H2 & H3)|[(k & H1 & H2)|[(k & c & x & H1 & H2 & H3)|[(k & d & H1 & H2 & H3)|(k & m1 & H1 & H2 & H3 & H4 & H5)]]]]].
    - now apply v_object_size.
    - eapply v_object_required; eauto. intros I. apply sget_some_keys in I. destruct I; congruence.
    - destruct (not_governed _ _ _ H2). eapply v_object_extra; eauto.
    - eapply v_object_prop; eauto. now apply governs_applies.
    - destruct (R7 k d H2) as [C1 C2]. apply seen_covered in H1. destruct H1 as [I1 _].
      eapply v_object_dep; eauto. intros I. apply H3. apply seen_covered. auto.
    - destruct (R8 k H4) as (C1 & PD & PU). pose proof H1 as (_ & S1 & _).
      assert (Q : m1 = m) by (eapply props_pure; eauto). subst m1.
      apply seen_covered in H2. destruct H2 as [I1 _]. eapply v_object_sdep; eauto.
  Qed.
End Obj.

(** *** Everything *)
Lemma chain_calm E (A : constr -> gval -> gval -> Prop) l : (forall c x x', A c x x' -> Satisfies E c x /\ (pure E c -> x' = x)) ->
  forall v v', Chain A l v v' ->
  ((forall x, In x l -> pure E x) -> v' = v) /\
  ((forall l1 x l2, l = l1 ++ x :: l2 -> l2 <> [] -> pure E x) -> forall c, In c l -> Satisfies E c v).
Proof.
  intros HA v v' H. induction H as [|c l v v1 v2 HX HC IH]; [split; cbn; tauto|].
  apply HA in HX. destruct HX as [HS HP]. destruct IH as [IH1 IH2]. split.
  - intros P. rewrite IH1, HP; auto; [apply P; now left|intros; apply P; now right].
  - intros P x [<-|Hx]; auto. assert (v1 = v).
    { apply HP. apply (P [] c l); auto. intros ->. destruct Hx. }
    subst v1. apply IH2; auto. intros l1 y l2 -> N. apply (P (c :: l1) y l2); auto.
Qed.

Lemma doc_in T i l : doc (GSlice T i (Some l)) -> forall x, In x l -> doc x.
Proof. inversion 1; auto. Qed.

Lemma regular_default_panic E n : forall c, regular E c -> get_default n E c <> DPanic.
Proof.
  induction n as [|n IH]; intros c W; cbn [get_default]; [discriminate|].
  destruct c; try discriminate; try (destruct d; discriminate).
  - destruct W; congruence.
  - destruct (e_refs E name) as [c'|] eqn:Rf; [|discriminate]. apply IH.
    pose proof (regular_here _ _ W) as NO. cbn in NO.
    eapply regular_child; [eapply child_ref; eauto|congruence|exact W].
Qed.

Theorem validate_documented E n : forall c v w r v' w', regular E c -> doc v ->
  validate n E c v w = (r, v', w') ->
  match r with
  | Pass => (Satisfies E c v /\ (pure E c -> v' = v)) /\ doc v'
  | Fail _ => Violates E c v
  | Panic _ => False
  | OOF => True
  end.
Proof.
  induction n as [|n IH]; intros c v w r v' w' W J HV.
  { cbn in HV. injection HV as <- <- <-. exact I. }
  pose (A := fun c x x' => Satisfies E c x /\ (pure E c -> x' = x)).
  assert (HA : forall c x x', A c x x' -> Satisfies E c x /\ (pure E c -> x' = x)) by auto.
  pose proof (regular_here _ _ W) as NR.
  assert (KP : forall c x w r x' w', pure E c -> validate n E c x w = (r, x', w') -> x' = x)
    by (intros; eapply validate_readonly; eauto).
  assert (KT : r = Pass -> pure E c -> v' = v) by (intros _ P; eapply (validate_readonly E (S n)); eauto).
  assert (WL : forall l, (forall x, In x l -> In x (children E c)) -> ~ In CNil l -> Forall (regular E) l).
  { intros l Hl Nl. apply Forall_forall. intros x Hx. eapply regular_child; eauto. intros ->. contradiction. }
  destruct (scalar_c c) eqn:SC.
  { destruct (scalar_spec n E c v w SC (regular_node_ok E c SC NR) (doc_jdoc v J)) as (r0 & Hr & HS).
    rewrite Hr in HV. injection HV as <- <- <-. pose proof (scalar_means E c v SC NR J) as SM.
    destruct r0; auto.
    - splits; auto. apply s_scalar. tauto.
    - apply v_scalar; tauto. }
  assert (G : good False (validate (S n) E c v w) (fun v' => Satisfies E c v /\ doc v') (Violates E c v)).
  2:{ rewrite HV in G. destruct r; cbn [good] in G; auto. destruct G. splits; auto. }
  clear HV KT r v' w'.
  destruct c; try discriminate; cbn [validate].
  - destruct W; congruence.
  - cbn. split; auto. constructor.
  - pose proof (arr_sound E A (Violates E) (validate n E) (regular E) doc False doc_in (fun T i l H => d_slice T i l H) IH a v w J) as AS.
    assert (F1 : a_items a <> CNil -> regular E (a_items a)) by (intros N; eapply regular_child; eauto using child_items).
    assert (F2 : a_add a <> CNil -> regular E (a_add a)) by (intros N; eapply regular_child; eauto using child_aadd).
    assert (F3 : Forall (regular E) (a_pos a)).
    { apply WL; [intros x Hx; now apply child_pos|]. destruct NR; auto. }
    specialize (AS F1 F2 F3).
    destruct v as [| | | | | |T i ol| | | | | |]; try (unfold arr_validate; cbn; apply v_array_kind; discriminate).
    assert (DL : forall x, In x (elements ol) -> doc x) by (inversion J; subst; cbn; auto; tauto).
    destruct (arr_validate _ _ _ _ _) as [[[] v1] w1]; cbn [good] in *; auto.
    + destruct AS as [AS D]. split; auto. eapply arr_pass; eauto. intros; now apply HA in H.
    + eapply arr_fail; eauto.
  - destruct J as [| | | | | | | |T ET m Sm Jm]; try (cbn; apply v_object_kind; discriminate).
    pose proof NR as (R1 & R2 & R3 & R4 & R5 & R6 & R7 & R8).
    assert (AS : good False (obj_validate (validate n E) (get_default n E) E o (GMap T KString true ET (Some m)) w)
              (fun v' => obj_sem A (Violates E) E o (GMap T KString true ET (Some m)) (Some v') /\ doc v')
              (obj_sem A (Violates E) E o (GMap T KString true ET (Some m)) None)).
    { apply (obj_sound_map E A (Violates E) (validate n E) (regular E) doc False); auto.
      + intros; eapply get_default_sound; eauto.
      + intros; eapply get_default_none; eauto.
      + intros c0 W0 HP. now apply (regular_default_panic E n c0 W0).
      + intros m' [H1 H2]. now constructor.
      + split; auto.
      + intros k c Hk. eapply regular_child; eauto using child_prop.
      + intros k c Hk. eapply regular_child; eauto using child_pat.
      + intros N. eapply regular_child; eauto using child_add.
      + intros k N. destruct (R8 k N) as (_ & _ & PU). split.
        * eapply regular_child; eauto using child_sdep.
        * eapply pure_child; [|exact PU]. now apply child_sdep. }
    destruct (obj_validate _ _ _ _ _ _) as [[[] v1] w1]; cbn [good] in *; auto.
    + destruct AS. split; auto. eapply obj_doc_pass; eauto.
    + eapply obj_doc_fail; eauto.
  - destruct NR as [N1 N2].
    pose proof (any_loop_sound E A (Violates E) (validate n E) (regular E) doc False IH KP l) as AL.
    assert (F1 : Forall (regular E) l) by (apply WL; auto).
    assert (F2 : Forall (pure E) l) by (now apply Forall_forall).
    specialize (AL F1 F2 v w J). destruct (any_loop _ l v w) as [[[] ?] ?]; cbn [good] in *; auto.
    + destruct AL as [-> (x & Hx & AX)]. split; auto. eapply s_any; eauto. apply AX.
    + now apply v_any.
  - destruct NR as [N1 N2].
    pose proof (all_loop_sound A (Violates E) (validate n E) (regular E) doc False IH l) as AL.
    assert (F1 : Forall (regular E) l) by (apply WL; auto).
    specialize (AL F1 v w J). destruct (all_loop _ l v w) as [[[] ?] ?]; cbn [good] in *; auto.
    + destruct AL as [CH D]. split; auto. apply s_all. apply (chain_calm E A l HA _ _ CH). exact N2.
    + destruct AL as (l1 & x & l2 & v1 & -> & CH & HR). eapply v_all; [apply in_or_app; right; now left|].
      assert (v1 = v); [|subst; exact HR]. apply (chain_calm E A l1 HA _ _ CH). intros y Hy.
      apply in_split in Hy. destruct Hy as (a & b & ->). apply (N2 a y (b ++ x :: l2)).
      * rewrite <- app_assoc. reflexivity.
      * destruct b; discriminate.
  - destruct NR as [N1 N2].
    pose proof (oneof_loop_sound E A (Violates E) (validate n E) (regular E) doc False IH KP l) as AL.
    assert (F1 : Forall (regular E) l) by (apply WL; auto).
    assert (F2 : Forall (pure E) l) by (now apply Forall_forall).
    specialize (AL F1 F2 0%nat v w J). destruct (oneof_loop _ l 0 v w) as [[[] ?] ?]; cbn [good] in *; auto.
    + destruct AL as [-> [[? _]|[_ (l1 & x & l2 & -> & AX & HR)]]]; [discriminate|]. split; auto. apply s_oneof; auto. apply AX.
    + destruct AL as [[_ H]|[[_ (l1 & x & l2 & y & l3 & -> & A1 & A2)]|[[H _]|H]]]; try discriminate; try lia.
      * now apply v_oneof_none.
      * apply v_oneof_two; [apply A1|apply A2].
  - pose proof (not_sound E A (Violates E) (validate n E) (regular E) doc False IH KP c v w) as AL.
    assert (F1 : c <> CNil -> regular E c) by (intros; eapply regular_child; eauto; cbn; auto).
    specialize (AL F1 NR J). destruct (not_validate _ c v w) as [[[] ?] ?]; cbn [good] in *; auto.
    + destruct AL as [-> ?]. split; auto. now apply s_not.
    + destruct AL as [->|AX]; [apply v_not_unset|apply v_not, AX].
  - cbn [node_regular] in NR. destruct (e_refs E name) as [c'|] eqn:Rf; [|cbn; now apply v_ref_missing].
    assert (W' : regular E c') by (eapply regular_child; [eapply child_ref; eauto|congruence|exact W]).
    destruct (validate n E c' v w) as [[r v1] w1] eqn:HV. pose proof (IH _ _ _ _ _ _ W' J HV) as Q.
    destruct r; cbn [good]; auto.
    + destruct Q as [[Q _] D]. split; auto. eapply s_ref; eauto.
    + eapply v_ref; eauto.
Qed.

(** a finished run decides the documented meaning *)
Theorem documented_run E c v w r v' w' : regular E c -> doc v -> Runs E c v w (r, v', w') ->
  (r = Pass /\ Satisfies E c v /\ ~ Violates E c v) \/
  ((exists m, r = Fail m) /\ Violates E c v /\ ~ Satisfies E c v).
Proof.
  intros R D (n & H & N). cbn in N. pose proof (validate_documented E n c v w r v' w' R D H) as Q.
  destruct r; try contradiction; try congruence.
  - left. destruct Q as [[Q _] _]. splits; auto. intros HV. eapply Satisfies_not_Violates; eauto.
  - right. splits; eauto. intros HS. eapply Satisfies_not_Violates; eauto.
Qed.

Theorem documented_exact E c v w : regular E c -> doc v -> finite_refs E -> guarded E -> small E c ->
  exists r v' w', Runs E c v w (r, v', w') /\
    ((r = Pass /\ Satisfies E c v /\ ~ Violates E c v) \/
     ((exists m, r = Fail m) /\ Violates E c v /\ ~ Satisfies E c v)).
Proof.
  intros R D F G S. destruct (validate_terminates E c F G S v) as [N HN]. specialize (HN w).
  destruct (validate N E c v w) as [[r v'] w'] eqn:HV. exists r, v', w'.
  assert (HR : Runs E c v w (r, v', w')) by (exists N; auto).
  split; auto. eapply documented_run; eauto.
Qed.
