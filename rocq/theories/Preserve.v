(** Validate never removes or overwrites data (C05): specification [ext] and proof. *)
From Verif Require Import Base GoFloat GoValue Maybe Formats Constraint StructInfo Validate Fuel Reach ReadOnly Frame.
Open Scope Z_scope.

(** ** Specification.  [ext D v v']: v' is v with entries added.  Every entry of v is
    still there (itself possibly extended, scalars unchanged), map entries that v did not
    have hold a declared default [D], and the only other change is an unset (invalid)
    Maybe becoming set by a declared default. *)
Inductive ext (D : gval -> Prop) : gval -> gval -> Prop :=
| ext_refl v : ext D v v
| ext_slice T i l l' :
    List.length l' = List.length l ->
    (forall j x x', nth_error l j = Some x -> nth_error l' j = Some x' -> ext D x x') ->
    ext D (GSlice T i (Some l)) (GSlice T i (Some l'))
| ext_map T kk i ET m m' (dflt : string -> gval) :
    (forall k, In k (keys m) -> In k (keys m')) ->
    (forall k x x', sget k m = Some x -> sget k m' = Some x' -> ext D x x') ->
    (forall k x', sget k m = None -> sget k m' = Some x' -> D (dflt k)) ->
    (forall k x', sget k m = None -> sget k m' = Some x' -> ext D (dflt k) x') ->
    ext D (GMap T kk i ET (Some m)) (GMap T kk i ET (Some m'))
| ext_ptr T a i x x' :
    ext D x x' -> ext D (GPtr T a (Some (i, x))) (GPtr T a (Some (i, x')))
| ext_struct T fs fs' :
    map fst fs' = map fst fs ->
    (forall j e e', nth_error fs j = Some e -> nth_error fs' j = Some e' -> ext D (snd e) (snd e')) ->
    ext D (GStruct T fs) (GStruct T fs')
| ext_maybe m m' d tp :
    m_valid m = false -> m_valid m' = true -> D d ->
    (m_set tp m d = inl m' \/ m_set tp m (to_int64 d) = inl m' \/ m_set tp m (to_float64 d) = inl m') ->
    ext D (GMaybe m) (GMaybe m').

(** no pointer to an interface variable, no pointer to a pointer, and no map whose
    elements are Maybes *)
Definition is_ptr (v : gval) : bool := match v with GPtr _ _ _ => true | _ => false end.
Inductive noind : gval -> Prop :=
| ni_slice T i l : (forall x, In x l -> noind x) -> noind (GSlice T i (Some l))
| ni_map T kk i ET m :
    (forall k x, In (k, x) m -> noind x) ->
    (forall k x, In (k, x) m -> is_maybe (RV i x) = false) -> noind (GMap T kk i ET (Some m))
| ni_ptr T a x : is_ptr x = false -> noind x -> noind (GPtr T a (Some (false, x)))
| ni_struct T fs : (forall e, In e fs -> noind (snd e)) -> noind (GStruct T fs)
| ni_leaf v :
    match v with
    | GSlice _ _ (Some _) | GMap _ _ _ _ (Some _) | GPtr _ _ (Some _) | GStruct _ _ => False
    | _ => True
    end -> noind v.

(** ** Basic facts *)
Lemma ext_trans D a b : ext D a b -> forall c, ext D b c -> ext D a c.
Proof.
  induction 1 as [v|T i l l' HL H IH|T kk i ET m m' df HK H IH HD HE IHE|T a i x x' H IH
                 |T fs fs' HF H IH|m m' d tp Hm Hm' HD HS]; intros c Hc; [exact Hc|..].
  - inversion Hc as [|? ? ? l2 HL2 H2| | | |]; subst; [econstructor; eauto|].
    constructor; [congruence|]. intros j x x2 N1 N2.
    destruct (nth_error l' j) as [x1|] eqn:N3.
    + eapply IH; eauto.
    + apply nth_error_None in N3. assert (nth_error l2 j = None) by (apply nth_error_None; lia). congruence.
  - inversion Hc as [|? ? ? ? ? ?|? ? ? ? ? m2 df2 HK2 H2 HD2 HE2| | |]; subst; [econstructor; eauto|].
    apply ext_map with (dflt := fun k => match sget k m' with Some _ => df k | None => df2 k end); auto.
    + intros k x x2 N1 N2. destruct (sget k m') as [x1|] eqn:N3; [eapply IH; eauto|].
      exfalso. apply sget_none_keys in N3. apply N3, HK. apply sget_some_keys. eauto.
    + intros k x2 N1 N2. destruct (sget k m') as [x1|] eqn:N3; eauto.
    + intros k x2 N1 N2. destruct (sget k m') as [x1|] eqn:N3; [|eauto]. eapply IHE; eauto.
  - inversion Hc; subst; [constructor; auto|]. constructor. auto.
  - inversion Hc as [| | | |? ? fs2 HF2 H2|]; subst; [constructor; auto|].
    constructor; [congruence|]. intros j e e2 N1 N2.
    destruct (nth_error fs' j) as [e1|] eqn:N3; [eapply IH; eauto|].
    exfalso. apply nth_error_None in N3.
    assert (List.length fs2 = List.length fs') by (rewrite <- (map_length fst), HF2, map_length; auto).
    assert (nth_error fs2 j = None) by (apply nth_error_None; lia). congruence.
  - inversion Hc; subst; [econstructor; eauto|congruence].
Qed.

Lemma in_supd {A} k (x : A) m k' y : In (k', y) (supd k x m) -> y = x \/ In (k', y) m.
Proof.
  induction m as [|[j z] m IH]; cbn; [tauto|].
  destruct (String.eqb k j); cbn; intros [H|H]; auto.
  - inversion H; auto.
  - destruct (IH H); auto.
Qed.

Lemma in_sset {A} k (x : A) m k' y : In (k', y) (sset k x m) -> y = x \/ In (k', y) m.
Proof.
  induction m as [|[j z] m IH]; cbn.
  - intros [H|[]]. inversion H; auto.
  - destruct (String.compare k j); cbn; intros [H|H]; auto; try (inversion H; auto; fail).
    destruct (IH H); auto.
Qed.

Lemma nth_set_nth_field i f fs j :
  nth_error (set_nth_field i f fs) j =
  match nth_error fs j with
  | Some (fi, x) => Some (fi, if Nat.eqb i j then f x else x)
  | None => None
  end.
Proof.
  revert i j. induction fs as [|[fi x] fs IH]; intros i j.
  - destruct i, j; reflexivity.
  - destruct i, j; cbn; auto.
    + destruct (nth_error fs j) as [[]|]; reflexivity.
Qed.

Lemma fst_set_nth_field i f fs : map fst (set_nth_field i f fs) = map fst fs.
Proof. revert i. induction fs as [|[fi x] fs IH]; intros [|i]; cbn; auto. now rewrite IH. Qed.

Lemma in_set_nth_field i f fs e : In e (set_nth_field i f fs) ->
  In e fs \/ exists x, nth_error fs i = Some (fst e, x) /\ snd e = f x.
Proof.
  intros H. apply In_nth_error in H. destruct H as [j H]. rewrite nth_set_nth_field in H.
  destruct (nth_error fs j) as [[fi x]|] eqn:N; [|discriminate]. injection H as <-.
  destruct (Nat.eqb_spec i j); subst; [right; exists x; auto|]. left. eapply nth_error_In; eauto.
Qed.

Lemma ext_set_path D path : forall v x x', get_path path v = Some x -> ext D x x' ->
  ext D v (set_path path x' v).
Proof.
  induction path as [|i p IH]; intros v x x' G H; cbn in *; [congruence|].
  destruct v; try discriminate. destruct (nth_error fs i) as [[fi y]|] eqn:N; [|discriminate].
  constructor; [apply fst_set_nth_field|]. intros j e e' N1 N2.
  rewrite nth_set_nth_field, N1 in N2. destruct e as [fj z]. injection N2 as <-. cbn.
  destruct (Nat.eqb_spec i j); [|constructor]. subst. rewrite N in N1. injection N1 as <- <-. eauto.
Qed.

Lemma noind_get_path path : forall v x, noind v -> get_path path v = Some x -> noind x.
Proof.
  induction path as [|i p IH]; intros v x N G; cbn in *; [congruence|].
  destruct v; try discriminate. destruct (nth_error fs i) as [[fi y]|] eqn:NE; [|discriminate].
  apply (IH y x); auto. inversion N as [| | |? ? H|? H]; subst; [|destruct H].
  apply (H (fi, y)). eapply nth_error_In; eauto.
Qed.

Lemma noind_set_path path : forall v x x', noind v -> get_path path v = Some x -> noind x' ->
  noind (set_path path x' v).
Proof.
  induction path as [|i p IH]; intros v x x' N G N'; cbn in *; [auto|].
  destruct v; try discriminate. destruct (nth_error fs i) as [[fi y]|] eqn:NE; [|discriminate].
  inversion N as [| | |? ? H|? H]; subst; [|destruct H].
  constructor. intros e He. apply in_set_nth_field in He. destruct He as [He|(z & Hz & ->)]; [auto|].
  rewrite NE in Hz. injection Hz as -> <-. eapply IH; eauto.
  apply (H (fst e, y)). eapply nth_error_In; eauto.
Qed.

Lemma is_ptr_put_target k y x : is_ptr (put_target k y x) = is_ptr x.
Proof.
  destruct x; try reflexivity; cbn [put_target].
  - destruct m; reflexivity.
  - destruct (extract _) as [props|]; auto. destruct (field_name _ _); auto.
    destruct (field_by_name _ _) as [[path [fi z]]|] eqn:F; auto.
    apply field_by_name_path in F. destruct path; [tauto|reflexivity].
Qed.

Lemma supd_ext D T kk i ET m k x x' : sget k m = Some x -> ext D x x' ->
  ext D (GMap T kk i ET (Some m)) (GMap T kk i ET (Some (supd k x' m))).
Proof.
  intros G H. apply ext_map with (dflt := fun _ => GNil).
  - intros j Hj. now rewrite supd_keys.
  - intros j y y' Hy Hy'. destruct (String.eqb_spec j k) as [->|N].
    + rewrite sget_supd_same in Hy' by (apply sget_some_keys; eauto). congruence.
    + rewrite sget_supd_other in Hy' by auto. assert (y' = y) by congruence. subst. constructor.
  - intros j y' Hy Hy'. exfalso. apply sget_none_keys in Hy. apply Hy. rewrite <- (supd_keys k x'). apply sget_some_keys. eauto.
  - intros j y' Hy Hy'. exfalso. apply sget_none_keys in Hy. apply Hy. rewrite <- (supd_keys k x'). apply sget_some_keys. eauto.
Qed.

Lemma put_target_ext D v k i x x' : get_prop (RV false v) k = Some (RV i x) -> ext D x x' ->
  ext D v (put_target k x' v).
Proof.
  destruct v; cbn [get_prop put_target]; try discriminate; try (intros; constructor; fail).
  - destruct kk; try discriminate; destruct m as [m|]; try discriminate;
    destruct (sget k m) eqn:S; try discriminate; intros [= -> ->] H; eapply supd_ext; eauto.
  - destruct (extract (GStruct T fs)) as [props|] eqn:X; try discriminate.
    destruct (field_name props k) as [fn|] eqn:F; try discriminate.
    destruct (field_by_name (GStruct T fs) fn) as [[path [fi y]]|] eqn:B; try discriminate.
    intros [= <- ->] H. apply field_by_name_path in B. eapply ext_set_path; [apply B|exact H].
Qed.

Lemma ext_is_maybe D x x' i : ext D x x' -> is_maybe (RV i x') = is_maybe (RV i x).
Proof. destruct 1; destruct i; reflexivity. Qed.

Lemma put_target_noind D v k i x x' : noind v -> get_prop (RV false v) k = Some (RV i x) -> noind x' ->
  ext D x x' -> noind (put_target k x' v).
Proof.
  intros N. destruct v; cbn [get_prop put_target]; try discriminate; auto.
  - destruct m as [m|]; auto. intros G H HE. inversion N as [|? ? ? ? ? Hm Hq| | |? Hm]; subst; [|destruct Hm].
    constructor; intros j y Hy; apply in_supd in Hy; destruct Hy as [->|Hy]; eauto.
    rewrite (ext_is_maybe D x); auto.
    destruct kk; try discriminate; destruct (sget k m) eqn:S; try discriminate;
      injection G as -> ->; apply sget_in in S; eauto.
  - destruct (extract (GStruct T fs)) as [props|] eqn:X; try discriminate.
    destruct (field_name props k) as [fn|] eqn:F; try discriminate.
    destruct (field_by_name (GStruct T fs) fn) as [[path [fi y]]|] eqn:B; try discriminate.
    intros [= <- ->] H HE. apply field_by_name_path in B. eapply noind_set_path; [exact N|apply B|exact H].
Qed.

Lemma get_prop_noind v k i x : noind v -> get_prop (RV false v) k = Some (RV i x) -> noind x.
Proof.
  intros N. destruct v; cbn [get_prop]; try discriminate.
  - destruct kk; try discriminate; destruct m as [m|]; try discriminate;
    destruct (sget k m) eqn:S; try discriminate; intros [= -> ->];
    (inversion N as [|? ? ? ? ? Hm Hq| | |? Hm]; subst; [|destruct Hm]); apply sget_in in S; eauto.
  - destruct (extract (GStruct T fs)) as [props|] eqn:X; try discriminate.
    destruct (field_name props k) as [fn|] eqn:F; try discriminate.
    destruct (field_by_name (GStruct T fs) fn) as [[path [fi y]]|] eqn:B; try discriminate.
    intros [= <- ->]. apply field_by_name_path in B. eapply noind_get_path; [eauto|]. apply B.
Qed.

(** split a value into the part getProp works on *)
Lemma deref_cases v : noind v ->
  (exists T a x, v = GPtr T a (Some (false, x)) /\ is_ptr x = false /\ noind x /\ deref1 v = RV false x) \/
  (is_ptr v = false /\ (v = GNil \/ deref1 v = RV false v)) \/ (exists T a, v = GPtr T a None).
Proof.
  intros N. destruct v; try (right; left; split; [reflexivity|right; reflexivity]).
  - right; left. split; auto.
  - inversion N as [| |? ? x Hp Hx| |? Hl]; subst.
    + left. exists T, addr, x. auto.
    + destruct p; [destruct Hl|]. right. right. eauto.
Qed.

Lemma m_set_valid tp m x m' : m_set tp m x = inl m' -> m_valid m' = true.
Proof.
  destruct m; cbn; destruct x; try discriminate;
    repeat match goal with |- context[if ?b then _ else _] => destruct b end; try discriminate;
    repeat match goal with |- context[match ?b with inl _ => _ | inr _ => _ end] => destruct b end; try discriminate;
    intros [= <-]; reflexivity.
Qed.

Lemma coerce_cases d m : coerce d false (GMaybe m) = d \/ coerce d false (GMaybe m) = to_int64 d \/
  coerce d false (GMaybe m) = to_float64 d.
Proof. destruct m; cbn; auto; left; destruct d; reflexivity. Qed.

(** a default value: no double indirection inside, and not itself a Maybe *)
Definition plain (d : gval) : Prop := noind d /\ is_maybe (RV false d) = false.

Lemma sset_ext (D : gval -> Prop) T kk i ET m k d : sget k m = None -> D d ->
  ext D (GMap T kk i ET (Some m)) (GMap T kk i ET (Some (sset k d m))).
Proof.
  intros G H. apply ext_map with (dflt := fun _ => d); auto.
  - intros j Hj. apply sset_keys. auto.
  - intros j y y' Hy Hy'. assert (j <> k) by congruence. rewrite sget_sset_other in Hy' by auto.
    assert (y' = y) by congruence. subst. constructor.
  - intros j y' Hy Hy'. destruct (String.eqb_spec j k) as [->|Nk].
    + rewrite sget_sset_same in Hy'. injection Hy' as ->. constructor.
    + rewrite sget_sset_other in Hy' by auto. congruence.
Qed.

Lemma set_struct_ext (D : gval -> Prop) E addr v k d v' pv :
  match v with GStruct _ _ | GMaybe _ | GTime _ => True | _ => False end ->
  noind v -> plain d -> D d ->
  get_prop (RV false v) k = Some pv -> look_prop pv = LMissing ->
  set_target E addr v k d = GOk v' -> noind v' /\ is_ptr v' = false /\ ext D v v'.
Proof.
  intros Hv N Pd Dd.
  assert (HG : get_prop (RV false v) k =
    match extract v with
    | None => None
    | Some props =>
        match field_name props k with
        | None => Some RZero
        | Some fn =>
            match field_by_name v fn with
            | None => Some RZero
            | Some (_, (fi, x)) => Some (RV (f_iface fi) x)
            end
        end
    end) by (destruct v; try contradiction; reflexivity).
  rewrite HG.
  destruct (extract v) as [props|] eqn:X; [|discriminate].
  destruct (field_name props k) as [fn|] eqn:F;
    [|intros _ _ S; exfalso; destruct v; try contradiction; cbn [set_target] in S; rewrite X, F in S; discriminate].
  destruct (field_by_name v fn) as [[path [fi f]]|] eqn:B;
    [|intros _ _ S; exfalso; destruct v; try contradiction; cbn [set_target] in S; rewrite X, F, B in S; discriminate].
  intros [= <-] L S.
  assert (IM : is_maybe (RV (f_iface fi) f) = true).
  { cbn [look_prop] in L. destruct (is_maybe (RV (f_iface fi) f)); [auto|discriminate]. }
  assert (exists m, maybe_of (RV (f_iface fi) f) = Some m /\ m_valid m = false) as (m & MO & MV).
  { cbn [look_prop] in L. rewrite IM in L. destruct (maybe_of _) as [m|]; [|discriminate].
    exists m. split; auto. destruct (m_valid m); [discriminate|auto]. }
  pose proof (field_by_name_path _ _ _ _ _ B) as (GP & _ & NE).
  assert (HS : set_target E addr v k d =
     match d with
     | GNil => GPanic "reflect: Type of zero Value"
     | _ => let dv := coerce d (f_iface fi) f in
        match f with
        | GMaybe m => if addr then match m_set (e_time E) m dv with
                              | inl m' => GOk (set_path path (GMaybe m') v) | inr e => GErr e end
                      else GPanic "reflect: Set using unaddressable value"
        | GPtr T a (Some (i, GMaybe m)) =>
                      match m_set (e_time E) m dv with
                      | inl m' => GOk (set_path path (GPtr T a (Some (i, GMaybe m'))) v) | inr e => GErr e end
        | _ => GPanic "nil Maybe"
        end
     end).
  { destruct v; try contradiction; cbn [set_target]; rewrite X, F, B, IM; reflexivity. }
  rewrite HS in S. clear HS HG.
  destruct (f_iface fi) eqn:FI; [cbn in IM; discriminate|].
  assert (Z : exists f', v' = set_path path f' v /\ ext D f f' /\ noind f').
  { assert (NF : noind f) by (eapply noind_get_path; eauto).
    destruct f; cbn in IM, MO; try discriminate.
    - (* a pointer to a Maybe *)
      destruct p as [[i [| | | | | | | | | |mm| |]]|]; try discriminate;
        try (destruct i; discriminate); destruct i; [discriminate|]. rewrite IM in MO.
      injection MO as ->.
      assert (CC : coerce d false (GPtr T addr0 (Some (false, GMaybe m))) = d) by (destruct d; reflexivity).
      assert (S' : match m_set (e_time E) m d with
                   | inl m' => GOk (set_path path (GPtr T addr0 (Some (false, GMaybe m'))) v) | inr e => GErr e end = GOk v')
        by (rewrite <- CC; destruct d; try discriminate; exact S).
      destruct (m_set (e_time E) m d) as [m'|] eqn:MS; [|discriminate].
      injection S' as <-. eexists; split; [reflexivity|]. split.
      + constructor. apply ext_maybe with (d := d) (tp := e_time E); eauto using m_set_valid.
      + constructor; [reflexivity|now constructor].
    - injection MO as ->.
      destruct addr; [|destruct d; discriminate].
      assert (S' : match m_set (e_time E) m (coerce d false (GMaybe m)) with
                   | inl m' => GOk (set_path path (GMaybe m') v) | inr e => GErr e end = GOk v')
        by (destruct d; try discriminate; exact S).
      destruct (m_set (e_time E) m (coerce d false (GMaybe m))) as [m'|] eqn:MS; [|discriminate].
      injection S' as <-. eexists; split; [reflexivity|]. split; [|now constructor].
      apply ext_maybe with (d := d) (tp := e_time E); eauto using m_set_valid.
      destruct (coerce_cases d m) as [Ec|[Ec|Ec]]; rewrite Ec in MS; auto. }
  destruct Z as (f' & -> & HE & NF').
  split; [eapply noind_set_path; eauto|]. split; [|eapply ext_set_path; eauto].
  destruct path as [|i p]; [congruence|]. destruct v; try contradiction; reflexivity.
Qed.

(** inserting a default into a map or struct that lacks the property *)
Lemma set_target_ext (D : gval -> Prop) E addr v k d v' pv :
  noind v -> is_ptr v = false -> plain d -> D d ->
  get_prop (RV false v) k = Some pv -> look_prop pv = LMissing ->
  set_target E addr v k d = GOk v' -> noind v' /\ is_ptr v' = false /\ ext D v v'.
Proof.
  intros N IP Pd Dd. destruct v; try (intros; eapply set_struct_ext; eauto; exact I);
    try (cbn [get_prop set_target]; discriminate).
  intros G L.
  assert (G' : m = None \/ exists l, m = Some l /\ sget k l = None).
  { destruct m as [m|]; auto. right. exists m. split; auto.
    destruct (sget k m) as [y|] eqn:S; auto. exfalso.
    inversion N as [|? ? ? ? ? Hm Hq| | |? Hm]; subst; [|destruct Hm].
    cbn [get_prop] in G. rewrite S in G.
    apply sget_in in S. apply Hq in S.
    destruct kk; try discriminate; injection G as <-; cbn [look_prop] in L; rewrite S in L; discriminate. }
  cbn [set_target]. destruct G' as [->|(l & -> & S)].
  - destruct kk; try discriminate; destruct d; try (intros [= <-]; repeat split; auto; constructor);
      destruct (_ || _); discriminate.
  - assert (NS : noind (GMap T kk ifc ET (Some (sset k d l)))).
    { inversion N as [|? ? ? ? ? Hm Hq| | |? Hm]; subst; [|destruct Hm]. destruct Pd as [Nd Md].
      constructor; intros j y Hy; apply in_sset in Hy; destruct Hy as [->|Hy]; eauto.
      destruct ifc; [reflexivity|exact Md]. }
    destruct kk; try discriminate; destruct d;
      try (intros [= <-]; rewrite sdel_absent by auto; repeat split; auto; constructor);
      (destruct (_ || _); [|discriminate]); intros [= <-]; (split; [exact NS|]); (split; [reflexivity|]);
      apply sset_ext; auto.
Qed.

Lemma set_prop_ext (D : gval -> Prop) E v k d v' pv :
  noind v -> plain d -> D d ->
  get_prop (deref1 v) k = Some pv -> look_prop pv = LMissing ->
  set_prop E v k d = GOk v' -> noind v' /\ ext D v v'.
Proof.
  intros N Pd Dd G L S.
  destruct (deref_cases v N) as [(T & a & x & -> & Px & Nx & Dx)|[(Pv & [->|Dv])|(T & a & ->)]].
  - rewrite Dx in G.
    assert (S' : gmapres (fun x' => GPtr T a (Some (false, x'))) (set_target E true x k d) = GOk v')
      by (destruct x; try discriminate; exact S).
    destruct (set_target E true x k d) as [x'| |] eqn:ST; cbn in S'; try discriminate. injection S' as <-.
    destruct (set_target_ext D E true x k d x' pv) as (N' & P' & X'); auto.
    split; constructor; auto.
  - discriminate.
  - rewrite Dv in G.
    assert (S' : set_target E false v k d = GOk v') by (destruct v; try discriminate; exact S).
    destruct (set_target_ext D E false v k d v' pv) as (N' & P' & X'); auto.
  - cbn in S. discriminate.
Qed.

(** ** The theorem *)
Theorem validate_ext E n c v w r v' w' :
  noind v -> (forall d, declared E c d -> plain d) ->
  validate n E c v w = (r, v', w') -> ext (declared E c) v v'.
Proof.
  intros N HD H.
  apply (validate_pres E (fun x => Reach E c x) noind (ext (declared E c))) in H;
    [tauto|..|constructor|exact N]; clear - HD.
  - intros v _. constructor.
  - intros a b d. intros. eapply ext_trans; eauto.
  - intros x y Hx Hy. eapply reach_trans; [exact Hx|]. now apply reach_child.
  - intros v k i x N G. destruct (deref_cases v N) as [(T & a & y & -> & Px & Nx & Dx)|[(Pv & [->|Dv])|(T & a & ->)]].
    + rewrite Dx in G. eapply get_prop_noind; eauto.
    + discriminate.
    + rewrite Dv in G. eapply get_prop_noind; eauto.
    + discriminate.
  - intros v k i x x' N G N' X.
    destruct (deref_cases v N) as [(T & a & y & -> & Px & Nx & Dx)|[(Pv & [->|Dv])|(T & a & ->)]].
    + rewrite Dx in G. cbn [put_prop]. split; constructor.
      * now rewrite is_ptr_put_target.
      * eapply put_target_noind; eauto.
      * eapply put_target_ext; eauto.
    + discriminate.
    + rewrite Dv in G.
      assert (EP : put_prop v k x' = put_target k x' v) by (destruct v; try discriminate; reflexivity).
      rewrite EP. split; [eapply put_target_noind|eapply put_target_ext]; eauto.
    + discriminate.
  - intros o k cc d v v' pv R Hin Hd N G L S.
    assert (declared E c d) by (exists o, k, cc; auto).
    eapply set_prop_ext; eauto.
  - intros T i l N. inversion N as [? ? ? Hl| | | |? Hl]; subst; [|destruct Hl]. apply Forall_forall. auto.
  - intros T i l l' N F. split.
    + constructor. clear N. intros x Hx. induction F as [|a b ? ? [] F IH]; cbn in *; [tauto|].
      destruct Hx; subst; auto.
    + clear N. apply ext_slice; [clear HD; induction F; cbn; congruence|].
      intros j x x' N1 N2. clear HD. revert j N1 N2. induction F as [|a b ? ? [] F IH]; intros [|j] N1 N2; cbn in *; try discriminate.
      * congruence.
      * eauto.
Qed.
