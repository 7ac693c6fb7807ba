(** Exact meaning of the scalar constraints (C18-C26), over extended rationals and
    explicit grammars instead of the float operators and loops of the code. *)
From Verif Require Import Base GoFloat FloatSpec FloatProofs GoValue Maybe Formats HostSpec Constraint StructInfo Validate Fuel Reach Spec SpecSound.
Open Scope Z_scope.

(** ** Specification: numbers *)
Definition multiple_of (m x : xval) : Prop :=
  match m, x with
  | XQ q, XQ p => exists k : Z, (p == inject_Z k * q)%Q
  | XPosInf, XQ p | XNegInf, XQ p => (p == 0)%Q
  | _, _ => False
  end.

Definition above (strict : bool) (lo x : xval) : Prop := if strict then ~ xle x lo else ~ xlt x lo.
Definition below (strict : bool) (hi x : xval) : Prop := if strict then ~ xle hi x else ~ xlt hi x.

(** x satisfies the aspects of a number constraint that are switched on *)
Definition number_meaning (c : numcfg) (x : xval) : Prop :=
  (n_amin c = true -> above (n_xmin c) (fval (n_min c)) x) /\
  (n_amax c = true -> below (n_xmax c) (fval (n_max c)) x) /\
  (n_amul c = true -> xeq (fval (n_mul c)) (XQ 0) \/ multiple_of (fval (n_mul c)) x) /\
  (forall l, n_enum c = Some l -> exists b g, In (GFloat "float64" b g) l /\ xeq (fval g) x).

(** the floats of the configuration are binary64 data, enumerations hold comparable values *)
Definition numcfg_ok (c : numcfg) : Prop :=
  valid64 (n_min c) = true /\ valid64 (n_max c) = true /\ valid64 (n_mul c) = true /\
  (forall l, n_enum c = Some l -> comparables l /\ forall T b g, In (GFloat T b g) l -> valid64 g = true).

(** the number held by a value, looking through one pointer *)
Inductive float_in : gval -> f64 -> Prop :=
| fi_64 T f : float_in (GFloat T false f) f
| fi_32 T f : float_in (GFloat T true f) (f32_to_f64 f)
| fi_ptr T a x f : float_in x f -> (forall T a p, x <> GPtr T a p) -> float_in (GPtr T a (Some (false, x))) f.

Inductive int_in : gval -> Z -> Prop :=
| ii_int T k z : int_in (GInt T k z) z
| ii_uint T k z : int_in (GUint T k z) z
| ii_ptr T a x z : int_in x z -> (forall T a p, x <> GPtr T a p) -> int_in (GPtr T a (Some (false, x))) z.

Inductive string_in : gval -> string -> Prop :=
| si_str T s : string_in (GStr T s) s
| si_ptr T a T' s : string_in (GPtr T a (Some (false, GStr T' s))) s.

(** ** Lemmas *)
Lemma listed_float l f : valid64 f = true -> (forall T b g, In (GFloat T b g) l -> valid64 g = true) ->
  listed l (gfloat f) <-> exists b g, In (GFloat "float64" b g) l /\ xeq (fval g) (fval f).
Proof.
  intros V VL. split.
  - intros (e & Hin & He). destruct e; cbn in He; try discriminate.
    + destruct (String.eqb T "float64"); discriminate.
    + destruct (String.eqb T "float64"); discriminate.
    + destruct (String.eqb T "float64"); discriminate.
    + destruct (String.eqb_spec T "float64") as [->|N]; [|discriminate]. cbn in He. injection He as He.
      exists is32, f0. split; auto. apply feq_spec; eauto.
    + destruct (String.eqb T "float64"); discriminate.
    + destruct (String.eqb T "float64"); discriminate.
    + destruct (String.eqb T "float64"); discriminate.
    + destruct (String.eqb T "float64"); discriminate.
    + destruct (String.eqb T "float64"); [|discriminate]. cbn [negb] in He.
      match type of He with (if ?b then _ else _) = _ => destruct b; discriminate end.
    + destruct m; discriminate.
    + destruct (String.eqb T "float64"); [|discriminate]. cbn [negb] in He. destruct k; discriminate.
  - intros (b & g & Hin & Hx). exists (GFloat "float64" b g). split; auto. cbn.
    f_equal. apply feq_spec; eauto.
Qed.

Lemma mul_zero m : valid64 m = true -> (feq m fzero = true <-> xeq (fval m) (XQ 0)).
Proof. intros V. rewrite (feq_spec m fzero V eq_refl). reflexivity. Qed.

Lemma mul_spec m x : valid64 m = true -> valid64 x = true -> feq m fzero = false ->
  (feq (fmod x m) fzero = true <-> multiple_of (fval m) (fval x)).
Proof.
  intros Vm Vx Nz.
  destruct (fval m) as [| | |q] eqn:Fm.
  - rewrite fmod_undef by auto. cbn. split; [discriminate|tauto].
  - assert (E : fmod x m = match x with S754_nan | S754_infinity _ => S754_nan | _ => x end).
    { destruct m as [|[]| |]; try discriminate. destruct x; reflexivity. }
    rewrite E. destruct x as [|[]| |s mm e]; cbn; try (split; [discriminate|tauto]).
    + split; reflexivity.
    + split; [destruct s; discriminate|]. intros H. pose proof (Qfin_0 s mm e) as [H1 H2].
      destruct s; [destruct H1 as [_ H1]; specialize (H1 eq_refl)|destruct H2 as [_ H2]; specialize (H2 eq_refl)];
      rewrite H in *; now apply Qlt_irrefl in H1 || now apply Qlt_irrefl in H2.
  - assert (E : fmod x m = match x with S754_nan | S754_infinity _ => S754_nan | _ => x end).
    { destruct m as [|[]| |]; try discriminate. destruct x; reflexivity. }
    rewrite E. destruct x as [|[]| |s mm e]; cbn; try (split; [discriminate|tauto]).
    + split; reflexivity.
    + split; [destruct s; discriminate|]. intros H. pose proof (Qfin_0 s mm e) as [H1 H2].
      destruct s; [destruct H1 as [_ H1]; specialize (H1 eq_refl)|destruct H2 as [_ H2]; specialize (H2 eq_refl)];
      rewrite H in *; now apply Qlt_irrefl in H1 || now apply Qlt_irrefl in H2.
  - assert (Hq : ~ (q == 0)%Q).
    { intros Hq. assert (feq m fzero = true) by (apply mul_zero; auto; rewrite Fm; exact Hq). congruence. }
    destruct (fval x) as [| | |p] eqn:Fx.
    + rewrite fmod_undef by auto. cbn. split; [discriminate|tauto].
    + rewrite fmod_undef by auto. cbn. split; [discriminate|tauto].
    + rewrite fmod_undef by auto. cbn. split; [discriminate|tauto].
    + rewrite (fmod_spec x m p q); auto. rewrite Fm, Fx. reflexivity.
Qed.

Lemma bool_false_iff b P : (b = true <-> P) -> (b = false <-> ~ P).
Proof.
  intros [H1 H2]. destruct b; split; intros H.
  - discriminate.
  - exfalso. auto.
  - intros HP. discriminate (H2 HP).
  - reflexivity.
Qed.

Lemma num_ok_meaning c f : numcfg_ok c -> valid64 f = true -> (num_ok c f <-> number_meaning c (fval f)).
Proof.
  intros (V1 & V2 & V3 & V4) V. unfold num_ok, number_meaning.
  assert (B1 : (if n_xmin c then fle f (n_min c) else flt f (n_min c)) = false <-> above (n_xmin c) (fval (n_min c)) (fval f)).
  { unfold above. destruct (n_xmin c); apply bool_false_iff; [now apply fle_spec|now apply flt_spec]. }
  assert (B2 : (if n_xmax c then fle (n_max c) f else flt (n_max c) f) = false <-> below (n_xmax c) (fval (n_max c)) (fval f)).
  { unfold below. destruct (n_xmax c); apply bool_false_iff; [now apply fle_spec|now apply flt_spec]. }
  assert (B3 : feq (n_mul c) fzero = true \/ feq (fmod f (n_mul c)) fzero = true <->
               xeq (fval (n_mul c)) (XQ 0) \/ multiple_of (fval (n_mul c)) (fval f)).
  { rewrite <- mul_zero by auto. destruct (feq (n_mul c) fzero) eqn:Z; [tauto|].
    rewrite mul_spec by auto. tauto. }
  assert (B4 : opt (fun l => listed l (gfloat f)) (n_enum c) <->
               (forall l, n_enum c = Some l -> exists b g, In (GFloat "float64" b g) l /\ xeq (fval g) (fval f))).
  { destruct (n_enum c) as [l|]; cbn.
    - destruct (V4 l eq_refl) as [_ VL]. rewrite (listed_float l f V VL).
      split; [intros H l' [= <-]; exact H|auto].
    - split; [discriminate|auto]. }
  tauto.
Qed.

Lemma enum_comp c : numcfg_ok c -> opt comparables (n_enum c).
Proof. intros (_ & _ & _ & V). destruct (n_enum c) as [l|]; cbn; auto. now apply V. Qed.

Lemma num_check_exact c f : numcfg_ok c -> valid64 f = true ->
  (num_check c f = Pass /\ number_meaning c (fval f)) \/
  ((exists m, num_check c f = Fail m) /\ ~ number_meaning c (fval f)).
Proof.
  intros OK V. pose proof (num_check_spec c f (enum_comp c OK)) as H. pose proof (num_ok_meaning c f OK V) as M.
  destruct (num_check c f); try tauto. right. split; [eauto|tauto].
Qed.

Lemma float_in_deref v f : float_in v f -> exists T i g, deref1 v = RV false (GFloat T i g) /\ f = rv_float i g.
Proof.
  intros H. induction H as [T f|T f|T a x f H IH N].
  - exists T, false, f. auto.
  - exists T, true, f. auto.
  - destruct H; [eexists _, _, _; split; reflexivity..|]. exfalso. eapply N; reflexivity.
Qed.

Lemma deref_float_in v T i g : deref1 v = RV false (GFloat T i g) -> float_in v (rv_float i g).
Proof.
  intros H. destruct v as [| | | |T' i' f'| | | |? ? [[[] x]|]| | | |]; try discriminate.
  - injection H as <- <- <-. destruct i'; constructor.
  - injection H as ->. destruct i; constructor; try constructor; discriminate.
Qed.

Lemma int_in_deref v z : int_in v z -> exists T k, deref1 v = RV false (GInt T k z) \/ exists k', deref1 v = RV false (GUint T k' z).
Proof.
  intros H. induction H as [T k f|T k f|T a x f H IH N].
  - exists T, k. auto.
  - exists T, Kint. right. exists k. auto.
  - destruct H; [exists T0, k; left; reflexivity|exists T0, Kint; right; exists k; reflexivity|]. exfalso. eapply N; reflexivity.
Qed.

(** ** C18, C19 *)
Theorem number_exact n E d c v f w : numcfg_ok c -> float_in v f -> valid64 f = true ->
  (fst (fst (validate (S n) E (CNum d c) v w)) = Pass /\ number_meaning c (fval f)) \/
  ((exists m, fst (fst (validate (S n) E (CNum d c) v w)) = Fail m) /\ ~ number_meaning c (fval f)).
Proof.
  intros OK FI V. cbn [validate fst]. unfold num_validate. destruct (float_in_deref v f FI) as (T & i & g & -> & ->).
  now apply num_check_exact.
Qed.

Theorem number_rejects n E d c v w : (forall f, ~ float_in v f) ->
  exists m, fst (fst (validate (S n) E (CNum d c) v w)) = Fail m.
Proof.
  intros H. cbn [validate fst]. unfold num_validate.
  destruct (deref1 v) as [|[] g] eqn:D; eauto. destruct g; eauto.
  exfalso. eapply H, deref_float_in; eauto.
Qed.

(** ** C20 *)
Lemma num_validate_gfloat c f : num_validate c (gfloat f) = num_check c f.
Proof. reflexivity. Qed.

Lemma feq_comm a b : feq a b = feq b a.
Proof.
  unfold feq, SFeqb. destruct a as [|[]| |[] m e], b as [|[]| |[] m' e']; cbn [SFcompare]; auto;
  rewrite (Z.compare_antisym e e'); destruct (e ?= e'); cbn [CompOpp]; auto;
  change (Pos.compare_cont Eq m' m) with (Pos.compare m' m); change (Pos.compare_cont Eq m m') with (Pos.compare m m');
  rewrite (Pos.compare_antisym m m'); destruct (Pos.compare m m'); reflexivity.
Qed.

Theorem integer_float_exact n E d c v f w : numcfg_ok c -> float_in v f -> valid64 f = true ->
  let whole := fval f = XPosInf \/ fval f = XNegInf \/ integral (fval f) in
  (fst (fst (validate (S n) E (CInt d c) v w)) = Pass /\ whole /\ number_meaning c (fval f)) \/
  ((exists m, fst (fst (validate (S n) E (CInt d c) v w)) = Fail m) /\ ~ (whole /\ number_meaning c (fval f))).
Proof.
  intros OK FI V. cbv zeta. cbn [validate fst]. unfold int_validate. destruct (float_in_deref v f FI) as (T & i & g & -> & ->).
  cbv zeta. rewrite feq_comm. pose proof (ffloor_spec _ V) as FS.
  destruct (feq (rv_float i g) (ffloor (rv_float i g))); cbn [negb].
  - rewrite num_validate_gfloat. destruct (num_check_exact c _ OK V) as [[H1 H2]|[H1 H2]]; tauto.
  - right. split; [eauto|]. intros [H _]. apply FS in H. discriminate.
Qed.

Lemma number_meaning_Z c z : Z.abs z <= 2 ^ 53 -> (number_meaning c (fval (f64_of_Z z)) <-> number_meaning c (xZ z)).
Proof.
  intros B. destruct (f64_of_Z_small z B) as [V X].
  unfold xZ in *. destruct (fval (f64_of_Z z)) as [| | |q]; cbn in X; try tauto.
    assert (L : forall a, xlt (XQ q) a <-> xlt (XQ (inject_Z z)) a) by (intros []; cbn; try tauto; now rewrite X).
    assert (L' : forall a, xlt a (XQ q) <-> xlt a (XQ (inject_Z z))) by (intros []; cbn; try tauto; now rewrite X).
    assert (Q : forall a, xeq a (XQ q) <-> xeq a (XQ (inject_Z z))) by (intros []; cbn; try tauto; now rewrite X).
    assert (Q' : forall a, xeq (XQ q) a <-> xeq (XQ (inject_Z z)) a) by (intros []; cbn; try tauto; now rewrite X).
    assert (MM : forall a, multiple_of a (XQ q) <-> multiple_of a (XQ (inject_Z z))).
    { intros []; cbn; try tauto; try (now rewrite X). split; intros [k Hk]; exists k; [now rewrite <- X|now rewrite X]. }
    unfold number_meaning, above, below, xle. destruct (n_xmin c), (n_xmax c).
    all: setoid_rewrite Q; rewrite ?L, ?L', ?Q', ?MM; tauto.
Qed.

Theorem integer_int_exact n E d c v z w : numcfg_ok c -> int_in v z -> Z.abs z <= 2 ^ 53 ->
  (fst (fst (validate (S n) E (CInt d c) v w)) = Pass /\ number_meaning c (xZ z)) \/
  ((exists m, fst (fst (validate (S n) E (CInt d c) v w)) = Fail m) /\ ~ number_meaning c (xZ z)).
Proof.
  intros OK FI B. destruct (f64_of_Z_small z B) as [V X].
  pose proof (number_meaning_Z c z B) as M.
  assert (R : fst (fst (validate (S n) E (CInt d c) v w)) = num_check c (f64_of_Z z)).
  { cbn [validate fst]. unfold int_validate.
    destruct (int_in_deref v z FI) as (T & k & [->|[k' ->]]); reflexivity. }
  rewrite R, <- M. now apply num_check_exact.
Qed.

Theorem integer_rejects n E d c v w : (forall f, ~ float_in v f) -> (forall z, ~ int_in v z) ->
  exists m, fst (fst (validate (S n) E (CInt d c) v w)) = Fail m.
Proof.
  intros H HI. cbn [validate fst]. unfold int_validate.
  destruct (deref1 v) as [|[] g] eqn:D; eauto.
  assert (IV : forall g, deref1 v = RV false g -> (forall T a p, g <> GPtr T a p) -> v = g \/ exists T a, v = GPtr T a (Some (false, g))).
  { clear. intros g D N. destruct v as [| | | | | | | |? ? [[[] x]|]| | | |]; try discriminate; injection D as <-; auto. right. eauto. }
  destruct g; eauto.
  - exfalso. destruct (IV _ D ltac:(discriminate)) as [->|(T' & a & ->)]; eapply HI; repeat constructor; discriminate.
  - exfalso. destruct (IV _ D ltac:(discriminate)) as [->|(T' & a & ->)]; eapply HI; repeat constructor; discriminate.
  - exfalso. eapply H, deref_float_in; eauto.
Qed.

(** whatever its size, a 64-bit integer inside inclusive bounds is not rejected for them *)
Theorem integer_bounds_complete n E d c v z w : numcfg_ok c -> int_in v z -> Z.abs z <= 2 ^ 64 ->
  n_xmin c = false -> n_xmax c = false -> n_amul c = false -> n_enum c = None ->
  (n_amin c = true -> xle (fval (n_min c)) (xZ z)) -> (n_amax c = true -> xle (xZ z) (fval (n_max c))) ->
  fst (fst (validate (S n) E (CInt d c) v w)) = Pass.
Proof.
  intros OK FI B X1 X2 X3 X4 H1 H2. destruct (f64_of_Z_round z B) as (V & [q Hq] & R).
  assert (RR : fst (fst (validate (S n) E (CInt d c) v w)) = num_check c (f64_of_Z z)).
  { cbn [validate fst]. unfold int_validate.
    destruct (int_in_deref v z FI) as (T & k & [->|[k' ->]]); reflexivity. }
  rewrite RR. destruct (num_check_exact c _ OK V) as [[H _]|[_ H]]; auto. exfalso. apply H. clear H.
  destruct OK as (V1 & V2 & _). unfold number_meaning, above, below. rewrite X1, X2, X3, X4. splits; try discriminate.
  - intros A L. apply H1 in A. apply (R _ V1) in A. destruct A as [A|A]; [eapply xlt_asym; eauto|].
    apply xlt_not_eq in L. apply L. now apply xeq_sym.
  - intros A L. apply H2 in A. apply (R _ V2) in A. destruct A as [A|A]; [eapply xlt_asym; eauto|].
    apply xlt_not_eq in L. apply L. now apply xeq_sym.
Qed.

(** ** C21 Specification: Go's == on interface values, for a scalar left operand *)
Inductive go_equal : gval -> gval -> Prop :=
| ge_nil : go_equal GNil GNil
| ge_bool T b : go_equal (GBool T b) (GBool T b)
| ge_int T k k' z : go_equal (GInt T k z) (GInt T k' z)
| ge_uint T k k' z : go_equal (GUint T k z) (GUint T k' z)
| ge_float T i i' f g : feq f g = true -> go_equal (GFloat T i f) (GFloat T i' g)
| ge_str T s : go_equal (GStr T s) (GStr T s).

Definition scalar_lit (v : gval) : Prop :=
  match v with GNil | GBool _ _ | GInt _ _ _ | GUint _ _ _ | GFloat _ _ _ | GStr _ _ => True | _ => False end.

Lemma ieq_scalar e v : scalar_lit e -> exists b, ieq e v = Some b /\ (b = true <-> go_equal e v).
Proof.
  intros S.
  assert (G : go_equal e v -> ieq e v = Some true).
  { destruct 1; cbn [ieq is_gnil typ uncomparable]; rewrite ?String.eqb_refl; cbn [negb]; rewrite ?Z.eqb_refl, ?String.eqb_refl, ?Bool.eqb_reflx; congruence. }
  assert (H : exists b, ieq e v = Some b /\ (b = true -> go_equal e v)).
  { clear G. destruct e; try contradiction.
    - destruct v; eexists; (split; [reflexivity|]); intros Q; try discriminate Q; constructor.
    - exists (match v with GBool T' b' => String.eqb T T' && Bool.eqb b b' | _ => false end).
      destruct v; cbn [ieq is_gnil typ uncomparable]; try (split; [destruct (String.eqb T _); reflexivity|discriminate]); [split; [reflexivity|discriminate]|].
      destruct (String.eqb_spec T T0) as [->|N]; (split; [reflexivity|]); [|discriminate]. intros Q. apply Bool.eqb_prop in Q as ->. constructor.
    - exists (match v with GInt T' _ z' => String.eqb T T' && (z =? z') | _ => false end).
      destruct v; cbn [ieq is_gnil typ uncomparable]; try (split; [destruct (String.eqb T _); reflexivity|discriminate]); [split; [reflexivity|discriminate]|].
      destruct (String.eqb_spec T T0) as [->|N]; (split; [reflexivity|]); [|discriminate]. intros Q. apply Z.eqb_eq in Q as ->. constructor.
    - exists (match v with GUint T' _ z' => String.eqb T T' && (z =? z') | _ => false end).
      destruct v; cbn [ieq is_gnil typ uncomparable]; try (split; [destruct (String.eqb T _); reflexivity|discriminate]); [split; [reflexivity|discriminate]|].
      destruct (String.eqb_spec T T0) as [->|N]; (split; [reflexivity|]); [|discriminate]. intros Q. apply Z.eqb_eq in Q as ->. constructor.
    - exists (match v with GFloat T' _ z' => String.eqb T T' && feq f z' | _ => false end).
      destruct v; cbn [ieq is_gnil typ uncomparable]; try (split; [destruct (String.eqb T _); reflexivity|discriminate]); [split; [reflexivity|discriminate]|].
      destruct (String.eqb_spec T T0) as [->|N]; (split; [reflexivity|]); [|discriminate]. intros Q. now constructor.
    - exists (match v with GStr T' z' => String.eqb T T' && String.eqb s z' | _ => false end).
      destruct v; cbn [ieq is_gnil typ uncomparable]; try (split; [destruct (String.eqb T _); reflexivity|discriminate]); [split; [reflexivity|discriminate]|].
      destruct (String.eqb_spec T T0) as [->|N]; (split; [reflexivity|]); [|discriminate]. intros Q. apply String.eqb_eq in Q as ->. constructor. }
  destruct H as (b & H & Hb). exists b. split; auto. split; auto. intros H'. specialize (G H'). congruence.
Qed.

Theorem enum_exact n E l v w : Forall scalar_lit l ->
  (fst (fst (validate (S n) E (CEnum l) v w)) = Pass /\ Exists (fun e => go_equal e v) l) \/
  ((exists m, fst (fst (validate (S n) E (CEnum l) v w)) = Fail m) /\ ~ Exists (fun e => go_equal e v) l).
Proof.
  cbn [validate fst]. induction 1 as [|e l He H IH]; cbn [enum_loop].
  - right. split; [eauto|]. inversion 1.
  - destruct (ieq_scalar e v He) as (b & -> & Hb). destruct b.
    + left. split; auto. left. now apply Hb.
    + assert (N : ~ go_equal e v) by (rewrite <- Hb; discriminate).
      destruct IH as [[-> IH]|[IH1 IH2]].
      * left. auto.
      * right. split; auto. inversion 1; auto.
Qed.

(** whatever the value, comparing with listed values of comparable types never panics on
    decoded documents *)
Theorem enum_no_panic n E l v w m : comparables l -> jdoc v ->
  fst (fst (validate (S n) E (CEnum l) v w)) <> Panic m.
Proof.
  intros C J. cbn [validate fst]. pose proof (enum_loop_spec l v C J) as H.
  destruct (enum_loop l v); try discriminate. contradiction.
Qed.

(** ** C22 *)
Definition str_enum_ok (c : strcfg) : Prop := forall l, s_enum c = Some l -> Forall scalar_lit l.

(** what a string constraint means, with == spelled out *)
Definition string_meaning (E : env) (c : strcfg) (s : string) : Prop :=
  (0 <= s_min c -> s_min c <= Z.of_nat (String.length s)) /\
  (0 <= s_max c -> Z.of_nat (String.length s) <= s_max c) /\
  format_ok E (s_fmt c) s /\
  (forall rx, s_rx c = Some rx -> e_rx E rx s = true) /\
  (forall l, s_enum c = Some l -> In (gstr s) l).

Lemma scalar_comparable l : Forall scalar_lit l -> comparables l.
Proof. intros F e He. rewrite Forall_forall in F. specialize (F e He). destruct e; try contradiction; reflexivity. Qed.

Lemma str_ok_meaning E c s : str_enum_ok c -> (str_ok E c s <-> string_meaning E c s).
Proof.
  intros OK. unfold str_ok, string_meaning, within.
  assert (R : opt (fun rx => e_rx E rx s = true) (s_rx c) <-> (forall rx, s_rx c = Some rx -> e_rx E rx s = true)).
  { destruct (s_rx c) as [rx|]; cbn; split; intros; auto; try discriminate. congruence. }
  assert (N : opt (fun l => listed l (gstr s)) (s_enum c) <-> (forall l, s_enum c = Some l -> In (gstr s) l)).
  { destruct (s_enum c) as [l|] eqn:S; cbn; [|split; intros; auto; discriminate].
    specialize (OK l S). rewrite Forall_forall in OK. split.
    - intros (e & He & Q) l' [= <-]. destruct (ieq_scalar e (gstr s) (OK e He)) as (b & Hb & Hg).
      rewrite Q in Hb. injection Hb as <-. destruct Hg as [Hg _]. specialize (Hg eq_refl).
      inversion Hg; subst. exact He.
    - intros H. exists (gstr s). split; [now apply H|]. cbn. now rewrite String.eqb_refl. }
  tauto.
Qed.

Theorem string_exact n E d c v s w : str_enum_ok c -> string_in v s ->
  (fst (fst (validate (S n) E (CStr d c) v w)) = Pass /\ string_meaning E c s) \/
  ((exists m, fst (fst (validate (S n) E (CStr d c) v w)) = Fail m) /\ ~ string_meaning E c s).
Proof.
  intros OK SI. rewrite <- str_ok_meaning by auto. cbn [validate fst].
  assert (R : str_validate E c v = str_check E c s) by (destruct SI; reflexivity). rewrite R.
  assert (CO : opt comparables (s_enum c)).
  { destruct (s_enum c) as [l|] eqn:S; cbn; auto. apply scalar_comparable. auto. }
  pose proof (str_check_spec E c s CO) as H. destruct (str_check E c s); try tauto. right. split; eauto.
Qed.

Theorem string_rejects n E d c v w : (forall s, ~ string_in v s) ->
  exists m, fst (fst (validate (S n) E (CStr d c) v w)) = Fail m.
Proof.
  intros H. cbn [validate fst]. unfold str_validate.
  destruct (deref1 v) as [|[] g] eqn:D; eauto. destruct g; eauto. exfalso.
  destruct v as [| | | | | | | |? ? [[[] x]|]| | | |]; try discriminate; injection D; intros; subst; eapply H; constructor.
Qed.

(** ** C23-C25: a string constraint that only has a format *)
Definition fmt_only (f : string) : strcfg := str_format f new_str.

Lemma fmt_exact n E d f v s w : string_in v s ->
  (fst (fst (validate (S n) E (CStr d (fmt_only f)) v w)) = Pass /\ format_ok E f s) \/
  ((exists m, fst (fst (validate (S n) E (CStr d (fmt_only f)) v w)) = Fail m) /\ ~ format_ok E f s).
Proof.
  intros SI. assert (OK : str_enum_ok (fmt_only f)) by (intros l; discriminate).
  assert (M : string_meaning E (fmt_only f) s <-> format_ok E f s).
  { unfold string_meaning, fmt_only. cbn [s_min s_max s_fmt s_rx s_enum str_format new_str].
    split; [tauto|]. intros F. splits; auto; try discriminate; lia. }
  rewrite <- M. now apply string_exact.
Qed.

Lemma format_hostname E s : format_ok E "hostname" s <-> hostname s.
Proof. unfold format_ok. split; [tauto|]. intros H. splits; auto; discriminate. Qed.
Lemma format_ipv4 E s : format_ok E "ipv4" s <-> over (DIGITS ++ ".") s /\ e_ip E s = true.
Proof. unfold format_ok. split; [tauto|]. intros H. splits; auto; discriminate. Qed.
Lemma format_ipv6 E s : format_ok E "ipv6" s <-> over (DIGITS ++ ":") s /\ e_ip E s = true.
Proof. unfold format_ok. split; [tauto|]. intros H. splits; auto; discriminate. Qed.

Theorem hostname_exact n E d v s w : string_in v s ->
  (fst (fst (validate (S n) E (CStr d (fmt_only "hostname")) v w)) = Pass /\ hostname s) \/
  ((exists m, fst (fst (validate (S n) E (CStr d (fmt_only "hostname")) v w)) = Fail m) /\ ~ hostname s).
Proof. intros SI. rewrite <- (format_hostname E). now apply fmt_exact. Qed.

Theorem ipv4_exact n E d v s w : string_in v s ->
  (fst (fst (validate (S n) E (CStr d (fmt_only "ipv4")) v w)) = Pass /\ over (DIGITS ++ ".") s /\ e_ip E s = true) \/
  ((exists m, fst (fst (validate (S n) E (CStr d (fmt_only "ipv4")) v w)) = Fail m) /\ ~ (over (DIGITS ++ ".") s /\ e_ip E s = true)).
Proof. intros SI. rewrite <- (format_ipv4 E). now apply fmt_exact. Qed.

Theorem ipv4_no_colon n E d v s w : string_in v s -> In ":"%char (chars s) ->
  exists m, fst (fst (validate (S n) E (CStr d (fmt_only "ipv4")) v w)) = Fail m.
Proof.
  intros SI C. destruct (ipv4_exact n E d v s w SI) as [(_ & O & _)|[H _]]; auto.
  specialize (O _ C). apply one_of_bool in O. discriminate.
Qed.

Theorem ipv6_exact n E d v s w : string_in v s ->
  (fst (fst (validate (S n) E (CStr d (fmt_only "ipv6")) v w)) = Pass /\ over (DIGITS ++ ":") s /\ e_ip E s = true) \/
  ((exists m, fst (fst (validate (S n) E (CStr d (fmt_only "ipv6")) v w)) = Fail m) /\ ~ (over (DIGITS ++ ":") s /\ e_ip E s = true)).
Proof. intros SI. rewrite <- (format_ipv6 E). now apply fmt_exact. Qed.

(** every text with a hexadecimal letter or a dot is rejected, valid or not *)
Theorem ipv6_hex_rejected n E d v s w c : string_in v s -> In c (chars s) -> one_of c "abcdefABCDEF." ->
  exists m, fst (fst (validate (S n) E (CStr d (fmt_only "ipv6")) v w)) = Fail m.
Proof.
  intros SI C Hc. destruct (ipv6_exact n E d v s w SI) as [(_ & O & _)|[H _]]; auto.
  specialize (O _ C). exfalso. clear -O Hc.
  unfold one_of in Hc. cbn in Hc. apply one_of_bool in O.
  repeat (destruct Hc as [<-|Hc]; [discriminate|]). destruct Hc.
Qed.

(** ** C26 *)
(** a value that Go would print as nil: the nil interface or a nil of a kind that has one *)
Inductive go_nil : gval -> string -> Prop :=
| gn_iface : go_nil GNil "interface"
| gn_slice T i : go_nil (GSlice T i None) "slice"
| gn_map T k i ET : go_nil (GMap T k i ET None) "map"
| gn_ptr T a : go_nil (GPtr T a None) "ptr"
| gn_other T k id : go_nil (GOther T k true id) (okind_s k).

Theorem null_exact n E v w :
  (fst (fst (validate (S n) E CNull v w)) = Pass /\ exists k, go_nil v k /\ In k ["interface"; "slice"; "map"; "ptr"; "chan"; "func"]%string) \/
  ((exists m, fst (fst (validate (S n) E CNull v w)) = Fail m) /\
   ~ exists k, go_nil v k /\ In k ["interface"; "slice"; "map"; "ptr"; "chan"; "func"]%string).
Proof.
  cbn [validate fst].
  assert (F : null_validate v = Pass \/ (exists m, null_validate v = Fail m)).
  { unfold null_validate. destruct v as [| | | | | |? ? []|? ? ? ? []|? ? []| | | |? [] [] ?]; eauto. }
  destruct F as [F|F]; [left|right]; (split; [exact F|]).
  - unfold null_validate in F. destruct v as [| | | | | |? ? []|? ? ? ? []|? ? []| | | |? [] [] ?]; try discriminate;
      eexists; (split; [constructor|cbn; tauto]).
  - intros (k & G & I). destruct F as [m F]. destruct G; try discriminate. cbn in F.
    destruct k; try discriminate; cbn in I; intuition discriminate.
Qed.

Theorem bool_exact n E d v w :
  (fst (fst (validate (S n) E (CBool d) v w)) = Pass /\ kind (valueOf v) = "bool"%string) \/
  ((exists m, fst (fst (validate (S n) E (CBool d) v w)) = Fail m) /\ kind (valueOf v) <> "bool"%string).
Proof.
  cbn [validate fst]. unfold bool_validate. destruct v; try (right; split; [eauto|discriminate]); auto.
  - right. split; [eauto|]. cbn. destruct k; discriminate.
  - right. split; [eauto|]. cbn. destruct k; discriminate.
  - right. split; [eauto|]. cbn. destruct is32; discriminate.
  - right. split; [eauto|]. cbn. destruct k; discriminate.
Qed.

Theorem empty_accepts n E v w : validate (S n) E CEmpty v w = (Pass, v, w).
Proof. reflexivity. Qed.
