(** Correctness of the float operations of GoFloat.v against FloatSpec.v. *)
From Coq Require Import QArith Lqa Qpower.
From Verif Require Import Base GoFloat FloatSpec.
Open Scope Z_scope.

Lemma digits2_bounds m :
  2 ^ (Zpos (digits2_pos m) - 1) <= Zpos m < 2 ^ Zpos (digits2_pos m).
Proof.
  induction m as [m IH|m IH|]; cbn [digits2_pos]; [| |cbn; lia];
    rewrite Pos2Z.inj_succ, <- Z.add_1_r, Z.add_simpl_r;
    rewrite Z.pow_add_r by lia; change (2 ^ 1) with 2;
    replace (2 ^ Zpos (digits2_pos m)) with (2 * 2 ^ (Zpos (digits2_pos m) - 1)) in *
      by (rewrite <- Z.pow_succ_r by lia; f_equal; lia); lia.
Qed.

Lemma digits2_unique m d : 0 < d -> 2 ^ (d - 1) <= Zpos m < 2 ^ d -> Zpos (digits2_pos m) = d.
Proof.
  intros Hd [H1 H2]. pose proof (digits2_bounds m) as [H3 H4].
  assert (d - 1 < Zpos (digits2_pos m)).
  { apply (Z.pow_lt_mono_r_iff 2); lia. }
  assert (Zpos (digits2_pos m) - 1 < d).
  { apply (Z.pow_lt_mono_r_iff 2); lia. }
  lia.
Qed.

Lemma digits2_le m d : 0 <= d -> Zpos m < 2 ^ d -> Zpos (digits2_pos m) <= d.
Proof.
  intros Hd H. pose proof (digits2_bounds m) as [H3 H4].
  assert (Zpos (digits2_pos m) - 1 < d) by (apply (Z.pow_lt_mono_r_iff 2); lia). lia.
Qed.

Lemma digits2_mul m n : 0 <= n -> forall p, Zpos p = Zpos m * 2 ^ n ->
  Zpos (digits2_pos p) = Zpos (digits2_pos m) + n.
Proof.
  intros Hn p E. pose proof (digits2_bounds m) as [H3 H4].
  apply digits2_unique; [lia|]. rewrite E.
  replace (Zpos (digits2_pos m) + n - 1) with (Zpos (digits2_pos m) - 1 + n) by lia.
  rewrite !Z.pow_add_r by lia. assert (0 < 2 ^ n) by lia. nia.
Qed.

(** ** Powers of two in Q *)
Lemma Qpow2_pos e : (0 < Qpower 2 e)%Q.
Proof. apply Qpower_0_lt. reflexivity. Qed.

Lemma Qpow2_nonneg n : 0 <= n -> (Qpower 2 n == inject_Z (2 ^ n))%Q.
Proof. intros H. symmetry. apply (Zpower_Qpower 2 n H). Qed.

Lemma Qpow2_split e e0 : e0 <= e ->
  (Qpower 2 e == inject_Z (2 ^ (e - e0)) * Qpower 2 e0)%Q.
Proof.
  intros H. rewrite <- Qpow2_nonneg by lia. rewrite <- Qpower_plus by discriminate.
  replace (e - e0 + e0) with e by lia. reflexivity.
Qed.

Definition szval (s : bool) (m : positive) : Z := if s then Zneg m else Zpos m.

Lemma Qfin_align s m e e0 : e0 <= e ->
  (Qfin s m e == inject_Z (szval s m * 2 ^ (e - e0)) * Qpower 2 e0)%Q.
Proof.
  intros H. unfold Qfin. rewrite (Qpow2_split e e0 H), inject_Z_mult.
  fold (szval s m). ring.
Qed.

Lemma Qscale_lt a b e : (inject_Z a * Qpower 2 e < inject_Z b * Qpower 2 e)%Q <-> a < b.
Proof.
  rewrite Zlt_Qlt. apply Qmult_lt_r, Qpow2_pos.
Qed.

Lemma Qscale_eq a b e : (inject_Z a * Qpower 2 e == inject_Z b * Qpower 2 e)%Q <-> a = b.
Proof.
  split; [|intros ->; reflexivity]. intros H.
  apply Qmult_inj_r in H; [now apply inject_Z_injective|].
  pose proof (Qpow2_pos e) as P. intros E. rewrite E in P. discriminate.
Qed.

Lemma Qfin_lt s1 m1 e1 s2 m2 e2 :
  let e0 := Z.min e1 e2 in
  (Qfin s1 m1 e1 < Qfin s2 m2 e2)%Q <->
  szval s1 m1 * 2 ^ (e1 - e0) < szval s2 m2 * 2 ^ (e2 - e0).
Proof.
  cbv zeta. rewrite (Qfin_align s1 m1 e1 (Z.min e1 e2)), (Qfin_align s2 m2 e2 (Z.min e1 e2)) by lia.
  apply Qscale_lt.
Qed.

Lemma Qfin_eq s1 m1 e1 s2 m2 e2 :
  let e0 := Z.min e1 e2 in
  (Qfin s1 m1 e1 == Qfin s2 m2 e2)%Q <->
  szval s1 m1 * 2 ^ (e1 - e0) = szval s2 m2 * 2 ^ (e2 - e0).
Proof.
  cbv zeta. rewrite (Qfin_align s1 m1 e1 (Z.min e1 e2)), (Qfin_align s2 m2 e2 (Z.min e1 e2)) by lia.
  apply Qscale_eq.
Qed.

Lemma Qfin_0 s m e : (Qfin s m e < 0 <-> s = true)%Q /\ (0 < Qfin s m e <-> s = false)%Q.
Proof.
  unfold Qfin. pose proof (Qpow2_pos e) as P.
  assert (E : (0 == inject_Z 0 * Qpower 2 e)%Q) by ring.
  split; rewrite E, Qscale_lt; destruct s; split; intros; try lia; try discriminate; auto.
Qed.

(** ** Comparison *)
Lemma valid64_inv s m e : valid64 (S754_finite s m e) = true ->
  Zpos (digits2_pos m) <= 53 /\ -1074 <= e <= 971 /\
  (-1074 < e -> Zpos (digits2_pos m) = 53).
Proof.
  unfold valid64, valid_binary, bounded, canonical_mantissa, fexp, emin.
  rewrite andb_true_iff, Z.leb_le. intros [H1 H2]. apply Zeq_bool_eq in H1. lia.
Qed.

Lemma bigger_exponent m1 e1 m2 e2 s1 s2 :
  valid64 (S754_finite s1 m1 e1) = true -> valid64 (S754_finite s2 m2 e2) = true ->
  e1 < e2 -> Zpos m1 * 2 ^ (e1 - Z.min e1 e2) < Zpos m2 * 2 ^ (e2 - Z.min e1 e2).
Proof.
  intros V1%valid64_inv V2%valid64_inv H.
  rewrite Z.min_l by lia. rewrite Z.sub_diag.
  pose proof (digits2_bounds m1) as [_ U1]. pose proof (digits2_bounds m2) as [L2 _].
  assert (Zpos (digits2_pos m2) = 53) by lia. rewrite H0 in L2.
  assert (2 ^ Zpos (digits2_pos m1) <= 2 ^ 53) by (apply Z.pow_le_mono_r; lia).
  assert (2 ^ 1 <= 2 ^ (e2 - e1)) by (apply Z.pow_le_mono_r; lia).
  change (2 ^ (53 - 1)) with 4503599627370496 in L2.
  change (2 ^ 53) with 9007199254740992 in *.
  change (2 ^ 0) with 1. nia.
Qed.

Lemma fcompare_spec a b : valid64 a = true -> valid64 b = true ->
  match SFcompare a b with
  | None => fval a = XNaN \/ fval b = XNaN
  | Some Eq => xeq (fval a) (fval b)
  | Some Lt => xlt (fval a) (fval b)
  | Some Gt => xlt (fval b) (fval a)
  end.
Proof.
  intros Va Vb.
  destruct a as [sa|sa| |sa ma ea], b as [sb|sb| |sb mb eb]; cbn [SFcompare fval];
    try (destruct sa); try (destruct sb); cbn [xlt xeq]; auto; try reflexivity;
    try (apply Qfin_0; reflexivity).
  - (* both negative *)
    destruct (Z.compare_spec ea eb) as [E|E|E].
    + subst. change (Pos.compare_cont Eq ma mb) with (Pos.compare ma mb).
      destruct (Pos.compare_spec ma mb); cbn [CompOpp xlt xeq].
      * subst; reflexivity.
      * rewrite Qfin_lt. cbn [szval]. rewrite Z.min_id, Z.sub_diag. lia.
      * rewrite Qfin_lt. cbn [szval]. rewrite Z.min_id, Z.sub_diag. lia.
    + cbn [xlt]. rewrite Qfin_lt. cbn [szval]. rewrite Z.min_comm.
      pose proof (bigger_exponent _ _ _ _ _ _ Va Vb E). lia.
    + cbn [xlt]. rewrite Qfin_lt. cbn [szval]. rewrite Z.min_comm.
      pose proof (bigger_exponent _ _ _ _ _ _ Vb Va E). lia.
  - rewrite Qfin_lt. cbn [szval]. assert (0 < 2 ^ (ea - Z.min ea eb)) by lia.
    assert (0 < 2 ^ (eb - Z.min ea eb)) by lia. nia.
  - rewrite Qfin_lt. cbn [szval]. rewrite Z.min_comm. assert (0 < 2 ^ (ea - Z.min ea eb)) by lia.
    assert (0 < 2 ^ (eb - Z.min ea eb)) by lia. nia.
  - destruct (Z.compare_spec ea eb) as [E|E|E].
    + subst. change (Pos.compare_cont Eq ma mb) with (Pos.compare ma mb).
      destruct (Pos.compare_spec ma mb); cbn [xlt xeq].
      * subst; reflexivity.
      * rewrite Qfin_lt. cbn [szval]. rewrite Z.min_id, Z.sub_diag. lia.
      * rewrite Qfin_lt. cbn [szval]. rewrite Z.min_id, Z.sub_diag. lia.
    + cbn [xlt]. rewrite Qfin_lt. cbn [szval].
      pose proof (bigger_exponent _ _ _ _ _ _ Va Vb E). lia.
    + cbn [xlt]. rewrite Qfin_lt. cbn [szval].
      pose proof (bigger_exponent _ _ _ _ _ _ Vb Va E). lia.
Qed.

Lemma xlt_not_eq a b : xlt a b -> ~ xeq a b.
Proof. destruct a, b; cbn; auto. intros H E. rewrite E in H. now apply Qlt_irrefl in H. Qed.
Lemma xlt_asym a b : xlt a b -> ~ xlt b a.
Proof. destruct a, b; cbn; auto. intros H E. apply (Qlt_irrefl q). eapply Qlt_trans; eauto. Qed.
Lemma xlt_nan a b : xlt a b -> a <> XNaN /\ b <> XNaN.
Proof. destruct a, b; cbn; intuition congruence. Qed.
Lemma xeq_nan a b : xeq a b -> a <> XNaN /\ b <> XNaN.
Proof. destruct a, b; cbn; intuition congruence. Qed.
Lemma xeq_sym a b : xeq a b -> xeq b a.
Proof. destruct a, b; cbn; auto. intros H; now symmetry. Qed.

Lemma flt_spec a b : valid64 a = true -> valid64 b = true ->
  (flt a b = true <-> xlt (fval a) (fval b)).
Proof.
  intros Va Vb. pose proof (fcompare_spec a b Va Vb) as H. unfold flt, SFltb.
  destruct (SFcompare a b) as [[]|]; split; auto; try discriminate; intros L; exfalso.
  - eapply xlt_not_eq; eauto.
  - eapply xlt_asym; eauto.
  - apply xlt_nan in L. tauto.
Qed.

Lemma feq_spec a b : valid64 a = true -> valid64 b = true ->
  (feq a b = true <-> xeq (fval a) (fval b)).
Proof.
  intros Va Vb. pose proof (fcompare_spec a b Va Vb) as H. unfold feq, SFeqb.
  destruct (SFcompare a b) as [[]|]; split; auto; try discriminate; intros L; exfalso.
  - eapply xlt_not_eq; eauto.
  - eapply xlt_not_eq; eauto using xeq_sym.
  - apply xeq_nan in L. tauto.
Qed.

Lemma fle_spec a b : valid64 a = true -> valid64 b = true ->
  (fle a b = true <-> xle (fval a) (fval b)).
Proof.
  intros Va Vb. pose proof (fcompare_spec a b Va Vb) as H. unfold fle, SFleb, xle.
  destruct (SFcompare a b) as [[]|]; split; auto; try discriminate; intros [L|L]; exfalso.
  - eapply xlt_asym; eauto.
  - eapply xlt_not_eq; eauto using xeq_sym.
  - apply xlt_nan in L. tauto.
  - apply xeq_nan in L. tauto.
Qed.

(** ** Exactness of normalisation for mantissas of at most 53 bits *)
Lemma shr_fexp_exact m e :
  fexp 53 1024 (Zpos (digits2_pos m) + e) = e ->
  shr_fexp 53 1024 (Zpos m) e loc_Exact = ({| shr_m := Zpos m; shr_r := false; shr_s := false |}, e).
Proof.
  intros H. unfold shr_fexp. cbn [Zdigits2 shr_record_of_loc]. rewrite H, Z.sub_diag. reflexivity.
Qed.

Lemma binary_round_aux_exact s m e :
  fexp 53 1024 (Zpos (digits2_pos m) + e) = e -> e <= 971 ->
  binary_round_aux 53 1024 s (Zpos m) e loc_Exact = S754_finite s m e.
Proof.
  intros H He. unfold binary_round_aux. rewrite (shr_fexp_exact m e H).
  cbn [shr_m loc_of_shr_record round_nearest_even]. rewrite (shr_fexp_exact m e H).
  cbn [shr_m]. change (1024 - 53) with 971. rewrite (proj2 (Z.leb_le e 971) He). reflexivity.
Qed.

Lemma shift_pos_mul d m : Zpos (shift_pos d m) = Zpos m * 2 ^ Zpos d.
Proof. rewrite shift_pos_correct. rewrite Z.pow_pos_fold. lia. Qed.

Definition fexp64 (d : Z) : Z := Z.max (d - 53) (-1074).
Lemma fexp64_eq d : fexp 53 1024 d = fexp64 d.
Proof. reflexivity. Qed.

Lemma binary_round_exact s m e :
  Zpos (digits2_pos m) <= 53 -> -1074 <= e -> Zpos (digits2_pos m) + e <= 1024 ->
  exists m' f, binary_round 53 1024 s m e = S754_finite s m' f /\
    Zpos m' = Zpos m * 2 ^ (e - f) /\ f <= e /\
    valid64 (S754_finite s m' f) = true /\ (Qfin s m' f == Qfin s m e)%Q.
Proof.
  intros Hd He Hm. set (d := Zpos (digits2_pos m)) in *.
  set (f := fexp64 (d + e)).
  assert (Hf : f <= e) by (unfold f, fexp64; lia).
  assert (Hf2 : f <= 971) by (unfold f, fexp64; lia).
  assert (K : forall m', Zpos m' = Zpos m * 2 ^ (e - f) ->
     valid64 (S754_finite s m' f) = true /\ (Qfin s m' f == Qfin s m e)%Q /\
     fexp 53 1024 (Zpos (digits2_pos m') + f) = f).
  { intros m' E. pose proof (digits2_mul m (e - f) ltac:(lia) m' E) as D. fold d in D.
    assert (X : fexp 53 1024 (Zpos (digits2_pos m') + f) = f).
    { rewrite D, fexp64_eq. replace (d + (e - f) + f) with (d + e) by lia. reflexivity. }
    split; [|split]; auto.
    - unfold valid64, valid_binary, bounded, canonical_mantissa. rewrite X.
      rewrite Zeq_is_eq_bool in *. rewrite andb_true_iff. split; [|apply Z.leb_le; lia].
      now apply Zeq_is_eq_bool.
    - rewrite (Qfin_align s m e f) by lia. rewrite (Qfin_align s m' f f) by lia.
      rewrite Z.sub_diag. apply Qscale_eq. unfold szval.
      destruct s; cbn [Z.pow]; nia. }
  unfold binary_round, shl_align. fold d. rewrite fexp64_eq. fold f.
  destruct (f - e) as [|p|p] eqn:E; try lia.
  - assert (f = e) by lia.
    destruct (K m) as (V & Q & X); [rewrite H, Z.sub_diag; lia|].
    exists m, f. rewrite <- H in *.
    rewrite binary_round_aux_exact; auto. repeat split; auto; rewrite Z.sub_diag; lia.
  - assert (E' : Zpos (shift_pos p m) = Zpos m * 2 ^ (e - f)).
    { rewrite shift_pos_mul. do 2 f_equal. lia. }
    destruct (K _ E') as (V & Q & X).
    exists (shift_pos p m), f. rewrite binary_round_aux_exact; auto.
Qed.

(** ** Conversion of integers *)
Definition xopp (x : xval) : xval :=
  match x with XNaN => XNaN | XNegInf => XPosInf | XPosInf => XNegInf | XQ q => XQ (- q) end.

Lemma Qfin_int s m : (Qfin s m 0 == inject_Z (szval s m))%Q.
Proof. unfold Qfin. fold (szval s m). change (Qpower 2 0) with 1%Q. ring. Qed.

Lemma f64_of_Z_small z : Z.abs z <= 2 ^ 53 ->
  valid64 (f64_of_Z z) = true /\ xeq (fval (f64_of_Z z)) (xZ z).
Proof.
  intros H.
  destruct (Z.eq_dec (Z.abs z) (2 ^ 53)) as [E|E].
  - assert (z = 2 ^ 53 \/ z = - 2 ^ 53) as [->| ->] by lia; (split; [reflexivity|]);
    vm_compute; reflexivity.
  - assert (K : forall s p, Zpos p < 2 ^ 53 -> valid64 (binary_round 53 1024 s p 0) = true /\
      xeq (fval (binary_round 53 1024 s p 0)) (xZ (szval s p))).
    { intros s p Hp. pose proof (digits2_le p 53 ltac:(lia) Hp).
      destruct (binary_round_exact s p 0) as (m' & f & -> & _ & _ & V & Q); try lia.
      split; [exact V|]. cbn [fval xZ xeq]. rewrite Q, Qfin_int. reflexivity. }
    destruct z as [|p|p]; [split; reflexivity| |].
    + apply (K false p). lia.
    + apply (K true p). lia.
Qed.

Definition shr_inv (m0 k : Z) (x : shr_record) : Prop :=
  shr_m x = m0 / 2 ^ k /\ (orb (shr_r x) (shr_s x) = false <-> m0 mod 2 ^ k = 0).

Lemma shr_1_inv m0 k x : 0 <= m0 -> 0 <= k -> shr_inv m0 k x -> shr_inv m0 (k + 1) (shr_1 x).
Proof.
  intros Hm Hk [H1 H2]. unfold shr_inv.
  assert (P : 0 < 2 ^ k) by lia.
  rewrite Z.pow_add_r by lia. change (2 ^ 1) with 2.
  rewrite <- Z.div_div by lia. rewrite Z.rem_mul_r by lia.
  rewrite <- H1.
  assert (Hnn : 0 <= shr_m x) by (rewrite H1; apply Z.div_pos; lia).
  pose proof (Z.mod_pos_bound m0 (2 ^ k) P) as B.
  destruct x as [m r s]; cbn [shr_m shr_r shr_s shr_1] in *.
  destruct m as [|[p|p|]|p]; cbn [shr_m shr_r shr_s]; try lia.
  - change (0 / 2) with 0. change (0 mod 2) with 0. rewrite Z.mul_0_r, Z.add_0_r.
    cbn [orb]. tauto.
  - rewrite (Pos2Z.inj_xI p).
    replace (2 * Zpos p + 1) with (1 + Zpos p * 2) by lia.
    rewrite Z.div_add, Z.mod_add by lia. change (1 / 2) with 0. change (1 mod 2) with 1.
    split; [lia|]. cbn [orb]. split; [discriminate|]. lia.
  - rewrite (Pos2Z.inj_xO p). rewrite (Z.mul_comm 2 (Zpos p)), Z.div_mul, Z.mod_mul by lia.
    split; [lia|]. cbn [orb]. rewrite Z.mul_0_r, Z.add_0_r. tauto.
  - change (1 / 2) with 0. change (1 mod 2) with 1. split; [reflexivity|].
    cbn [orb]. split; [discriminate|]. lia.
Qed.

Lemma iter_shr_inv m0 n : 0 <= m0 -> forall k x, 0 <= k -> shr_inv m0 k x ->
  shr_inv m0 (k + Zpos n) (SpecFloat.iter_pos shr_1 n x).
Proof.
  intros Hm. induction n as [n IH|n IH|]; intros k x Hk H; cbn [iter_pos].
  - replace (k + Zpos n~1) with ((k + 1) + Zpos n + Zpos n) by lia.
    apply IH; [lia|]. apply IH; [lia|]. now apply shr_1_inv.
  - replace (k + Zpos n~0) with (k + Zpos n + Zpos n) by lia.
    apply IH; [lia|]. now apply IH.
  - now apply shr_1_inv.
Qed.

Lemma shr_inv_0 m : shr_inv m 0 {| shr_m := m; shr_r := false; shr_s := false |}.
Proof. unfold shr_inv. cbn. rewrite Z.div_1_r, Z.mod_1_r. tauto. Qed.

Lemma round_cases q x : shr_m x = q ->
  let k := round_nearest_even (shr_m x) (loc_of_shr_record x) in
  (k = q \/ k = q + 1) /\ (orb (shr_r x) (shr_s x) = false -> k = q).
Proof.
  intros <-. destruct x as [m [] []]; cbn; try destruct (Z.even m); split; auto; discriminate.
Qed.

Lemma shr_pos x e n : 0 < n -> shr x e n = (SpecFloat.iter_pos shr_1 (Z.to_pos n) x, e + n).
Proof. destruct n; try lia; reflexivity. Qed.

(** rounding of an integer that does not fit 53 bits: the neighbours in the grid of
    spacing 2^n, exact on the grid *)
Lemma binary_round_big s m n :
  Zpos (digits2_pos m) = 53 + n -> 0 < n -> n < 900 ->
  exists m' f k, binary_round 53 1024 s m 0 = S754_finite s m' f /\
    valid64 (S754_finite s m' f) = true /\
    (Qfin s m' f == Qfin s k n)%Q /\
    (Zpos k = Zpos m / 2 ^ n \/ Zpos k = Zpos m / 2 ^ n + 1) /\
    (Zpos m mod 2 ^ n = 0 -> Zpos k = Zpos m / 2 ^ n).
Proof.
  intros Hd Hn Hn2. unfold binary_round, shl_align.
  rewrite Z.add_0_r, Z.sub_0_r. rewrite fexp64_eq.
  replace (fexp64 (Zpos (digits2_pos m))) with n by (unfold fexp64; lia).
  replace (match n with Zneg d => (shift_pos d m, n) | _ => (m, 0) end) with (m, 0)
    by (destruct n; try lia; reflexivity).
  set (p := Z.to_pos n). assert (En : Zpos p = n) by (unfold p; lia).
  unfold binary_round_aux, shr_fexp at 1. cbn [Zdigits2 shr_record_of_loc].
  rewrite Z.add_0_r, Z.sub_0_r, fexp64_eq.
  replace (fexp64 (Zpos (digits2_pos m))) with n by (unfold fexp64; lia).
  rewrite shr_pos by lia. fold p.
  pose proof (iter_shr_inv (Zpos m) p ltac:(lia) 0 _ ltac:(lia) (shr_inv_0 (Zpos m))) as [I1 I2].
  rewrite !Z.add_0_l in *. rewrite En in *.
  set (x := SpecFloat.iter_pos shr_1 p _) in *.
  pose proof (round_cases _ x I1) as [R1 R2].
  cbv zeta in R1, R2.
  remember (round_nearest_even (shr_m x) (loc_of_shr_record x)) as k eqn:Hk; clear Hk.
  pose proof (digits2_bounds m) as [L U]. rewrite Hd in L, U.
  set (q := Zpos m / 2 ^ n) in *.
  assert (P : 0 < 2 ^ n) by lia.
  assert (Q1 : 2 ^ 52 <= q).
  { apply Z.div_le_lower_bound; [lia|]. rewrite <- Z.pow_add_r by lia.
    replace (n + 52) with (53 + n - 1) by lia. lia. }
  assert (Q2 : q < 2 ^ 53).
  { apply Z.div_lt_upper_bound; [lia|]. rewrite <- Z.pow_add_r by lia.
    replace (n + 53) with (53 + n) by lia. lia. }
  assert (K : 2 ^ 52 <= k <= 2 ^ 53) by lia.
  assert (Kex : Zpos m mod 2 ^ n = 0 -> k = q) by (intros; apply R2; tauto).
  destruct k as [|k|k]; try (change (2 ^ 52) with 4503599627370496 in *; lia).
  destruct (Z.eq_dec (Zpos k) (2 ^ 53)) as [E|E].
  - assert (k = 9007199254740992%positive) as -> by (change (2 ^ 53) with 9007199254740992 in E; congruence).
    unfold shr_fexp. cbn [Zdigits2 shr_record_of_loc]. rewrite fexp64_eq.
    change (Zpos (digits2_pos 9007199254740992)) with 54.
    replace (fexp64 (54 + n) - n) with 1 by (unfold fexp64; lia).
    cbn [shr SpecFloat.iter_pos shr_1 shr_m]. change (1024 - 53) with 971.
    rewrite (proj2 (Z.leb_le (n + 1) 971)) by lia.
    exists 4503599627370496%positive, (n + 1), 9007199254740992%positive.
    repeat split; auto.
    + unfold valid64, valid_binary, bounded, canonical_mantissa. rewrite fexp64_eq.
      change (Zpos (digits2_pos 4503599627370496)) with 53.
      apply andb_true_iff. split; [|apply Z.leb_le; lia].
      apply Zeq_is_eq_bool. unfold fexp64. lia.
    + rewrite (Qfin_align s 4503599627370496 (n + 1) n) by lia.
      rewrite (Qfin_align s 9007199254740992 n n) by lia. apply Qscale_eq.
      replace (n + 1 - n) with 1 by lia. rewrite Z.sub_diag. destruct s; reflexivity.
  - assert (D : Zpos (digits2_pos k) = 53) by (apply digits2_unique; lia).
    assert (X : fexp 53 1024 (Zpos (digits2_pos k) + n) = n)
      by (rewrite D, fexp64_eq; unfold fexp64; lia).
    rewrite shr_fexp_exact by exact X. cbn [shr_m]. change (1024 - 53) with 971.
    rewrite (proj2 (Z.leb_le n 971)) by lia.
    exists k, n, k. repeat split; auto; try reflexivity.
    unfold valid64, valid_binary, bounded, canonical_mantissa. rewrite X.
    apply andb_true_iff. split; [now apply Zeq_is_eq_bool|apply Z.leb_le; lia].
Qed.

Lemma Qfin_opp m e : (Qfin true m e == - Qfin false m e)%Q.
Proof. unfold Qfin. change (Zneg m) with (- Zpos m). rewrite inject_Z_opp. ring. Qed.

Lemma Qfin_le s1 m1 e1 s2 m2 e2 e0 : e0 <= e1 -> e0 <= e2 ->
  ((Qfin s1 m1 e1 <= Qfin s2 m2 e2)%Q <->
  szval s1 m1 * 2 ^ (e1 - e0) <= szval s2 m2 * 2 ^ (e2 - e0)).
Proof.
  intros H1 H2. rewrite (Qfin_align s1 m1 e1 e0), (Qfin_align s2 m2 e2 e0) by lia.
  rewrite Zle_Qle. apply Qmult_le_r, Qpow2_pos.
Qed.

Lemma big_grid m n mb eb :
  Zpos (digits2_pos m) = 53 + n -> 0 < n -> Zpos (digits2_pos mb) <= 53 -> eb < n ->
  (Qfin false mb eb < Qfin false m 0)%Q /\
  forall k, Zpos m / 2 ^ n <= Zpos k -> (Qfin false mb eb < Qfin false k n)%Q.
Proof.
  intros Hd Hn Hb He.
  pose proof (digits2_bounds m) as [L U]. rewrite Hd in L, U.
  pose proof (digits2_bounds mb) as [_ Ub].
  assert (2 ^ Zpos (digits2_pos mb) <= 2 ^ 53) by (apply Z.pow_le_mono_r; lia).
  assert (B : (Qfin false mb eb < Qfin false (2 ^ Z.to_pos (52 + n)) 0)%Q).
  { rewrite Qfin_lt. cbn [szval]. rewrite Pos2Z.inj_pow, Z2Pos.id by lia.
    destruct (Z.le_gt_cases eb 0).
    - rewrite Z.min_l, Z.sub_diag by lia. rewrite <- Z.pow_add_r by lia.
      assert (2 ^ 53 <= 2 ^ (52 + n + (0 - eb))) by (apply Z.pow_le_mono_r; lia). lia.
    - rewrite Z.min_r, Z.sub_diag, Z.sub_0_r, Z.pow_0_r, Z.mul_1_r by lia.
      assert (2 ^ (53 + eb) <= 2 ^ (52 + n)) by (apply Z.pow_le_mono_r; lia).
      rewrite (Z.pow_add_r 2 53 eb) in * by lia. assert (0 < 2 ^ eb) by lia. nia. }
  split; [|intros k Hk]; eapply Qlt_le_trans; try exact B.
  - rewrite (Qfin_le _ _ _ _ _ _ 0) by lia. cbn [szval]. rewrite Pos2Z.inj_pow, Z2Pos.id by lia.
    replace (53 + n - 1) with (52 + n) in L by lia.
    rewrite !Z.sub_0_r, Z.pow_0_r. lia.
  - rewrite (Qfin_le _ _ _ _ _ _ 0) by lia. cbn [szval]. rewrite Pos2Z.inj_pow, Z2Pos.id by lia.
    rewrite !Z.sub_0_r, Z.pow_0_r, Z.mul_1_r, Z.pow_add_r by lia.
    assert (2 ^ 52 <= Zpos m / 2 ^ n).
    { apply Z.div_le_lower_bound; [lia|]. rewrite <- Z.pow_add_r by lia.
      replace (n + 52) with (53 + n - 1) by lia. lia. }
    assert (0 < 2 ^ n) by lia. nia.
Qed.

Lemma big_lo m n mb eb k :
  Zpos (digits2_pos m) = 53 + n -> 0 < n -> Zpos (digits2_pos mb) <= 53 ->
  Zpos m / 2 ^ n <= Zpos k ->
  (Qfin false mb eb <= Qfin false m 0)%Q -> (Qfin false mb eb <= Qfin false k n)%Q.
Proof.
  intros Hd Hn Hb Hk H. destruct (Z.lt_ge_cases eb n) as [E|E].
  - apply Qlt_le_weak. eapply big_grid; eauto.
  - rewrite (Qfin_le _ _ _ _ _ _ 0) in H by lia. cbn [szval] in H.
    rewrite (Qfin_le _ _ _ _ _ _ n) by lia. cbn [szval].
    rewrite Z.sub_diag, Z.pow_0_r, Z.mul_1_r. rewrite !Z.sub_0_r, Z.pow_0_r, Z.mul_1_r in H.
    etransitivity; [|exact Hk]. apply Z.div_le_lower_bound; [lia|].
    replace (2 ^ eb) with (2 ^ n * 2 ^ (eb - n)) in H by (rewrite <- Z.pow_add_r by lia; f_equal; lia).
    lia.
Qed.

Lemma big_hi m n mb eb k :
  Zpos (digits2_pos m) = 53 + n -> 0 < n -> Zpos (digits2_pos mb) <= 53 ->
  (Zpos k = Zpos m / 2 ^ n \/ Zpos k = Zpos m / 2 ^ n + 1) ->
  (Zpos m mod 2 ^ n = 0 -> Zpos k = Zpos m / 2 ^ n) ->
  (Qfin false m 0 <= Qfin false mb eb)%Q -> (Qfin false k n <= Qfin false mb eb)%Q.
Proof.
  intros Hd Hn Hb Hk Hx H. destruct (Z.lt_ge_cases eb n) as [E|E].
  - exfalso. destruct (big_grid m n mb eb Hd Hn Hb E) as [G _].
    apply (Qlt_irrefl (Qfin false m 0)). eapply Qle_lt_trans; eauto.
  - rewrite (Qfin_le _ _ _ _ _ _ 0) in H by lia. cbn [szval] in H.
    rewrite (Qfin_le _ _ _ _ _ _ n) by lia. cbn [szval].
    rewrite Z.sub_diag, Z.pow_0_r, Z.mul_1_r. rewrite !Z.sub_0_r, Z.pow_0_r, Z.mul_1_r in H.
    replace (2 ^ eb) with (2 ^ n * 2 ^ (eb - n)) in H by (rewrite <- Z.pow_add_r by lia; f_equal; lia).
    pose proof (Z.div_mod (Zpos m) (2 ^ n) ltac:(lia)) as DM.
    pose proof (Z.mod_pos_bound (Zpos m) (2 ^ n) ltac:(lia)) as MB.
    set (q := Zpos m / 2 ^ n) in *. set (r := Zpos m mod 2 ^ n) in *.
    set (B := Zpos mb * 2 ^ (eb - n)).
    assert (2 ^ n * q + r <= 2 ^ n * B) by (unfold B; lia).
    assert (0 < 2 ^ n) by lia.
    destruct (Z.eq_dec r 0); [rewrite Hx by auto; nia|].
    assert (q < B) by nia. lia.
Qed.

Lemma xle_XQ p q : xle (XQ p) (XQ q) <-> (p <= q)%Q.
Proof.
  unfold xle. cbn. rewrite Qle_lteq. tauto.
Qed.

Lemma Qfin_pos m e : (0 < Qfin false m e)%Q.
Proof. now apply Qfin_0. Qed.

(** conversion of a 64-bit integer to float64: valid, and on the same side of (or on)
    every representable bound as the integer itself *)
Lemma f64_of_Z_round z : Z.abs z <= 2 ^ 64 ->
  valid64 (f64_of_Z z) = true /\
  (exists q, fval (f64_of_Z z) = XQ q) /\
  forall b, valid64 b = true ->
    (xle (fval b) (xZ z) -> xle (fval b) (fval (f64_of_Z z))) /\
    (xle (xZ z) (fval b) -> xle (fval (f64_of_Z z)) (fval b)).
Proof.
  intros Hz. destruct (Z.le_gt_cases (Z.abs z) (2 ^ 53)) as [Hs|Hs].
  - destruct (f64_of_Z_small z Hs) as [V E]. split; [exact V|].
    destruct (fval (f64_of_Z z)) as [| | |q] eqn:F; cbn [xeq xZ] in E; try tauto.
    split; [eauto|]. intros b _. unfold xZ.
    destruct (fval b) as [| | |p]; cbn; unfold xle; cbn; auto.
    rewrite E. auto.
  - assert (D : forall m, Zpos m = Z.abs z -> exists n, Zpos (digits2_pos m) = 53 + n /\ 0 < n < 900).
    { intros m E. exists (Zpos (digits2_pos m) - 53). pose proof (digits2_bounds m) as [_ U].
      pose proof (digits2_le m 65 ltac:(lia)).
      assert (53 < Zpos (digits2_pos m)) by (apply (Z.pow_lt_mono_r_iff 2); lia).
      change (2 ^ 65) with (2 * 2 ^ 64) in *. lia. }
    destruct z as [|m|m]; [cbn in Hs; lia| |].
    + destruct (D m eq_refl) as (n & Hd & Hn1 & Hn2).
      destruct (binary_round_big false m n Hd Hn1 Hn2) as (m' & f & k & E & V & Q & K1 & K2).
      unfold f64_of_Z, binary_normalize. rewrite E. split; [exact V|]. cbn [fval].
      split; [eauto|]. intros b Vb.
      change (xZ (Zpos m)) with (XQ (inject_Z (szval false m))).
      destruct b as [sb|[]| |sb mb eb]; cbn [fval]; try (unfold xle; cbn; tauto);
        rewrite ?xle_XQ; rewrite ?Q, <- ?Qfin_int.
      * pose proof (Qfin_pos k n). pose proof (Qfin_pos m 0). split; intros; lra.
      * apply valid64_inv in Vb. destruct sb.
        -- rewrite Qfin_opp. pose proof (Qfin_pos mb eb). pose proof (Qfin_pos k n).
           pose proof (Qfin_pos m 0). split; intros; lra.
        -- split; intros H; [eapply big_lo; eauto; lia|eapply big_hi; eauto; lia].
    + destruct (D m eq_refl) as (n & Hd & Hn1 & Hn2).
      destruct (binary_round_big true m n Hd Hn1 Hn2) as (m' & f & k & E & V & Q & K1 & K2).
      unfold f64_of_Z, binary_normalize. rewrite E. split; [exact V|]. cbn [fval].
      split; [eauto|]. intros b Vb.
      change (xZ (Zneg m)) with (XQ (inject_Z (szval true m))).
      destruct b as [sb|[]| |sb mb eb]; cbn [fval]; try (unfold xle; cbn; tauto);
        rewrite ?xle_XQ; rewrite ?Q, <- ?Qfin_int; rewrite ?Qfin_opp.
      * pose proof (Qfin_pos k n). pose proof (Qfin_pos m 0). split; intros; lra.
      * apply valid64_inv in Vb. destruct sb.
        -- rewrite Qfin_opp. split; intros H.
           ++ enough (Qfin false k n <= Qfin false mb eb)%Q by lra.
              eapply big_hi; eauto; [lia|lra].
           ++ enough (Qfin false mb eb <= Qfin false k n)%Q by lra.
              eapply big_lo; eauto; [lia|lia|lra].
        -- pose proof (Qfin_pos mb eb). pose proof (Qfin_pos k n).
           pose proof (Qfin_pos m 0). split; intros; lra.
Qed.

(** ** math.Floor and integrality *)
Definition integral (x : xval) : Prop := exists z, xeq x (xZ z).

Lemma normalize_exact m e s : Z.abs m < 2 ^ 53 -> -1074 <= e <= 971 ->
  valid64 (binary_normalize 53 1024 m e s) = true /\
  fval (binary_normalize 53 1024 m e s) <> XNaN /\
  xeq (fval (binary_normalize 53 1024 m e s)) (XQ (inject_Z m * Qpower 2 e)).
Proof.
  intros Hm He.
  assert (K : forall s p, Zpos p < 2 ^ 53 -> valid64 (binary_round 53 1024 s p e) = true /\
      fval (binary_round 53 1024 s p e) <> XNaN /\
      xeq (fval (binary_round 53 1024 s p e)) (XQ (Qfin s p e))).
  { intros s' p Hp. pose proof (digits2_le p 53 ltac:(lia) Hp).
    destruct (binary_round_exact s' p e) as (m' & f & -> & _ & _ & V & Q); try lia.
    split; [exact V|]. split; [discriminate|]. exact Q. }
  destruct m as [|p|p]; cbn [binary_normalize].
  - repeat split; discriminate.
  - apply (K false p). lia.
  - apply (K true p). lia.
Qed.

Lemma ffloor_spec f : valid64 f = true ->
  (feq f (ffloor f) = true <-> fval f = XPosInf \/ fval f = XNegInf \/ integral (fval f)).
Proof.
  intros V. destruct f as [s|s| |s m e].
  - cbn. split; [|reflexivity]. intros _. right; right. exists 0. cbn. reflexivity.
  - destruct s; cbn; split; auto.
  - cbn. split; [discriminate|]. intros [H|[H|[z H]]]; try discriminate. destruct H.
  - pose proof (valid64_inv _ _ _ V) as (Hd & He & _). cbn [ffloor fval].
    destruct (Z.leb_spec 0 e) as [E|E].
    + rewrite feq_spec by assumption. cbn [fval xeq]. split; [|reflexivity].
      intros _. right; right. exists (szval s m * 2 ^ e). cbn.
      rewrite (Qfin_align s m e 0) by lia. rewrite Z.sub_0_r. change (Qpower 2 0) with 1%Q. ring.
    + assert (A : (if s then Zneg m else Zpos m) = szval s m) by reflexivity.
      replace (cond_Zopp s (Zpos m)) with (szval s m) by (destruct s; reflexivity).
      set (z := szval s m / 2 ^ (- e)).
      assert (P2 : 2 <= 2 ^ (- e)) by (change 2 with (2 ^ 1) at 1; apply Z.pow_le_mono_r; lia).
      pose proof (digits2_bounds m) as [_ U].
      assert (2 ^ Zpos (digits2_pos m) <= 2 ^ 53) by (apply Z.pow_le_mono_r; lia).
      pose proof (Z.div_mod (szval s m) (2 ^ (- e)) ltac:(lia)) as DM. fold z in DM.
      pose proof (Z.mod_pos_bound (szval s m) (2 ^ (- e)) ltac:(lia)) as MB.
      assert (Hz : Z.abs z < 2 ^ 53) by (unfold szval in *; destruct s; nia).
      destruct (normalize_exact z 0 s Hz ltac:(lia)) as (V2 & _ & X).
      rewrite feq_spec by assumption. cbn [fval].
      remember (fval (binary_normalize 53 1024 z 0 s)) as w eqn:Hw; clear Hw V2.
      destruct w as [| | |w]; cbn [xeq] in X; try tauto. cbn [xeq].
      assert (Xw : (w == inject_Z z)%Q) by (rewrite X; change (Qpower 2 0) with 1%Q; ring).
      rewrite Xw. split.
      * intros H'. right; right. exists z. exact H'.
      * intros [H'|[H'|[z' H']]]; try discriminate. cbn in H'.
        assert (szval s m = z' * 2 ^ (- e)).
        { rewrite (Qfin_align s m e e), Z.sub_diag in H' by lia.
          assert (E1 : (inject_Z z' == inject_Z (z' * 2 ^ (- e)) * Qpower 2 e)%Q).
          { rewrite inject_Z_mult, <- Qpow2_nonneg by lia. rewrite <- Qmult_assoc.
            rewrite <- Qpower_plus by discriminate. replace (- e + e) with 0 by lia.
            change (Qpower 2 0) with 1%Q. ring. }
          rewrite E1 in H'. apply Qscale_eq in H'. lia. }
        rewrite H'. assert (z = z') as ->; [|reflexivity].
        unfold z. rewrite H0. apply Z.div_mul. lia.
Qed.

(** ** math.Mod and divisibility *)
Lemma Qpow2_nz e : ~ (Qpower 2 e == 0)%Q.
Proof. intros E. pose proof (Qpow2_pos e) as P. rewrite E in P. discriminate. Qed.

Lemma fmod_finite sx mx ex sy my ey :
  valid64 (S754_finite sx mx ex) = true -> valid64 (S754_finite sy my ey) = true ->
  (feq (fmod (S754_finite sx mx ex) (S754_finite sy my ey)) fzero = true <->
   exists k : Z, (Qfin sx mx ex == inject_Z k * Qfin sy my ey)%Q).
Proof.
  intros Vx%valid64_inv Vy%valid64_inv. destruct Vx as (Dx & Ex & _), Vy as (Dy & Ey & _).
  cbn [fmod]. set (e := Z.min ex ey).
  set (X := Zpos mx * 2 ^ (ex - e)). set (Y := Zpos my * 2 ^ (ey - e)).
  assert (Px : 0 < 2 ^ (ex - e)) by (apply Z.pow_pos_nonneg; lia).
  assert (Py : 0 < 2 ^ (ey - e)) by (apply Z.pow_pos_nonneg; lia).
  pose proof (Z.mod_pos_bound X Y ltac:(unfold Y; lia)) as MB.
  pose proof (Z.mod_le X Y ltac:(unfold X; lia) ltac:(unfold Y; lia)) as ML.
  assert (Hr : Z.abs (X mod Y) < 2 ^ 53).
  { assert (bound : forall m, Zpos (digits2_pos m) <= 53 -> Zpos m < 2 ^ 53).
    { intros m Hm. pose proof (digits2_bounds m) as [_ U].
      assert (2 ^ Zpos (digits2_pos m) <= 2 ^ 53) by (apply Z.pow_le_mono_r; lia). lia. }
    pose proof (bound mx Dx). pose proof (bound my Dy).
    destruct (Z.le_gt_cases ex ey).
    - assert (X = Zpos mx) by (unfold X, e; rewrite Z.min_l, Z.sub_diag by lia; lia). lia.
    - assert (Y = Zpos my) by (unfold Y, e; rewrite Z.min_r, Z.sub_diag by lia; lia). lia. }
  set (r := X mod Y) in *.
  assert (Hr2 : Z.abs (cond_Zopp sx r) < 2 ^ 53) by (destruct sx; cbn; lia).
  destruct (normalize_exact (cond_Zopp sx r) e sx Hr2 ltac:(lia)) as (V & _ & Q).
  rewrite feq_spec by (assumption || reflexivity).
  remember (fval (binary_normalize 53 1024 (cond_Zopp sx r) e sx)) as w eqn:Hw; clear Hw V.
  destruct w as [| | |w]; cbn [xeq] in Q; try tauto. cbn [fval fzero xeq]. rewrite Q.
  assert (Z0 : (inject_Z (cond_Zopp sx r) * Qpower 2 e == 0)%Q <-> r = 0).
  { assert (E : (0 == inject_Z 0 * Qpower 2 e)%Q) by ring. rewrite E, Qscale_eq.
    destruct sx; cbn; lia. }
  rewrite Z0.
  assert (D : (exists k : Z, (Qfin sx mx ex == inject_Z k * Qfin sy my ey)%Q) <->
              exists k, szval sx mx * 2 ^ (ex - e) = k * (szval sy my * 2 ^ (ey - e))).
  { split; intros [k Hk]; exists k.
    - rewrite (Qfin_align sx mx ex e), (Qfin_align sy my ey e) in Hk by lia.
      apply (Qscale_eq _ _ e). rewrite Hk, !inject_Z_mult. ring.
    - rewrite (Qfin_align sx mx ex e), (Qfin_align sy my ey e) by lia.
      rewrite Hk, !inject_Z_mult. ring. }
  rewrite D. unfold r. split.
  - intros H. apply Z.mod_divide in H; [|unfold Y; lia]. destruct H as [k Hk].
    exists (if sx then if sy then k else - k else if sy then - k else k).
    unfold X, Y in Hk. destruct sx, sy; cbn [szval]; change (Zneg mx) with (- Zpos mx);
      change (Zneg my) with (- Zpos my); nia.
  - intros [k Hk]. apply Z.mod_divide; [unfold Y; lia|].
    exists (if sx then if sy then k else - k else if sy then - k else k).
    unfold X, Y. destruct sx, sy; cbn [szval] in Hk; change (Zneg mx) with (- Zpos mx) in *;
      change (Zneg my) with (- Zpos my) in *; nia.
Qed.

(** x is an exact integer multiple of y *)
Definition xdivides (y x : xval) : Prop :=
  match x, y with XQ p, XQ q => exists k : Z, (p == inject_Z k * q)%Q | _, _ => False end.

Lemma fmod_spec x y p q : valid64 x = true -> valid64 y = true ->
  fval x = XQ p -> fval y = XQ q -> ~ (q == 0)%Q ->
  (feq (fmod x y) fzero = true <-> xdivides (fval y) (fval x)).
Proof.
  intros Vx Vy Fx Fy Hq.
  destruct x as [sx|[]| |sx mx ex], y as [sy|[]| |sy my ey]; cbn [fval] in Fx, Fy; try discriminate;
    try (injection Fy as <-; destruct Hq; reflexivity).
  - cbn [fval xdivides fmod]. split; [|reflexivity]. intros _. exists 0. ring.
  - cbn [fval xdivides]. now apply fmod_finite.
Qed.

Lemma fmod_undef x y : (fval x = XNaN \/ fval x = XPosInf \/ fval x = XNegInf \/ fval y = XNaN) ->
  feq (fmod x y) fzero = false.
Proof.
  destruct x as [sx|[]| |sx mx ex], y as [sy|[]| |sy my ey]; cbn [fval]; intros H;
    try reflexivity; intuition discriminate.
Qed.

(** ** float32 -> float64 *)
Lemma f32_widen f : valid32 f = true ->
  valid64 (f32_to_f64 f) = true /\
  (fval f = fval (f32_to_f64 f) \/ xeq (fval f) (fval (f32_to_f64 f))).
Proof.
  intros V. destruct f as [s|s| |s m e]; try (split; [reflexivity|left; reflexivity]).
  cbn [f32_to_f64].
  unfold valid32, valid_binary, bounded, canonical_mantissa, fexp, emin in V.
  rewrite andb_true_iff, Z.leb_le in V. destruct V as [V1 V2]. apply Zeq_bool_eq in V1.
  pose proof (digits2_bounds m) as [_ U].
  assert (2 ^ Zpos (digits2_pos m) <= 2 ^ 24) by (apply Z.pow_le_mono_r; lia).
  destruct (normalize_exact (cond_Zopp s (Zpos m)) e s) as (A & _ & B);
    [destruct s; cbn [cond_Zopp]; lia|lia|].
  split; [exact A|right].
  apply xeq_sym. cbn [fval]. unfold Qfin. destruct s; exact B.
Qed.

(** ** int64(f) on integral floats *)
Lemma ftrunc_integral u lo hi f z : valid64 f = true -> xeq (fval f) (xZ z) ->
  lo <= z <= hi -> ftrunc u lo hi f = z.
Proof.
  intros V X B. destruct f as [s|[]| |s m e]; cbn [fval xeq xZ] in X; try tauto.
  - apply (inject_Z_injective 0 z) in X. cbn. auto.
  - cbn [ftrunc]. destruct (Z.leb_spec 0 e) as [E|E].
    + rewrite (Qfin_align s m e 0) in X by lia. rewrite Z.sub_0_r in X.
      change (Qpower 2 0) with 1%Q in X. rewrite Qmult_1_r in X. apply (inject_Z_injective _ z) in X.
      replace (cond_Zopp s (Zpos m * 2 ^ e)) with z by (subst z; destruct s; cbn [szval cond_Zopp]; lia).
      destruct (Z.leb_spec lo z), (Z.leb_spec z hi); cbn; lia.
    + assert (H : szval s m = z * 2 ^ (- e)).
      { rewrite (Qfin_align s m e e), Z.sub_diag in X by lia.
        assert (E1 : (inject_Z z == inject_Z (z * 2 ^ (- e)) * Qpower 2 e)%Q).
        { rewrite inject_Z_mult, <- Qpow2_nonneg by lia. rewrite <- Qmult_assoc.
          rewrite <- Qpower_plus by discriminate. replace (- e + e) with 0 by lia.
          change (Qpower 2 0) with 1%Q. ring. }
        rewrite E1 in X. apply Qscale_eq in X. lia. }
      assert (0 < 2 ^ (- e)) by (apply Z.pow_pos_nonneg; lia).
      assert (H2 : Zpos m / 2 ^ (- e) = cond_Zopp s z).
      { destruct s; cbn [szval cond_Zopp] in *.
        - replace (Zpos m) with ((- z) * 2 ^ (- e)) by lia. apply Z.div_mul; lia.
        - rewrite H. apply Z.div_mul; lia. }
      rewrite H2. replace (cond_Zopp s (cond_Zopp s z)) with z by (destruct s; cbn; lia).
      destruct (Z.leb_spec lo z), (Z.leb_spec z hi); cbn; lia.
Qed.
