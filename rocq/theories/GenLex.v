(** Lexing what the generator prints: a quoted string reads back as the string, a number as
    its digits. *)
From Coq Require Import DecimalString DecimalZ.
From Verif Require Import Base GoFloat GoValue Formats GoText GoLang.
Open Scope Z_scope.

Lemma sapp_assoc a b c : (a +++ b) +++ c = a +++ b +++ c.
Proof. induction a; cbn; congruence. Qed.
Lemma sapp_nil a : a +++ "" = a.
Proof. induction a; cbn; congruence. Qed.

(** ** Bytes *)
Lemma byte_range c : 0 <= byte c < 256.
Proof.
  unfold byte. pose proof (N_ascii_bounded c). lia.
Qed.
Lemma chr_byte c : chr (byte c) = c.
Proof. unfold chr, byte. rewrite N2Z.id. apply ascii_N_embedding. Qed.
Lemma byte_chr z : 0 <= z < 256 -> byte (chr z) = z.
Proof. intros H. unfold chr, byte. rewrite N_ascii_embedding; lia. Qed.
Lemma ascii_all (P : ascii -> Prop) : (forall z, 0 <= z < 256 -> P (chr z)) -> forall c, P c.
Proof. intros H c. rewrite <- (chr_byte c). apply H, byte_range. Qed.

(** ** run *)
Definition pre (ts : list tok) (r : option (list tok * lst)) : option (list tok * lst) :=
  match r with Some (ts', st) => Some (ts ++ ts', st) | None => None end.

Lemma pre_pre a b r : pre a (pre b r) = pre (a ++ b) r.
Proof. destruct r as [[ts st]|]; cbn; [now rewrite app_assoc|reflexivity]. Qed.
Lemma pre_nil r : pre [] r = r.
Proof. now destruct r as [[ts st]|]. Qed.

Lemma run_cons st c r : run st (String c r) = match step st c with None => None | Some (ts, st') => pre ts (run st' r) end.
Proof. cbn [run]. destruct (step st c) as [[ts st']|]; reflexivity. Qed.
Lemma run_step st c r ts st' : step st c = Some (ts, st') -> run st (String c r) = pre ts (run st' r).
Proof. rewrite run_cons. now intros ->. Qed.
Lemma run_app a : forall st b, run st (a +++ b) = match run st a with None => None | Some (ts, st') => pre ts (run st' b) end.
Proof.
  induction a as [|c a IH]; intros st b.
  - cbn. now rewrite pre_nil.
  - cbn [String.append]. rewrite !run_cons. destruct (step st c) as [[ts st']|]; [|reflexivity].
    rewrite IH. destruct (run st' a) as [[ts2 st2]|]; cbn [pre]; [now rewrite pre_pre|reflexivity].
Qed.

(** ** Runes *)
Fixpoint drop (k : nat) (s : string) : string :=
  match k, s with O, _ => s | S k', String _ r => drop k' r | S _, EmptyString => EmptyString end.
Fixpoint highs (k : nat) (s : string) : Prop :=
  match k, s with O, _ => True | S k', String c r => 128 <= byte c /\ highs k' r | S _, EmptyString => False end.

Lemma land63 b : Z.land b 63 = b mod 64.
Proof. now apply (Z.land_ones b 6). Qed.
Lemma land31 b : Z.land b 31 = b mod 32.
Proof. now apply (Z.land_ones b 5). Qed.
Lemma land15 b : Z.land b 15 = b mod 16.
Proof. now apply (Z.land_ones b 4). Qed.
Lemma land7 b : Z.land b 7 = b mod 8.
Proof. now apply (Z.land_ones b 3). Qed.

Lemma one_byte z c : z = byte c -> one z = String c "".
Proof. intros ->. unfold one. now rewrite chr_byte. Qed.

Ltac bools := repeat match goal with
  | H : (_ && _)%bool = true |- _ => apply andb_true_iff in H as [? ?]
  | H : (_ <=? _) = true |- _ => apply Z.leb_le in H
  | H : (_ <? _) = true |- _ => apply Z.ltb_lt in H
  | H : (_ <? _) = false |- _ => apply Z.ltb_ge in H
  | H : (_ =? _) = true |- _ => apply Z.eqb_eq in H
  | H : (_ =? _) = false |- _ => apply Z.eqb_neq in H
  | H : cont _ _ _ = true |- _ => unfold cont in H
  end.

Definition lead_ok (n : nat) (lo hi b : Z) : Prop :=
  128 <= lo /\ hi <= 191 /\
  match n with
  | 1%nat => 194 <= b <= 223
  | 2%nat => 224 <= b <= 239 /\ (b = 224 -> 160 <= lo) /\ (b = 237 -> hi <= 159)
  | 3%nat => 240 <= b <= 244 /\ (b = 240 -> 144 <= lo) /\ (b = 244 -> hi <= 143)
  | _ => False
  end.
Lemma lead_bounds b n lo hi : lead b = Some (n, lo, hi) -> lead_ok n lo hi b.
Proof.
  unfold lead, lead_ok. intros H.
  repeat match type of H with (if ?x then _ else _) = _ => destruct x eqn:? end; inversion H; subst; bools; lia.
Qed.

Lemma encode2 c0 c1 lo hi : lead_ok 1 lo hi (byte c0) -> lo <= byte c1 <= hi ->
  let rn := Z.land (byte c0) 31 * 64 + Z.land (byte c1) 63 in
  encode_rune rn = String c0 (String c1 "") /\ 128 <= rn < 1114112 /\ (rn < 55296 \/ 57343 < rn).
Proof.
  unfold lead_ok. intros (A & B & C) D. rewrite land31, land63.
  set (b0 := byte c0) in *. set (b1 := byte c1) in *.
  assert (M0 : b0 mod 32 = b0 - 192) by (symmetry; apply Z.mod_unique with 6; lia).
  assert (M1 : b1 mod 64 = b1 - 128) by (symmetry; apply Z.mod_unique with 2; lia).
  rewrite M0, M1. split; [|lia].
  unfold encode_rune.
  assert (E1 : ((b0 - 192) * 64 + (b1 - 128) <? 128) = false) by (apply Z.ltb_ge; lia).
  assert (E2 : ((b0 - 192) * 64 + (b1 - 128) <? 2048) = true) by (apply Z.ltb_lt; lia).
  rewrite E1, E2.
  rewrite (one_byte _ c0), (one_byte _ c1); [reflexivity| |]; fold b0 b1.
  - assert (((b0 - 192) * 64 + (b1 - 128)) mod 64 = b1 - 128) by (symmetry; apply Z.mod_unique with (b0 - 192); lia). lia.
  - assert (((b0 - 192) * 64 + (b1 - 128)) / 64 = b0 - 192) by (symmetry; apply Z.div_unique with (b1 - 128); lia). lia.
Qed.

Lemma encode3 c0 c1 c2 lo hi : lead_ok 2 lo hi (byte c0) -> lo <= byte c1 <= hi -> 128 <= byte c2 <= 191 ->
  let rn := Z.land (byte c0) 15 * 4096 + Z.land (byte c1) 63 * 64 + Z.land (byte c2) 63 in
  encode_rune rn = String c0 (String c1 (String c2 "")) /\ 128 <= rn < 1114112 /\ (rn < 55296 \/ 57343 < rn).
Proof.
  unfold lead_ok. intros (A & B & C) D E. rewrite land15, !land63.
  set (b0 := byte c0) in *. set (b1 := byte c1) in *. set (b2 := byte c2) in *.
  assert (M0 : b0 mod 16 = b0 - 224) by (symmetry; apply Z.mod_unique with 14; lia).
  assert (M1 : b1 mod 64 = b1 - 128) by (symmetry; apply Z.mod_unique with 2; lia).
  assert (M2 : b2 mod 64 = b2 - 128) by (symmetry; apply Z.mod_unique with 2; lia).
  rewrite M0, M1, M2. 
  set (n := (b0 - 224) * 4096 + (b1 - 128) * 64 + (b2 - 128)).
  assert (N : 2048 <= n < 65536) by lia.
  split; [|lia].
  unfold encode_rune.
  assert (E1 : (n <? 128) = false) by (apply Z.ltb_ge; lia).
  assert (E2 : (n <? 2048) = false) by (apply Z.ltb_ge; lia).
  assert (E3 : (n <? 65536) = true) by (apply Z.ltb_lt; lia).
  rewrite E1, E2, E3.
  assert (Q1 : n / 4096 = b0 - 224) by (symmetry; apply Z.div_unique with ((b1 - 128) * 64 + (b2 - 128)); lia).
  assert (Q2 : n / 64 = (b0 - 224) * 64 + (b1 - 128)) by (symmetry; apply Z.div_unique with (b2 - 128); lia).
  assert (Q3 : n mod 64 = b2 - 128) by (symmetry; apply Z.mod_unique with ((b0 - 224) * 64 + (b1 - 128)); lia).
  assert (Q4 : ((b0 - 224) * 64 + (b1 - 128)) mod 64 = b1 - 128) by (symmetry; apply Z.mod_unique with (b0 - 224); lia).
  rewrite Q1, Q2, Q3, Q4.
  rewrite (one_byte _ c0), (one_byte _ c1), (one_byte _ c2); [reflexivity| | |]; fold b0 b1 b2; lia.
Qed.

Lemma encode4 c0 c1 c2 c3 lo hi : lead_ok 3 lo hi (byte c0) -> lo <= byte c1 <= hi -> 128 <= byte c2 <= 191 -> 128 <= byte c3 <= 191 ->
  let rn := Z.land (byte c0) 7 * 262144 + Z.land (byte c1) 63 * 4096 + Z.land (byte c2) 63 * 64 + Z.land (byte c3) 63 in
  encode_rune rn = String c0 (String c1 (String c2 (String c3 ""))) /\ 128 <= rn < 1114112 /\ (rn < 55296 \/ 57343 < rn).
Proof.
  unfold lead_ok. intros (A & B & C) D E F. rewrite land7, !land63.
  set (b0 := byte c0) in *. set (b1 := byte c1) in *. set (b2 := byte c2) in *. set (b3 := byte c3) in *.
  assert (M0 : b0 mod 8 = b0 - 240) by (symmetry; apply Z.mod_unique with 30; lia).
  assert (M1 : b1 mod 64 = b1 - 128) by (symmetry; apply Z.mod_unique with 2; lia).
  assert (M2 : b2 mod 64 = b2 - 128) by (symmetry; apply Z.mod_unique with 2; lia).
  assert (M3 : b3 mod 64 = b3 - 128) by (symmetry; apply Z.mod_unique with 2; lia).
  rewrite M0, M1, M2, M3.
  set (n := (b0 - 240) * 262144 + (b1 - 128) * 4096 + (b2 - 128) * 64 + (b3 - 128)).
  assert (N : 65536 <= n < 1114112) by lia.
  split; [|lia].
  unfold encode_rune.
  assert (E1 : (n <? 128) = false) by (apply Z.ltb_ge; lia).
  assert (E2 : (n <? 2048) = false) by (apply Z.ltb_ge; lia).
  assert (E3 : (n <? 65536) = false) by (apply Z.ltb_ge; lia).
  rewrite E1, E2, E3.
  assert (Q0 : n / 262144 = b0 - 240) by (symmetry; apply Z.div_unique with ((b1 - 128) * 4096 + (b2 - 128) * 64 + (b3 - 128)); lia).
  assert (Q1 : n / 4096 = (b0 - 240) * 64 + (b1 - 128)) by (symmetry; apply Z.div_unique with ((b2 - 128) * 64 + (b3 - 128)); lia).
  assert (Q2 : n / 64 = ((b0 - 240) * 64 + (b1 - 128)) * 64 + (b2 - 128)) by (symmetry; apply Z.div_unique with (b3 - 128); lia).
  assert (Q3 : n mod 64 = b3 - 128) by (symmetry; apply Z.mod_unique with (((b0 - 240) * 64 + (b1 - 128)) * 64 + (b2 - 128)); lia).
  assert (Q4 : ((b0 - 240) * 64 + (b1 - 128)) mod 64 = b1 - 128) by (symmetry; apply Z.mod_unique with (b0 - 240); lia).
  assert (Q5 : (((b0 - 240) * 64 + (b1 - 128)) * 64 + (b2 - 128)) mod 64 = b2 - 128) by (symmetry; apply Z.mod_unique with ((b0 - 240) * 64 + (b1 - 128)); lia).
  rewrite Q0, Q1, Q2, Q3, Q4, Q5.
  rewrite (one_byte _ c0), (one_byte _ c1), (one_byte _ c2), (one_byte _ c3); [reflexivity| | | |]; fold b0 b1 b2 b3; lia.
Qed.

(** decoding then encoding gives the bytes back *)
Lemma decode_encode c r rn k : decode1 c r = (rn, k) -> rn = rune_error /\ k = 0%nat \/
  (encode_rune rn +++ drop k r = String c r /\ 0 <= rn < 1114112 /\ (rn < 55296 \/ 57343 < rn) /\ highs k r /\
   (byte c < 128 -> k = 0%nat /\ rn = byte c) /\ (128 <= byte c -> 128 <= rn)).
Proof.
  pose proof (byte_range c) as R. unfold decode1. destruct (byte c <? 128) eqn:L; bools.
  - intros H; inversion H; subst. right. cbn [drop]. split; [|split; [split|split; [|split; [|split; [split|]]]]].
    + unfold encode_rune. apply Z.ltb_lt in L. rewrite L. rewrite (one_byte _ c) by reflexivity. reflexivity.
    + lia. + lia. + left; lia. + exact I. + auto. + auto. + lia.
  - destruct (lead (byte c)) as [[[n lo] hi]|] eqn:E; [|intros H; inversion H; auto].
    apply lead_bounds in E.
    destruct n as [|[|[|[|n]]]]; try (destruct E as (_ & _ & []); fail).
    + destruct r as [|c1 r]; [intros H; inversion H; auto|].
      destruct (cont lo hi c1) eqn:K; [|intros H; inversion H; auto].
      intros H; inversion H; subst; bools. right.
      destruct (encode2 c c1 lo hi E) as (X & Y & Z0); [lia|]. rewrite X. cbn [drop highs String.append].
      destruct E as (? & ? & ?). repeat split; auto; try lia.
    + destruct r as [|c1 [|c2 r]]; try (intros H; inversion H; auto; fail).
      destruct (cont lo hi c1 && cont 128 191 c2)%bool eqn:K; [|intros H; inversion H; auto].
      intros H; inversion H; subst; bools. right.
      destruct (encode3 c c1 c2 lo hi E) as (X & Y & Z0); [lia|lia|]. rewrite X. cbn [drop highs String.append].
      destruct E as (? & ? & ?). repeat split; auto; try lia.
    + destruct r as [|c1 [|c2 [|c3 r]]]; try (intros H; inversion H; auto; fail).
      destruct (cont lo hi c1 && cont 128 191 c2 && cont 128 191 c3)%bool eqn:K; [|intros H; inversion H; auto].
      intros H; inversion H; subst; bools. right.
      destruct (encode4 c c1 c2 c3 lo hi E) as (X & Y & Z0); [lia|lia|lia|]. rewrite X. cbn [drop highs String.append].
      destruct E as (? & ? & ?). repeat split; auto; try lia.
Qed.

(** ** Escapes *)
Lemma hexval_digit d : 0 <= d < 16 -> hexval (hexdigit d) = Some d.
Proof.
  intros H. unfold hexval, hexdigit. destruct (d <? 10) eqn:L; bools; rewrite byte_chr by lia.
  - assert (A : ((48 <=? 48 + d) && (48 + d <=? 57))%bool = true) by (apply andb_true_iff; rewrite !Z.leb_le; lia).
    rewrite A. f_equal; lia.
  - assert (A : ((48 <=? 87 + d) && (87 + d <=? 57))%bool = false) by (apply andb_false_iff; right; apply Z.leb_gt; lia).
    assert (B : ((97 <=? 87 + d) && (87 + d <=? 102))%bool = true) by (apply andb_true_iff; rewrite !Z.leb_le; lia).
    rewrite A, B. f_equal; lia.
Qed.

Lemma run_hex b rest r : forall n acc v, (0 < n)%nat ->
  let V := 16 ^ Z.of_nat n * v + r mod 16 ^ Z.of_nat n in
  (b = true \/ valid_rune V = true) ->
  run (LHex acc n v b) (hex n r +++ rest) = run (LStr (acc +++ if b then one V else encode_rune V)) rest.
Proof.
  induction n as [|n IH]; intros acc v P V HV; [lia|]. cbn [hex String.append].
  set (d := r / 16 ^ Z.of_nat n mod 16).
  assert (D : 0 <= d < 16) by (apply Z.mod_pos_bound; lia).
  rewrite run_cons. unfold step. rewrite (hexval_digit d D).
  assert (PP : 0 < 16 ^ Z.of_nat n) by (apply Z.pow_pos_nonneg; lia).
  assert (EV : V = 16 ^ Z.of_nat n * (16 * v + d) + r mod 16 ^ Z.of_nat n).
  { unfold V. rewrite Nat2Z.inj_succ, Z.pow_succ_r by lia. rewrite (Z.mul_comm 16), Z.rem_mul_r by lia. fold d. ring. }
  destruct n as [|m].
  - cbn [hex String.append]. assert (E1 : V = 16 * v + d) by (rewrite EV, Z.pow_0_r, Z.mod_1_r; lia). rewrite <- E1.
    destruct b; [now rewrite pre_nil|]. destruct HV as [|HV]; [discriminate|]. now rewrite HV, pre_nil.
  - rewrite pre_nil. rewrite (IH acc (16 * v + d)) by (rewrite <- ?EV; auto; lia). now rewrite <- EV.
Qed.

Lemma run_hex_full acc n r rest b : (0 < n)%nat -> 0 <= r < 16 ^ Z.of_nat n -> b = true \/ valid_rune r = true ->
  run (LHex acc n 0 b) (hex n r +++ rest) = run (LStr (acc +++ if b then one r else encode_rune r)) rest.
Proof.
  intros P R H. pose proof (run_hex b rest r n acc 0 P) as K. cbn zeta in K.
  rewrite Z.mul_0_r, Z.add_0_l, Z.mod_small in K by lia. now apply K.
Qed.

Lemma run_byte_escape acc r rest : 0 <= r < 256 ->
  run (LStr acc) ("\x" +++ hex 2 r +++ rest) = run (LStr (acc +++ one r)) rest.
Proof.
  intros R. change ("\x" +++ hex 2 r +++ rest) with (String "\" (String "x" (hex 2 r +++ rest))).
  rewrite (run_step _ _ _ [] (LEsc acc)) by reflexivity.
  rewrite (run_step _ _ _ [] (LHex acc 2 0 true)) by reflexivity. rewrite !pre_nil.
  apply (run_hex_full acc 2 r rest true); auto; lia.
Qed.

Lemma encode_ascii r : 0 <= r < 128 -> encode_rune r = one r.
Proof. intros H. unfold encode_rune. destruct (r <? 128) eqn:L; bools; auto; lia. Qed.

Lemma run_escape acc r rest : 0 <= r < 1114112 -> (r < 55296 \/ 57343 < r) ->
  run (LStr acc) (escape r +++ rest) = run (LStr (acc +++ encode_rune r)) rest.
Proof.
  intros R S. unfold escape.
  assert (K : forall k z, simple_escape k = Some z -> Ascii.eqb k "x" = false -> Ascii.eqb k "u" = false -> Ascii.eqb k "U" = false ->
    run (LStr acc) (String "\" (String k rest)) = run (LStr (acc +++ one z)) rest).
  { intros k z A B C D. rewrite (run_step _ _ _ [] (LEsc acc)) by reflexivity.
    rewrite (run_step _ _ _ [] (LStr (acc +++ one z))) by (unfold step; now rewrite B, C, D, A). now rewrite !pre_nil. }
  repeat match goal with
  | |- context [if ?a =? ?b then _ else _] => destruct (Z.eqb_spec a b); [subst; apply K; reflexivity|]
  end.
  destruct ((r <? 32) || (r =? 127))%bool eqn:L.
  { rewrite sapp_assoc. rewrite run_byte_escape by (apply orb_true_iff in L as [L|L]; bools; lia).
    rewrite encode_ascii by (apply orb_true_iff in L as [L|L]; bools; lia). reflexivity. }
  assert (VR : valid_rune r = true).
  { unfold valid_rune. destruct S as [S|S].
    - apply Z.ltb_lt in S. now rewrite S.
    - assert (A : ((57343 <? r) && (r <? 1114112))%bool = true) by (apply andb_true_iff; rewrite !Z.ltb_lt; lia).
      rewrite A. apply orb_true_r. }
  destruct (r <? 65536) eqn:M; bools; rewrite sapp_assoc.
  - change ("\u" +++ hex 4 r +++ rest) with (String "\" (String "u" (hex 4 r +++ rest))).
    rewrite (run_step _ _ _ [] (LEsc acc)) by reflexivity.
    rewrite (run_step _ _ _ [] (LHex acc 4 0 false)) by reflexivity. rewrite !pre_nil.
    apply (run_hex_full acc 4 r rest false); auto; lia.
  - change ("\U" +++ hex 8 r +++ rest) with (String "\" (String "U" (hex 8 r +++ rest))).
    rewrite (run_step _ _ _ [] (LEsc acc)) by reflexivity.
    rewrite (run_step _ _ _ [] (LHex acc 8 0 false)) by reflexivity. rewrite !pre_nil.
    apply (run_hex_full acc 8 r rest false); auto; lia.
Qed.

(** ** Quoted strings *)
Lemma eqb_byte c d : Ascii.eqb c d = (byte c =? byte d).
Proof.
  destruct (Ascii.eqb_spec c d) as [->|N]; [symmetry; apply Z.eqb_refl|].
  symmetry. apply Z.eqb_neq. intros H. apply N. rewrite <- (chr_byte c), <- (chr_byte d). now rewrite H.
Qed.

Lemma run_plain acc c rest : byte c <> 34 -> byte c <> 92 -> byte c <> 10 ->
  run (LStr acc) (String c rest) = run (LStr (acc +++ String c "")) rest.
Proof.
  intros A B C. rewrite (run_step _ _ _ [] (LStr (acc +++ String c ""))); [now rewrite pre_nil|].
  unfold step. rewrite !eqb_byte.
  change (byte "034") with 34. change (byte "\") with 92. change (byte newline) with 10.
  apply Z.eqb_neq in A, B, C. now rewrite A, B, C.
Qed.

Lemma run_quote pr s : forall copy skip acc rest, (copy = true -> highs skip s) ->
  run (LStr acc) (quote_from pr copy skip s +++ rest) = run (LStr (acc +++ if copy then s else drop skip s)) rest.
Proof.
  induction s as [|c s IH]; intros copy skip acc rest H; cbn [quote_from].
  - cbn [String.append]. replace (acc +++ (if copy then "" else drop skip "")) with acc; [reflexivity|].
    destruct copy; [now rewrite sapp_nil|]. destruct skip; cbn; now rewrite sapp_nil.
  - destruct skip as [|k].
    2:{ destruct copy.
        - destruct (H eq_refl) as [Hc Hk]. cbn [String.append]. rewrite run_plain by lia.
          rewrite (IH true k) by auto. now rewrite sapp_assoc.
        - now rewrite (IH false k) by discriminate. }
    destruct (decode1 c s) as [rn k] eqn:D. pose proof (byte_range c) as RC.
    assert (G : drop 0 (String c s) = String c s) by reflexivity. rewrite G. replace (if copy then String c s else String c s) with (String c s) by now destruct copy.
    apply decode_encode in D as [(-> & ->)|(EN & RR & SR & HI & LO & HIR)].
    { change ((rune_error =? rune_error) && (0 =? 0)%nat)%bool with true. cbv iota. rewrite !sapp_assoc, run_byte_escape by auto.
      rewrite (IH false 0%nat) by discriminate. rewrite (one_byte _ c) by reflexivity. now rewrite sapp_assoc. }
    destruct ((rn =? rune_error) && Nat.eqb k 0)%bool eqn:ER.
    { rewrite !sapp_assoc, run_byte_escape by auto.
      rewrite (IH false 0%nat) by discriminate. rewrite (one_byte _ c) by reflexivity. now rewrite sapp_assoc. }
    destruct ((rn =? 34) || (rn =? 92))%bool eqn:Q.
    { assert (B : byte c = rn /\ k = 0%nat).
      { destruct (Z.lt_ge_cases (byte c) 128) as [Lt|Ge]; [apply LO in Lt; intuition|].
        apply HIR in Ge. apply orb_true_iff in Q as [Q|Q]; bools; lia. }
      destruct B as [B ->].
      change (("\" +++ String c (quote_from pr false 0 s)) +++ rest) with (String "\" (String c (quote_from pr false 0 s +++ rest))).
      rewrite (run_step _ _ _ [] (LEsc acc)) by reflexivity.
      rewrite (run_step _ _ _ [] (LStr (acc +++ String c ""))).
      2:{ assert (C : c = chr rn) by (rewrite <- B; now rewrite chr_byte).
          apply orb_true_iff in Q as [Q|Q]; bools; subst rn; subst c; reflexivity. }
      rewrite !pre_nil. rewrite (IH false 0%nat) by discriminate. now rewrite sapp_assoc. }
    apply orb_false_iff in Q as [Q1 Q2]. bools.
    destruct (is_print pr rn) eqn:P.
    { cbn [String.append].
      assert (PL : byte c <> 34 /\ byte c <> 92 /\ byte c <> 10).
      { destruct (Z.lt_ge_cases (byte c) 128) as [Lt|Ge]; [|lia].
        destruct (LO Lt) as [_ E]. unfold is_print in P. apply Z.ltb_lt in Lt. rewrite <- E in Lt. rewrite Lt in P. bools. lia. }
      rewrite run_plain by tauto. rewrite (IH true k) by auto. now rewrite sapp_assoc. }
    rewrite sapp_assoc. rewrite run_escape by auto. rewrite (IH false k) by discriminate.
    rewrite sapp_assoc. now rewrite EN.
Qed.

(** what the generated literal denotes is the string *)
Theorem unquote_quote pr s b rest : run (LNone b) (quote pr s +++ rest) = pre [TStr s] (run (LNone true) rest).
Proof.
  unfold quote, dquote, one. change (chr 34) with "034"%char. cbn [String.append]. rewrite !sapp_assoc. cbn [String.append].
  rewrite (run_step _ _ _ [] (LStr "")) by reflexivity. rewrite pre_nil.
  rewrite run_quote by discriminate. cbn [String.append drop].
  now rewrite (run_step _ _ _ [TStr s] (LNone true)) by reflexivity.
Qed.

(** ** Delimited tokens *)
(** what follows a token in generated code *)
Definition delim (k : ascii) : bool := existsb (Ascii.eqb k) [","; ")"; newline; " "]%char.
Definition Lexes (s : string) (ts : list tok) : Prop := forall b k r, delim k = true ->
  run (LNone b) (s +++ String k r) = pre ts (run (LNone true) (String k r)).
Definition LexesC (s : string) (ts : list tok) : Prop := forall b r, run (LNone b) (s +++ r) = pre ts (run (LNone true) r).

Lemma lexes_c s ts : LexesC s ts -> Lexes s ts.
Proof. intros H b k r _. apply H. Qed.

Lemma lexes_str pr s : LexesC (quote pr s) [TStr s].
Proof. intros b r. apply unquote_quote. Qed.

Lemma delim_cases k : delim k = true -> k = ","%char \/ k = ")"%char \/ k = newline \/ k = " "%char.
Proof.
  unfold delim. cbn [existsb]. rewrite !orb_true_iff, !Ascii.eqb_eq. intuition congruence.
Qed.

Fixpoint all_chars (P : ascii -> bool) (s : string) : bool :=
  match s with EmptyString => true | String c r => P c && all_chars P r end.
Lemma all_chars_app P a b : all_chars P (a +++ b) = (all_chars P a && all_chars P b)%bool.
Proof. induction a; cbn; [reflexivity|]. now rewrite IHa, andb_assoc. Qed.
Lemma all_chars_imp (P Q : ascii -> bool) s : (forall c, P c = true -> Q c = true) -> all_chars P s = true -> all_chars Q s = true.
Proof. intros H. induction s; cbn; auto. rewrite !andb_true_iff. intuition. Qed.

Definition num_char (c : ascii) : bool := digit c || Ascii.eqb c ".".

Lemma run_num s : forall acc k r, all_chars num_char s = true -> delim k = true ->
  run (LNum acc) (s +++ String k r) = pre [TNum (acc +++ s)] (run (LNone true) (String k r)).
Proof.
  induction s as [|c s IH]; intros acc k r A D; cbn [String.append].
  - rewrite sapp_nil. apply delim_cases in D as [-> | [-> | [-> | ->]]]; rewrite !run_cons; cbn; now rewrite ?pre_pre.
  - cbn in A. apply andb_true_iff in A as [A1 A2]. unfold num_char in A1.
    rewrite (run_step _ _ _ [] (LNum (acc +++ String c ""))) by (unfold step; now rewrite A1).
    rewrite pre_nil, IH by auto. now rewrite sapp_assoc.
Qed.

Lemma run_id s : forall acc k r, all_chars id_char s = true -> keyword (acc +++ s) = false -> delim k = true \/ k = "."%char \/ k = "("%char ->
  run (LId acc) (s +++ String k r) = pre [TId (acc +++ s)] (run (LNone true) (String k r)).
Proof.
  induction s as [|c s IH]; intros acc k r A N D; cbn [String.append].
  - rewrite sapp_nil in *.
    destruct D as [D|[->| ->]]; [apply delim_cases in D as [-> | [-> | [-> | ->]]]|..]; rewrite !run_cons; unfold step; rewrite N; cbn; now rewrite ?pre_pre.
  - cbn in A. apply andb_true_iff in A as [A1 A2].
    rewrite (run_step _ _ _ [] (LId (acc +++ String c ""))) by (unfold step; now rewrite A1).
    rewrite pre_nil, IH; auto; now rewrite sapp_assoc.
Qed.

Lemma char_facts : forall c,
  (digit c = true -> Ascii.eqb c newline = false /\ existsb (Ascii.eqb c) [" "; "009"; "013"]%char = false /\ id_start c = false) /\
  (id_start c = true -> Ascii.eqb c newline = false /\ existsb (Ascii.eqb c) [" "; "009"; "013"]%char = false).
Proof.
  intros [[] [] [] [] [] [] [] []]; vm_compute; split; intros H; try discriminate H; repeat split; reflexivity.
Qed.

Lemma lexes_num c s : digit c = true -> all_chars num_char s = true -> Lexes (String c s) [TNum (String c s)].
Proof.
  intros D A b k r K. cbn [String.append]. destruct (char_facts c) as [F _]. destruct (F D) as (F1 & F2 & F3).
  rewrite (run_step _ _ _ [] (LNum (String c ""))) by (unfold step, fresh; now rewrite F1, F2, F3, D).
  rewrite pre_nil. now rewrite run_num by auto.
Qed.

(** Go identifiers (ASCII) *)
Definition ident (s : string) : bool :=
  match s with String c r => id_start c && all_chars id_char r && negb (keyword s) | EmptyString => false end.

Lemma lexes_id_gen s b k r : ident s = true -> delim k = true \/ k = "."%char \/ k = "("%char ->
  run (LNone b) (s +++ String k r) = pre [TId s] (run (LNone true) (String k r)).
Proof.
  destruct s as [|c s]; [discriminate|]. unfold ident. rewrite !andb_true_iff, negb_true_iff. intros ((A & B) & K) D.
  cbn [String.append]. destruct (char_facts c) as [_ F]. destruct (F A) as (F1 & F2).
  rewrite (run_step _ _ _ [] (LId (String c ""))) by (unfold step, fresh; now rewrite F1, F2, A).
  rewrite pre_nil. now rewrite run_id by auto.
Qed.
Lemma lexes_id s : ident s = true -> Lexes s [TId s].
Proof. intros I b k r D. now apply lexes_id_gen; auto. Qed.

(** ** Decimal numerals *)
Fixpoint foldu (d : Decimal.uint) (acc : Z) : Z :=
  match d with
  | Decimal.Nil => acc
  | Decimal.D0 d => foldu d (10 * acc) | Decimal.D1 d => foldu d (10 * acc + 1) | Decimal.D2 d => foldu d (10 * acc + 2)
  | Decimal.D3 d => foldu d (10 * acc + 3) | Decimal.D4 d => foldu d (10 * acc + 4) | Decimal.D5 d => foldu d (10 * acc + 5)
  | Decimal.D6 d => foldu d (10 * acc + 6) | Decimal.D7 d => foldu d (10 * acc + 7) | Decimal.D8 d => foldu d (10 * acc + 8)
  | Decimal.D9 d => foldu d (10 * acc + 9)
  end.
Lemma foldu_acc d : forall p, Zpos (Pos.of_uint_acc d p) = foldu d (Zpos p).
Proof.
  induction d; intros p; cbn [Pos.of_uint_acc foldu]; auto; rewrite IHd; f_equal; lia.
Qed.
Lemma of_uint_foldu d : Z.of_uint d = foldu d 0.
Proof.
  unfold Z.of_uint. induction d; cbn [Pos.of_uint foldu]; auto; cbn [Z.of_N]; rewrite ?foldu_acc; auto.
Qed.

Lemma digit_chr x : 0 <= x < 10 -> digit (chr (48 + x)) = true.
Proof. intros H. unfold digit, between. rewrite byte_chr by lia. apply andb_true_iff. rewrite !Z.leb_le. lia. Qed.

Lemma uint_string_digits d : all_chars digit (NilEmpty.string_of_uint d) = true.
Proof. induction d; cbn [NilEmpty.string_of_uint all_chars]; auto; now rewrite IHd. Qed.

Definition numeral (s : string) (z : Z) : Prop :=
  (exists c r, s = String c r) /\ all_chars digit s = true /\ option_map Z.of_uint (NilZero.uint_of_string s) = Some z.

Lemma dec_numeral z : 0 <= z -> numeral (dec_Z z) z.
Proof.
  intros H. unfold dec_Z. pose proof (DecimalZ.of_to z) as R.
  assert (N : exists d, Z.to_int z = Decimal.Pos d /\ d <> Decimal.Nil).
  { destruct z as [|p|p]; [exists (Decimal.D0 Decimal.Nil); split; [reflexivity|discriminate]| |lia].
    exists (Pos.to_uint p). split; [reflexivity|]. intros E. cbn in R. unfold Z.of_uint in R. rewrite E in R. discriminate. }
  destruct N as (d & E & N). rewrite E in *. cbn [NilZero.string_of_int]. cbn [Z.of_int] in R. unfold numeral.
  rewrite NilZero.usu by auto. cbn [option_map]. rewrite R. split; [|split; auto].
  - destruct d; [congruence|..]; cbn [NilZero.string_of_uint NilEmpty.string_of_uint]; eauto.
  - destruct d; [congruence|..]; cbn [NilZero.string_of_uint]; apply uint_string_digits.
Qed.

Lemma dec_neg z : z < 0 -> dec_Z z = String "-" (dec_Z (- z)).
Proof. destruct z; try lia. intros _. reflexivity. Qed.

Lemma decs_value n : forall v, exists d, NilEmpty.uint_of_string (decs n v) = Some d /\ forall acc, foldu d acc = acc * 10 ^ Z.of_nat n + v mod 10 ^ Z.of_nat n.
Proof.
  induction n as [|n IH]; intros v; cbn [decs].
  - exists Decimal.Nil. split; [reflexivity|]. intros acc. cbn [foldu]. rewrite Z.pow_0_r, Z.mod_1_r. lia.
  - destruct (IH v) as (d & E & F). cbn [NilEmpty.uint_of_string]. rewrite E.
    set (x := v / 10 ^ Z.of_nat n mod 10). assert (X : 0 <= x < 10) by (apply Z.mod_pos_bound; lia).
    assert (PP : 0 < 10 ^ Z.of_nat n) by (apply Z.pow_pos_nonneg; lia).
    assert (EV : forall acc, (10 * acc + x) * 10 ^ Z.of_nat n + v mod 10 ^ Z.of_nat n = acc * 10 ^ Z.of_nat (S n) + v mod 10 ^ Z.of_nat (S n)).
    { intros acc. rewrite Nat2Z.inj_succ, Z.pow_succ_r by lia. rewrite (Z.mul_comm 10 (10 ^ _)), Z.rem_mul_r by lia. fold x. ring. }
    assert (XC : x = 0 \/ x = 1 \/ x = 2 \/ x = 3 \/ x = 4 \/ x = 5 \/ x = 6 \/ x = 7 \/ x = 8 \/ x = 9) by lia.
    clearbody x.
    repeat (destruct XC as [->|XC]; [eexists; split; [reflexivity|]; intros acc; cbn [foldu]; rewrite F, <- EV; f_equal; f_equal; lia|]).
    subst x. eexists; split; [reflexivity|]; intros acc; cbn [foldu]; rewrite F, <- EV; f_equal; f_equal; lia.
Qed.
Lemma decs_digits n v : all_chars digit (decs n v) = true.
Proof.
  induction n as [|n IH]; cbn [decs all_chars]; auto. rewrite IH, digit_chr; auto. apply Z.mod_pos_bound; lia.
Qed.
Lemma decs_length n v : String.length (decs n v) = n.
Proof. induction n; cbn; auto. Qed.
Lemma decs_numeral n v : (0 < n)%nat -> 0 <= v < 10 ^ Z.of_nat n -> numeral (decs n v) v.
Proof.
  intros P R. destruct n as [|n]; [lia|]. destruct (decs_value (S n) v) as (d & E & F).
  split; [|split].
  - cbn [decs]. eauto.
  - apply decs_digits.
  - unfold NilZero.uint_of_string. destruct (decs (S n) v) eqn:D; [cbn in D; discriminate|].
    rewrite E. cbn [option_map]. rewrite of_uint_foldu, F, Z.mod_small by auto. reflexivity.
Qed.

Lemma numeral_lexes s z : numeral s z -> Lexes s [TNum s].
Proof.
  intros ((c & r & ->) & A & _). cbn in A. apply andb_true_iff in A as [A B].
  apply lexes_num; auto. apply (all_chars_imp digit); auto. intros x H. unfold num_char. now rewrite H.
Qed.
