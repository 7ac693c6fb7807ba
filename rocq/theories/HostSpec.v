(** The "hostname", "ipv4" and "ipv6" formats (C23-C25): grammars written independently
    of string.go and the proof that the code recognises them. *)
From Verif Require Import Base Formats.
Open Scope Z_scope.

(** ** Specification *)
Definition chars (s : string) : list ascii := list_ascii_of_string s.
Definition one_of (c : ascii) (cls : string) : Prop := In c (chars cls).

Definition LETTERS : string := "abcdefghijklmnopqrstuvwxyzABCDEFGHIJKLMNOPQRSTUVWXYZ_".
Definition DIGITS : string := "0123456789".

Definition label_chars (l : string) : Prop := forall c, In c (chars l) -> one_of c (LETTERS ++ DIGITS ++ "-").
Definition starts_dash (l : string) : Prop := exists r, l = String "-" r.
Definition ends_dash (l : string) : Prop := exists r, l = (r ++ "-")%string.

Definition label (l : string) : Prop :=
  (1 <= String.length l <= 63)%nat /\ label_chars l /\ ~ starts_dash l /\ ~ ends_dash l.

Definition has_letter (l : string) : Prop := exists c, In c (chars l) /\ one_of c LETTERS.

(** dot separated labels, optionally one trailing dot *)
Definition hostname (s : string) : Prop :=
  (1 <= String.length s <= 255)%nat /\
  exists ls, ls <> [] /\ (s = String.concat "." ls \/ s = (String.concat "." ls ++ ".")%string) /\
    Forall label ls /\ Exists has_letter ls.

(** a string over a class of bytes *)
Definition over (cls : string) (s : string) : Prop := forall c, In c (chars s) -> one_of c cls.

(** ** Character classes *)
Lemma one_of_bool c cls : one_of c cls <-> existsb (Ascii.eqb c) (chars cls) = true.
Proof.
  unfold one_of. rewrite existsb_exists. split.
  - intros H. exists c. split; auto. apply Ascii.eqb_refl.
  - intros (x & H & X). apply Ascii.eqb_eq in X. now subst.
Qed.
Lemma letter_spec c : letter_ c = true <-> one_of c LETTERS.
Proof.
  rewrite one_of_bool. replace (letter_ c) with (existsb (Ascii.eqb c) (chars LETTERS)); [tauto|].
  destruct c as [[] [] [] [] [] [] [] []]; reflexivity.
Qed.
Lemma digit_spec c : digit c = true <-> one_of c DIGITS.
Proof.
  rewrite one_of_bool. replace (digit c) with (existsb (Ascii.eqb c) (chars DIGITS)); [tauto|].
  destruct c as [[] [] [] [] [] [] [] []]; reflexivity.
Qed.
Lemma dash_spec c : dash c = true <-> c = "-"%char.
Proof. split; [|intros ->; reflexivity]. destruct c as [[] [] [] [] [] [] [] []]; intros H; try discriminate H; reflexivity. Qed.
Lemma dot_spec c : dot c = true <-> c = "."%char.
Proof. split; [|intros ->; reflexivity]. destruct c as [[] [] [] [] [] [] [] []]; intros H; try discriminate H; reflexivity. Qed.

Lemma chars_app a b : chars (a ++ b) = chars a ++ chars b.
Proof. unfold chars. induction a; cbn; congruence. Qed.

Lemma one_of_app c a b : one_of c (a ++ b) <-> one_of c a \/ one_of c b.
Proof. unfold one_of. rewrite chars_app, in_app_iff. tauto. Qed.

Definition lchar (c : ascii) : bool := letter_ c || digit c || dash c.

Lemma lchar_spec c : lchar c = true <-> one_of c (LETTERS ++ DIGITS ++ "-").
Proof.
  unfold lchar. rewrite !one_of_app, !orb_true_iff, letter_spec, digit_spec, dash_spec.
  assert (D : one_of c "-" <-> c = "-"%char) by (unfold one_of; cbn; intuition).
  rewrite D. tauto.
Qed.

Lemma dot_not_lchar c : lchar c = true -> dot c = false.
Proof. destruct c as [[] [] [] [] [] [] [] []]; intros H; try discriminate H; reflexivity. Qed.

(** ** The recogniser *)
(** the state after reading the partial label [cur] *)
Definition lastc (cur : string) : ascii -> Prop := fun last =>
  (cur = ""%string /\ last = "."%char) \/ (exists r, cur = (r ++ String last "")%string).

Definition inv (cur : string) (last : ascii) : Prop :=
  label_chars cur /\ ~ starts_dash cur /\ lastc cur last.

Inductive R : string -> bool -> string -> Prop :=
| R_end cur ok l : label (cur ++ l) -> ok = true \/ has_letter l -> R cur ok l
| R_trail : R "" true ""
| R_dot cur ok l s : label (cur ++ l) -> (forall ok', ok' = true <-> ok = true \/ has_letter l -> R "" ok' s) ->
    R cur ok (l ++ String "." s).

Lemma app_nil_r_s s : (s ++ "")%string = s.
Proof. induction s; cbn; congruence. Qed.
Lemma app_assoc_s a b c : ((a ++ b) ++ c)%string = (a ++ (b ++ c))%string.
Proof. induction a; cbn; congruence. Qed.
Lemma length_app_s a b : String.length (a ++ b) = (String.length a + String.length b)%nat.
Proof. induction a; cbn; congruence. Qed.

Lemma has_letter_cons c l : has_letter (String c l) <-> letter_ c = true \/ has_letter l.
Proof.
  unfold has_letter. rewrite letter_spec. cbn. split.
  - intros (x & [<-|H] & L); eauto.
  - intros [L|(x & H & L)]; eauto.
Qed.

Lemma has_letter_nil : ~ has_letter "".
Proof. intros (c & [] & _). Qed.

(** strings with the same last character *)
Lemma snoc_inj a b x y : (a ++ String x "")%string = (b ++ String y "")%string -> a = b /\ x = y.
Proof.
  revert b. induction a as [|c a IH]; intros [|d b] H; cbn in *; injection H; intros; subst; auto.
  - destruct b; discriminate.
  - destruct a; discriminate.
  - destruct (IH b H0); subst; auto.
Qed.

Lemma ends_dash_last cur last : lastc cur last -> (ends_dash cur <-> last = "-"%char).
Proof.
  intros [[-> ->]|[r ->]]; split.
  - intros [r H]. destruct r; discriminate.
  - discriminate.
  - intros [r' H]. apply snoc_inj in H. tauto.
  - intros ->. now exists r.
Qed.

Lemma label_chars_app a b : label_chars (a ++ b) <-> label_chars a /\ label_chars b.
Proof.
  unfold label_chars. rewrite chars_app. setoid_rewrite in_app_iff. split; [auto|]. intros [H1 H2] c [H|H]; auto.
Qed.

Lemma R_step cur ok c s : lchar c = true -> R (cur ++ String c "") (ok || letter_ c) s -> R cur ok (String c s).
Proof.
  intros Lc H. remember (cur ++ String c "")%string as cur' eqn:Ec. remember (ok || letter_ c) as ok' eqn:Eo.
  destruct H as [cur' ok' l Hl Ho| | cur' ok' l s Hl Hs]; subst.
  - apply R_end; [now rewrite app_assoc_s in Hl|]. rewrite has_letter_cons, orb_true_iff in *. tauto.
  - destruct cur; discriminate.
  - apply (R_dot cur ok (String c l) s); [now rewrite app_assoc_s in Hl|].
    intros ok' Ho. apply Hs. rewrite has_letter_cons, orb_true_iff in *. tauto.
Qed.

Lemma R_unstep cur ok c s : lchar c = true -> R cur ok (String c s) -> R (cur ++ String c "") (ok || letter_ c) s.
Proof.
  intros Lc H. remember (String c s) as t eqn:Et.
  destruct H as [cur ok l Hl Ho| | cur ok l s' Hl Hs]; subst.
  - apply R_end; [now rewrite app_assoc_s|]. rewrite has_letter_cons, orb_true_iff in *. tauto.
  - discriminate.
  - destruct l as [|c' l]; cbn in Et.
    + injection Et as <- <-. discriminate.
    + injection Et as -> <-. apply R_dot; [now rewrite app_assoc_s|].
      intros ok' Ho. apply Hs. rewrite has_letter_cons, orb_true_iff in *. tauto.
Qed.

Lemma R_bad cur ok c s : lchar c = false -> dot c = false -> ~ R cur ok (String c s).
Proof.
  intros Lc Dc H. remember (String c s) as t eqn:Et.
  destruct H as [cur ok l Hl Ho| | cur ok l s' Hl Hs]; subst.
  - destruct Hl as (_ & Hc & _). apply label_chars_app in Hc. destruct Hc as [_ Hc].
    assert (X : lchar c = true) by (apply lchar_spec, Hc; cbn; auto). congruence.
  - discriminate.
  - destruct l as [|c' l]; cbn in Et; injection Et; intros; subst; [discriminate Dc|].
    destruct Hl as (_ & Hc & _). apply label_chars_app in Hc. destruct Hc as [_ Hc].
    assert (X : lchar c = true) by (apply lchar_spec, Hc; cbn; auto). congruence.
Qed.

Lemma R_at_dot cur ok s : R cur ok (String "." s) <-> label cur /\ R "" ok s.
Proof.
  split.
  - intros H. remember (String "." s) as t eqn:Et.
    destruct H as [cur ok l Hl Ho| | cur ok l s' Hl Hs]; subst.
    + destruct Hl as (_ & Hc & _). apply label_chars_app in Hc. destruct Hc as [_ Hc].
      assert (X : lchar "." = true) by (apply lchar_spec, Hc; cbn; auto). discriminate.
    + discriminate.
    + destruct l as [|c' l]; cbn in Et.
      * injection Et as <-. rewrite app_nil_r_s in Hl. split; auto. apply Hs. pose proof has_letter_nil. tauto.
      * injection Et as -> <-. destruct Hl as (_ & Hc & _). apply label_chars_app in Hc. destruct Hc as [_ Hc].
        assert (X : lchar "." = true) by (apply lchar_spec, Hc; cbn; auto). discriminate.
  - intros [Hl Hs]. apply (R_dot cur ok "" s); [now rewrite app_nil_r_s|].
    intros ok' Ho. pose proof has_letter_nil. destruct ok, ok'; auto; exfalso; intuition congruence.
Qed.

Lemma R_start_dash cur ok s : starts_dash cur -> ~ R cur ok s.
Proof.
  intros [r ->] H. remember (String "-" r) as cur eqn:Ec. destruct H as [cur ok l Hl _| |cur ok l s Hl _]; subst; [|discriminate|].
  all: destruct Hl as (_ & _ & Hd & _); apply Hd; cbn; eexists; reflexivity.
Qed.

Lemma dn_loop_spec s : forall cur last ok, inv cur last ->
  dn_loop last ok (Z.of_nat (String.length cur)) s = true <-> R cur ok s.
Proof.
  induction s as [|c s IH]; intros cur last ok (Hc & Hs & Hl).
  - cbn [dn_loop].
    pose proof (ends_dash_last cur last Hl) as ED. rewrite <- dash_spec in ED.
    destruct (dash last) eqn:Dl; cbn [orb].
    + split; [discriminate|]. intros H. inversion H; subst.
      * rewrite app_nil_r_s in *. destruct H0 as (_ & _ & _ & Hd). tauto.
      * destruct ED as [_ ED]. destruct (ED eq_refl) as [r Hr]. destruct r; discriminate.
      * destruct l; discriminate.
    + destruct (63 <? Z.of_nat (String.length cur)) eqn:Hlen.
      * split; [discriminate|]. intros H. inversion H; subst; [|discriminate|destruct l; discriminate].
        rewrite app_nil_r_s in *. destruct H0 as ((_ & Hn) & _). lia.
      * split.
        -- intros ->. destruct cur as [|c cur]; [apply R_trail|].
           apply R_end; auto. rewrite app_nil_r_s. unfold label. apply Z.ltb_ge in Hlen. split; [cbn [String.length] in *; lia|]. split; [exact Hc|]. split; [exact Hs|].
           intros HE. apply ED in HE. discriminate.
        -- intros H. inversion H; subst; auto; [|destruct l; discriminate]. pose proof has_letter_nil. tauto.
  - cbn [dn_loop].
    assert (LC : String.length (cur ++ String c "") = S (String.length cur)) by (rewrite length_app_s; cbn; lia).
    assert (STEP : lchar c = true -> ~ starts_dash (cur ++ String c "") ->
      dn_loop c (ok || letter_ c) (Z.of_nat (String.length cur) + 1) s = true <-> R cur ok (String c s)).
    { intros Lc Hd. replace (Z.of_nat (String.length cur) + 1) with (Z.of_nat (String.length (cur ++ String c ""))) by lia.
      rewrite IH; [split; [now apply R_step|now apply R_unstep]|].
      split; [|split; [exact Hd|right; eauto]]. apply label_chars_app. split; auto.
      intros c' [<-|[]]. now apply lchar_spec. }
    assert (ND : dash c = false -> ~ starts_dash (cur ++ String c "")).
    { intros Dc [r Hr]. destruct cur as [|d cur]; cbn in Hr; injection Hr as -> _; [discriminate|].
      apply Hs. eexists; reflexivity. }
    assert (DD : letter_ c = true \/ digit c = true -> dash c = false).
    { clear. destruct c as [[] [] [] [] [] [] [] []]; intros [H|H]; try discriminate H; reflexivity. }
    destruct (letter_ c) eqn:E1; [rewrite orb_true_r in STEP; apply STEP; [unfold lchar; now rewrite E1|auto]|].
    rewrite orb_false_r in STEP.
    destruct (digit c) eqn:E2; [apply STEP; [unfold lchar; now rewrite E2, orb_true_r|auto]|].
    destruct (dash c) eqn:E3.
    + assert (Lc : lchar c = true) by (unfold lchar; now rewrite E3, !orb_true_r).
      destruct (dot last) eqn:E4.
      * apply dot_spec in E4. subst last. apply dash_spec in E3. subst c.
        split; [discriminate|]. intros H. exfalso. apply R_unstep in H; auto.
        destruct Hl as [[-> _]|[r ->]].
        -- eapply R_start_dash; [|exact H]. eexists; reflexivity.
        -- assert (X : lchar "." = true) by (apply lchar_spec, Hc; rewrite chars_app, in_app_iff; cbn; auto). discriminate.
      * apply STEP; auto. intros [r Hr]. destruct cur as [|d cur]; cbn in Hr.
        -- destruct Hl as [[_ ->]|[r' Hr']]; [discriminate|destruct r'; discriminate].
        -- injection Hr as -> _. apply Hs. eexists; reflexivity.
    + assert (Lc : lchar c = false) by (unfold lchar; now rewrite E1, E2, E3).
      destruct (dot c) eqn:E4; [|split; [discriminate|intros H; exfalso; now apply R_bad in H]].
      apply dot_spec in E4. subst c. rewrite R_at_dot.
      pose proof (ends_dash_last cur last Hl) as ED.
      destruct (dot last || dash last) eqn:E5.
      * split; [discriminate|]. intros [(Hn & _ & _ & He) _]. exfalso.
        apply orb_true_iff in E5. destruct E5 as [E5|E5].
        -- apply dot_spec in E5. subst last. destruct Hl as [[-> _]|[r ->]]; [cbn in Hn; lia|].
           assert (X : lchar "." = true) by (apply lchar_spec, Hc; rewrite chars_app, in_app_iff; cbn; auto). discriminate.
        -- apply dash_spec in E5. tauto.
      * apply orb_false_iff in E5. destruct E5 as [E5 E6].
        destruct ((63 <? _) || _) eqn:E7.
        -- split; [discriminate|]. intros [((Hn1 & Hn2) & _) _]. apply orb_true_iff in E7.
           rewrite Z.ltb_lt, Z.eqb_eq in E7. lia.
        -- apply orb_false_iff in E7. rewrite Z.ltb_ge, Z.eqb_neq in E7.
           change 0 with (Z.of_nat (String.length "")). rewrite IH.
           ++ split; [|tauto]. intros H. split; auto. unfold label. split; [lia|]. split; [exact Hc|]. split; [exact Hs|].
              intros HE. apply ED in HE. subst last. discriminate.
           ++ split; [intros ? []|]. split; [intros [? H]; discriminate|left; auto].
Qed.

Lemma R_grammar ok s : R "" ok s <-> (ok = true /\ s = ""%string) \/
  exists ls, ls <> [] /\ (s = String.concat "." ls \/ s = (String.concat "." ls ++ ".")%string) /\
    Forall label ls /\ (ok = true \/ Exists has_letter ls).
Proof.
  split.
  - intros H. remember ""%string as cur eqn:Ec. induction H as [cur ok l Hl Ho| |cur ok l s Hl Hs IH]; subst.
    + right. exists [l]. cbn. repeat split; auto; [discriminate|]. destruct Ho; auto.
    + left; auto.
    + cbn in Hl. right.
      assert (D : (ok = true \/ has_letter l) \/ ~ (ok = true \/ has_letter l)).
      { destruct ok; auto. destruct (existsb letter_ (chars l)) eqn:X.
        - apply existsb_exists in X. destruct X as (c & H1 & H2). apply letter_spec in H2. left. right. exists c. auto.
        - right. intros [|(c & H1 & H2)]; [discriminate|]. apply letter_spec in H2.
          assert (existsb letter_ (chars l) = true) by (apply existsb_exists; eauto). congruence. }
      assert (exists ok', (ok' = true <-> ok = true \/ has_letter l)) as [ok' Hok].
      { destruct D; [exists true|exists false]; intuition discriminate. }
      destruct (IH ok' Hok eq_refl) as [[H1 ->]|(ls & N & Hc & F & X)].
      * exists [l]. cbn. repeat split; auto; [discriminate|]. apply Hok in H1. destruct H1; auto.
      * exists (l :: ls). repeat split; auto; [discriminate| |].
        -- destruct ls as [|l2 ls]; [congruence|]. cbn [String.concat].
           change (l ++ "." ++ String.concat "." (l2 :: ls))%string with (l ++ String "." (String.concat "." (l2 :: ls)))%string.
           destruct Hc as [->| ->]; [left; reflexivity|right].
           cbn [String.append]. rewrite app_assoc_s. reflexivity.
        -- destruct X as [X|X]; [|auto]. apply Hok in X. destruct X; auto.
  - intros [[-> ->]|(ls & N & Hc & F & X)]; [apply R_trail|].
    revert ok s N Hc X. induction ls as [|l ls IH]; intros ok s N Hc X; [congruence|].
    inversion F as [|? ? Hl F']; subst.
    assert (EX : Exists has_letter (l :: ls) <-> has_letter l \/ Exists has_letter ls).
    { split; [inversion 1; auto|intros []; auto]. }
    destruct ls as [|l2 ls].
    + cbn in Hc. assert (Exists has_letter (@nil string) -> False) by inversion 1.
      destruct Hc as [->| ->]; [apply R_end; cbn; tauto|].
      apply R_dot; auto. intros ok' Ho. assert (ok' = true) by tauto. subst. apply R_trail.
    + assert (G : forall s', (s' = String.concat "." (l2 :: ls) \/ s' = (String.concat "." (l2 :: ls) ++ ".")%string) -> R "" ok (l ++ String "." s')).
      { intros s' Hs'. apply R_dot; auto. intros ok' Ho. apply IH; auto; [discriminate|]. tauto. }
      cbn [String.concat] in Hc. destruct Hc as [->| ->].
      * apply (G _ (or_introl eq_refl)).
      * rewrite app_assoc_s. cbn [String.append]. apply (G _ (or_intror eq_refl)).
Qed.

Theorem is_domain_name_spec s : is_domain_name s = true <-> hostname s.
Proof.
  unfold is_domain_name, slen, hostname.
  destruct (Z.of_nat (String.length s) =? 0) eqn:E0; [split; [discriminate|intros [? _]; lia]|].
  destruct (255 <? Z.of_nat (String.length s)) eqn:E1; [split; [discriminate|intros [? _]; lia]|].
  change 0 with (Z.of_nat (String.length "")). rewrite dn_loop_spec.
  2:{ split; [intros ? []|]. split; [intros [? H]; discriminate|left; auto]. }
  rewrite R_grammar. split.
  - intros [[H _]|(ls & H1 & H2 & H3 & H4)]; [discriminate|]. split; [lia|].
    exists ls. repeat split; auto. destruct H4; [discriminate|auto].
  - intros (_ & ls & H1 & H2 & H3 & H4). right. exists ls. auto.
Qed.

(** ** Byte classes of the IP formats: the loop over runes amounts to a loop over bytes *)
Lemma byte_range c : 0 <= byte c < 256.
Proof. unfold byte. pose proof (N_ascii_bounded c). lia. Qed.

Ltac lead_cases L :=
  unfold lead in L;
  repeat match type of L with (if ?b then _ else _) = _ => destruct b eqn:? end; try discriminate L;
  injection L; clear L; intros; subst;
  repeat match goal with
         | H : (_ && _) = true |- _ => apply andb_prop in H; destruct H
         | H : (_ <=? _) = true |- _ => apply Z.leb_le in H
         | H : (_ =? _) = true |- _ => apply Z.eqb_eq in H
         | H : (_ && _) = false |- _ => clear H
         | H : (_ =? _) = false |- _ => clear H
         end.

Lemma land_low x n : 0 <= n -> Z.land x (Z.ones n) = x mod 2 ^ n.
Proof. intros. now apply Z.land_ones. Qed.

Lemma lead2 b m lo hi : lead b = Some (m, lo, hi) -> forall x, m = 1%nat -> lo <= x <= hi ->
  128 <= Z.land b 31 * 64 + Z.land x 63.
Proof.
  intros L x Hm. change 31 with (Z.ones 5). change 63 with (Z.ones 6). rewrite !land_low by lia.
  change (2 ^ 5) with 32. change (2 ^ 6) with 64.
  lead_cases L; try discriminate; intros; Z.to_euclidean_division_equations; lia.
Qed.
Lemma lead3 b m lo hi : lead b = Some (m, lo, hi) -> forall x y, m = 2%nat -> lo <= x <= hi ->
  128 <= Z.land b 15 * 4096 + Z.land x 63 * 64 + Z.land y 63.
Proof.
  intros L x y Hm. change 15 with (Z.ones 4). change 63 with (Z.ones 6). rewrite !land_low by lia.
  change (2 ^ 4) with 16. change (2 ^ 6) with 64.
  pose proof (Z.mod_pos_bound y 64 ltac:(lia)). generalize dependent (y mod 64). intros y' Hy.
  lead_cases L; try discriminate; intros; Z.to_euclidean_division_equations; lia.
Qed.
Lemma lead4 b m lo hi : lead b = Some (m, lo, hi) -> forall x y z, m = 3%nat -> lo <= x <= hi ->
  128 <= Z.land b 7 * 262144 + Z.land x 63 * 4096 + Z.land y 63 * 64 + Z.land z 63.
Proof.
  intros L x y z Hm. change 7 with (Z.ones 3). change 63 with (Z.ones 6). rewrite !land_low by lia.
  change (2 ^ 3) with 8. change (2 ^ 6) with 64.
  pose proof (Z.mod_pos_bound y 64 ltac:(lia)). generalize dependent (y mod 64). intros y' Hy.
  pose proof (Z.mod_pos_bound z 64 ltac:(lia)). generalize dependent (z mod 64). intros z' Hz.
  lead_cases L; try discriminate; intros; Z.to_euclidean_division_equations; lia.
Qed.

Lemma decode1_small c r n k : decode1 c r = (n, k) -> n < 128 -> n = byte c /\ k = 0%nat.
Proof.
  unfold decode1. destruct (byte c <? 128) eqn:B; [intros [= <- <-]; auto|].
  apply Z.ltb_ge in B. pose proof (byte_range c) as BR.
  destruct (lead (byte c)) as [[[m lo] hi]|] eqn:L; [|intros [= <- <-]; unfold rune_error; lia].
  assert (RE : (rune_error, 0%nat) = (n, k) -> n < 128 -> n = byte c /\ k = 0%nat) by (intros [= <- <-]; unfold rune_error; lia).
  assert (H2 : forall x, m = 1%nat -> lo <= x <= hi -> 128 <= Z.land (byte c) 31 * 64 + Z.land x 63) by (apply lead2; auto).
  assert (H3 : forall x y, m = 2%nat -> lo <= x <= hi -> 128 <= Z.land (byte c) 15 * 4096 + Z.land x 63 * 64 + Z.land y 63) by (apply lead3; auto).
  assert (H4 : forall x y z, m = 3%nat -> lo <= x <= hi -> 128 <= Z.land (byte c) 7 * 262144 + Z.land x 63 * 4096 + Z.land y 63 * 64 + Z.land z 63) by (apply lead4; auto).
  unfold cont.
  destruct m as [|[|[|[|m]]]]; try (exact RE); (destruct r as [|c1 r]; [exact RE|]);
    try (destruct r as [|c2 r]; [exact RE|]); try (destruct r as [|c3 r]; [exact RE|]); try (exact RE);
    (destruct (lo <=? byte c1) eqn:C1; cbn [andb]; [|exact RE]); (destruct (byte c1 <=? hi) eqn:C2; cbn [andb]; [|exact RE]);
    apply Z.leb_le in C1; apply Z.leb_le in C2.
  - intros [= <- <-] Hn. specialize (H2 (byte c1) eq_refl (conj C1 C2)). lia.
  - destruct (_ && _); [|exact RE]. intros [= <- <-] Hn. specialize (H3 (byte c1) (byte c2) eq_refl (conj C1 C2)). lia.
  - destruct (_ && _); [|exact RE]. intros [= <- <-] Hn. specialize (H4 (byte c1) (byte c2) (byte c3) eq_refl (conj C1 C2)). lia.
Qed.

(** a loop over runes that accepts only ASCII runes is a loop over bytes *)
Lemma runes_ascii (p : Z -> bool) : (forall r, p r = true -> 0 <= r < 128) ->
  forall s, forallb p (runes s) = true <-> forall c, In c (chars s) -> p (byte c) = true.
Proof.
  intros Hp s. unfold runes. induction s as [|c s IH]; cbn [runes_from]; [cbn; intuition|].
  destruct (decode1 c s) as [n k] eqn:D. cbn [forallb chars list_ascii_of_string In]. rewrite andb_true_iff. split.
  - intros [H1 H2]. destruct (decode1_small c s n k D) as [-> ->]; [apply Hp in H1; lia|].
    intros x [<-|Hx]; auto. now apply IH.
  - intros H. assert (Hc : p (byte c) = true) by auto.
    assert (Hb := Hp _ Hc). unfold decode1 in D. destruct (Z.ltb_spec (byte c) 128); [|lia]. injection D as <- <-.
    split; auto. apply IH. auto.
Qed.

Lemma ipv4_chars_spec s : ipv4_chars s = true <-> over (DIGITS ++ ".") s.
Proof.
  unfold ipv4_chars. rewrite runes_ascii by (intros; lia). unfold over.
  split; intros H c Hc; specialize (H c Hc).
  - apply one_of_app. apply orb_true_iff in H. destruct H as [H|H].
    + right. assert (c = "."%char) by now apply dot_spec. subst. now left.
    + left. now apply digit_spec.
  - apply one_of_app in H. apply orb_true_iff. destruct H as [H|H].
    + right. now apply digit_spec in H.
    + left. destruct H as [<-|[]]. reflexivity.
Qed.

Lemma colon_spec c : (byte c =? 58) = true <-> c = ":"%char.
Proof. split; [|intros ->; reflexivity]. destruct c as [[] [] [] [] [] [] [] []]; intros H; try discriminate H; reflexivity. Qed.

Lemma ipv6_chars_spec s : ipv6_chars s = true <-> over (DIGITS ++ ":") s.
Proof.
  unfold ipv6_chars. rewrite runes_ascii by (intros; lia). unfold over.
  split; intros H c Hc; specialize (H c Hc).
  - apply one_of_app. apply orb_true_iff in H. destruct H as [H|H].
    + right. apply colon_spec in H. subst. now left.
    + left. now apply digit_spec.
  - apply one_of_app in H. apply orb_true_iff. destruct H as [H|H].
    + right. now apply digit_spec in H.
    + left. destruct H as [<-|[]]. reflexivity.
Qed.
