(** The constraint built from a plain schema means what the schema says (C43). *)
From Verif Require Import Base GoFloat FloatSpec FloatProofs GoValue Maybe Formats HostSpec Constraint StructInfo Validate Fuel Reach Terminate Builder BuildSpec BuildProofs BuildRefs BuildErr Spec SpecSound SpecMain Scalars DocSpec Height SchemaSpec SchemaForm SchemaRegular.
Open Scope Z_scope.

(** ** Valid and Invalid exclude each other *)
Section Exclusive.
  Context (E : env) (D : resolver) (root : schema).
  Notation Valid := (Valid E D root). Notation Invalid := (Invalid E D root).

  Lemma valid_ref c v : sc_ref c <> ""%string -> Valid (Sch c) v -> exists s, Def D root (sc_ref c) s /\ Valid s v.
  Proof. intros N H. inversion H; subst; [eauto|congruence]. Qed.
  Lemma invalid_ref c v : sc_ref c <> ""%string -> Invalid (Sch c) v -> exists s, Def D root (sc_ref c) s /\ Invalid s v.
  Proof. intros N H. inversion H; subst; try congruence. eauto. Qed.
  Lemma valid_keywords c v : sc_ref c = ""%string -> Valid (Sch c) v ->
    Local E c v /\ (forall s x, Below E c v s x -> Valid s x) /\ (sc_not c <> SNil -> Invalid (sc_not c) v) /\
    (sc_anyOf c <> [] -> exists any, In any (sc_anyOf c) /\ Valid any v) /\
    (sc_oneOf c <> [] -> exists l1 one l2, sc_oneOf c = l1 ++ one :: l2 /\ Valid one v /\ forall s, In s (l1 ++ l2) -> Invalid s v).
  Proof. intros R H. inversion H; subst; [congruence|]. splits; auto; [eauto|]. intros NE. exists l1, one, l2. splits; auto. Qed.
  Lemma invalid_keywords c v : sc_ref c = ""%string -> Invalid (Sch c) v ->
    ~ Local E c v \/ (exists s x, Below E c v s x /\ Invalid s x) \/ (sc_not c <> SNil /\ Valid (sc_not c) v) \/
    (sc_anyOf c <> [] /\ forall s, In s (sc_anyOf c) -> Invalid s v) \/
    (sc_oneOf c <> [] /\ forall s, In s (sc_oneOf c) -> Invalid s v) \/
    (exists l1 s1 l2 s2 l3, sc_oneOf c = l1 ++ s1 :: l2 ++ s2 :: l3 /\ Valid s1 v /\ Valid s2 v).
  Proof. intros R H. inversion H; subst; try congruence; eauto 8. do 5 right. exists l1, s1, l2, s2, l3. auto. Qed.

  Theorem Valid_not_Invalid s v : Valid s v -> Invalid s v -> False.
  Proof.
    revert s v. apply (Valid_mut E D root (fun s v => Invalid s v -> False) (fun s v => Valid s v -> False)).
    - intros c s v N Ds _ IH H. apply invalid_ref in H as (s' & Ds' & H); auto. rewrite (Def_fun _ _ _ _ _ Ds' Ds) in H. auto.
    - intros c v any one l1 l2 R L _ IB _ IN HA _ IA HO _ IO _ IX H. apply invalid_keywords in H; auto.
      destruct H as [H|[(s & x & B & H)|[[N H]|[[N H]|[[N H]|(m1 & s1 & m2 & s2 & m3 & Q & H1 & H2)]]]]]; eauto.
      + apply (IO N). apply H. rewrite (HO N). apply in_or_app. right. now left.
      + assert (NE : sc_oneOf c <> []) by (rewrite Q; destruct m1; discriminate).
        rewrite (HO NE) in Q. destruct (split_two _ _ _ _ _ _ _ _ Q) as [I|I]; eapply IX; eauto.
    - intros c s v N Ds _ IH H. apply valid_ref in H as (s' & Ds' & H); auto. rewrite (Def_fun _ _ _ _ _ Ds' Ds) in H. auto.
    - intros c v R L H. apply valid_keywords in H; tauto.
    - intros c v s x R B _ IH H. apply valid_keywords in H as (_ & H & _); auto.
    - intros c v R N _ IH H. apply valid_keywords in H as (_ & _ & H & _); auto.
    - intros c v R N _ IH H. apply valid_keywords in H as (_ & _ & _ & H & _); auto. destruct (H N) as (any & I & V). eauto.
    - intros c v R N _ IH H. apply valid_keywords in H as (_ & _ & _ & _ & H); auto. destruct (H N) as (l1 & one & l2 & Q & V & _).
      apply (IH one); auto. rewrite Q. apply in_or_app. right. now left.
    - intros c v l1 s1 l2 s2 l3 R Q _ IH1 _ IH2 H. apply valid_keywords in H as (_ & _ & _ & _ & H); auto.
      assert (NE : sc_oneOf c <> []) by (rewrite Q; destruct l1; discriminate).
      destruct (H NE) as (m1 & one & m2 & Q' & V & H'). rewrite Q' in Q. destruct (split_two _ _ _ _ _ _ _ _ Q) as [I|I]; auto.
  Qed.
End Exclusive.

(** ** Facts about documents *)
Lemma json_equal_refl v : json v -> json_equal v v.
Proof.
  induction 1.
  - constructor.
  - constructor.
  - constructor. destruct H0 as [q Hq]. rewrite Hq. cbn. reflexivity.
  - constructor.
  - constructor; auto. intros j x y Hx Hy. rewrite Hx in Hy. injection Hy as <-. apply H0. eapply nth_error_In; eauto.
  - constructor; auto. intros k x y Hx Hy. rewrite Hx in Hy. injection Hy as <-. eauto.
Qed.
Lemma integral_dec f : valid64 f = true -> finite f -> integral (fval f) \/ ~ integral (fval f).
Proof.
  intros V [q F]. pose proof (ffloor_spec f V) as S. rewrite F in *. destruct (feq f (ffloor f)).
  - left. destruct S as [S _]. destruct S as [S|[S|S]]; auto; discriminate.
  - right. intros H. destruct S as [_ S]. assert (false = true) by auto. discriminate.
Qed.
Lemma has_type_dec t v : json v -> has_type t v \/ ~ has_type t v.
Proof.
  intros J. destruct t; destruct J as [|b|f V F|s|l|m]; cbn;
    try (left; eauto; fail); try (right; intros (? & ?); discriminate); try (right; intros (? & ? & _); discriminate); try (right; discriminate); try tauto.
  destruct (integral_dec f V F) as [I|I]; [left; eauto|right]. intros (g & Hg & I'). injection Hg as <-. auto.
Qed.

(** *** numbers *)
Lemma above_finite b p q : above b (XQ p) (XQ q) <-> if b then xlt (XQ p) (XQ q) else xle (XQ p) (XQ q).
Proof.
  destruct b; unfold above, xle; cbn.
  - split; [intros H|intros H [A|A]].
    + apply Qnot_le_lt. intros L. apply H. apply Qle_lteq in L. exact L.
    + apply (Qlt_irrefl p). eapply Qlt_trans; eauto.
    + rewrite A in H. now apply Qlt_irrefl in H.
  - split; [intros H|intros H A].
    + apply Qnot_lt_le in H. now apply Qle_lteq in H.
    + apply Qle_lteq in H. now apply Qle_not_lt in H.
Qed.
Lemma below_finite b p q : below b (XQ p) (XQ q) <-> if b then xlt (XQ q) (XQ p) else xle (XQ q) (XQ p).
Proof.
  destruct b; unfold below, xle; cbn.
  - split; [intros H|intros H [A|A]].
    + apply Qnot_le_lt. intros L. apply H. apply Qle_lteq in L. exact L.
    + apply (Qlt_irrefl p). eapply Qlt_trans; eauto.
    + rewrite A in H. now apply Qlt_irrefl in H.
  - split; [intros H|intros H A].
    + apply Qnot_lt_le in H. now apply Qle_lteq in H.
    + apply Qle_lteq in H. now apply Qle_not_lt in H.
Qed.

Section Numbers.
  Context (E : env) (D : resolver) (root : schema) (bytes : bool) (c : scfg).
  Hypothesis P : plain E D root bytes c.
  Lemma num_of_means f : finite f -> (number_meaning (num_of c) (fval f) <-> number_keywords c (fval f)).
  Proof.
    intros [q Hq]. rewrite Hq. unfold number_meaning, number_keywords.
    destruct (num_of_fields c) as (A1 & A2 & A3 & F1 & F2 & F3 & X1 & X2 & EN). rewrite A1, A2, A3, F1, F2, F3, X1, X2, EN.
    pose proof (pl_min _ _ _ _ _ P) as P1. pose proof (pl_max _ _ _ _ _ P) as P2. pose proof (pl_mult _ _ _ _ _ P) as P3.
    assert (M1 : (initialized (sc_min c) = true -> above match sc_min c, sc_xmin c with Some _, Some b => b | _, _ => false end
                   (fval match sc_min c with Some f => f | None => fzero end) (XQ q)) <->
                 (forall f, sc_min c = Some f -> if match sc_xmin c with Some b => b | None => false end then xlt (fval f) (XQ q) else xle (fval f) (XQ q))).
    { destruct (sc_min c) as [g|]; cbn [initialized]; [|split; intros; discriminate]. destruct (P1 g eq_refl) as [_ [p Hp]]. rewrite Hp.
      assert (Q : match sc_xmin c with Some b => b | None => false end = match sc_xmin c with Some b => b | None => false end) by reflexivity.
      rewrite above_finite. split.
      - intros H g' [= <-]. rewrite Hp. now apply H.
      - intros H _. specialize (H g eq_refl). now rewrite Hp in H. }
    assert (M2 : (initialized (sc_max c) = true -> below match sc_max c, sc_xmax c with Some _, Some b => b | _, _ => false end
                   (fval match sc_max c with Some f => f | None => fzero end) (XQ q)) <->
                 (forall f, sc_max c = Some f -> if match sc_xmax c with Some b => b | None => false end then xlt (XQ q) (fval f) else xle (XQ q) (fval f))).
    { destruct (sc_max c) as [g|]; cbn [initialized]; [|split; intros; discriminate]. destruct (P2 g eq_refl) as [_ [p Hp]]. rewrite Hp.
      rewrite below_finite. split.
      - intros H g' [= <-]. rewrite Hp. now apply H.
      - intros H _. specialize (H g eq_refl). now rewrite Hp in H. }
    assert (M3 : (initialized (sc_mult c) = true -> xeq (fval match sc_mult c with Some f => f | None => fzero end) (XQ 0) \/
                     multiple_of (fval match sc_mult c with Some f => f | None => fzero end) (XQ q)) <->
                 (forall f, sc_mult c = Some f -> multiple_of (fval f) (XQ q))).
    { destruct (sc_mult c) as [g|]; cbn [initialized]; [|split; intros; discriminate]. destruct (P3 g eq_refl) as (_ & _ & N). split.
      - intros H g' [= <-]. destruct (H eq_refl); tauto.
      - intros H _. right. now apply H. }
    rewrite M1, M2, M3. split; [tauto|]. intros H. splits; try tauto. discriminate.
  Qed.
  Definition enum_ok (v : gval) : Prop := sc_enum c <> [] -> exists e, In e (sc_enum c) /\ json_equal e v.
  Lemma int_of_means f : finite f -> (number_meaning (int_of c) (fval f) <-> number_keywords c (fval f) /\ enum_ok (gfloat f)).
  Proof.
    intros F. rewrite <- (num_of_means f F). unfold int_of, enum_ok. destruct (sc_enum c) as [|e0 l0] eqn:Q.
    - split; [|tauto]. intros H. split; auto. congruence.
    - unfold number_meaning. cbn [num_enum n_amin n_amax n_amul n_min n_max n_mul n_xmin n_xmax n_enum].
      destruct (num_of_fields c) as (_ & _ & _ & _ & _ & _ & _ & _ & EN). rewrite EN.
      assert (X : (forall l, Some (e0 :: l0) = Some l -> exists b g, In (GFloat "float64" b g) l /\ xeq (fval g) (fval f)) <->
                  (e0 :: l0 <> [] -> exists e, In e (e0 :: l0) /\ json_equal e (gfloat f))).
      { split.
        - intros H _. destruct (H _ eq_refl) as (b & g & I & X). exists (GFloat "float64" b g). split; auto.
          rewrite <- Q in I. destruct (pl_enum _ _ _ _ _ P _ I) as (J & _). inversion J; subst. now apply je_num.
        - intros H l [= <-]. destruct H as (e & I & X); [discriminate|]. inversion X; subst. exists false, f0. auto. }
      rewrite X. split; [|tauto]. intros H. splits; try tauto. discriminate.
  Qed.
End Numbers.

(** *** strings *)
Section Strings.
  Context (E0 : env) (D : resolver) (root : schema) (rf : refs) (bytes : bool) (c : scfg).
  Hypothesis P : plain E0 D root bytes c.
  Lemma str_of_means s : (bytes = true -> characters s = String.length s) ->
    (doc_string (with_refs E0 rf) (str_of c) s <-> string_keywords E0 c s /\ enum_ok c (gstr s)).
  Proof.
    intros A. unfold doc_string, string_keywords. destruct (str_of_fields c) as (F1 & F2 & F3 & F4 & F5). rewrite F1, F2, F3, F4, F5.
    pose proof (pl_minLen _ _ _ _ _ P) as P1. pose proof (pl_maxLen _ _ _ _ _ P) as P2.
    destruct (pl_format _ _ _ _ _ P) as (N1 & N2 & N3).
    assert (M1 : (0 <= match sc_minLen c with Some n => n | None => 0 end -> match sc_minLen c with Some n => n | None => 0 end <= Z.of_nat (String.length s)) <->
                 (forall n, sc_minLen c = Some n -> n <= Z.of_nat (characters s))).
    { destruct (sc_minLen c) as [n|].
      - destruct (P1 n eq_refl) as [B L]. rewrite (A B). split; [intros H k [= <-]; auto|intros H _; auto].
      - split; [intros; discriminate|lia]. }
    assert (M2 : (0 <= match sc_maxLen c with Some n => n | None => -1 end -> Z.of_nat (String.length s) <= match sc_maxLen c with Some n => n | None => -1 end) <->
                 (forall n, sc_maxLen c = Some n -> Z.of_nat (characters s) <= n)).
    { destruct (sc_maxLen c) as [n|].
      - destruct (P2 n eq_refl) as [B L]. rewrite (A B). split; [intros H k [= <-]; auto|intros H _; auto].
      - split; [intros; discriminate|lia]. }
    assert (M3 : doc_format (with_refs E0 rf) (sc_format c) s <-> json_format E0 (sc_format c) s).
    { unfold doc_format. apply String.eqb_neq in N1 as N1'. rewrite N1'. unfold format_ok, json_format. cbn [e_time e_email e_ip e_uri with_refs]. tauto. }
    assert (M4 : (forall l, match sc_enum c with [] => None | x :: r => Some (x :: r) end = Some l -> In (gstr s) l) <-> enum_ok c (gstr s)).
    { unfold enum_ok. destruct (sc_enum c) as [|e0 l0] eqn:Q.
      - split; [congruence|intros; discriminate].
      - split.
        + intros H _. exists (gstr s). split; [now apply H|constructor].
        + intros H l [= <-]. destruct H as (e & I & X); [discriminate|]. inversion X; subst. exact I. }
    rewrite M1, M2, M3, M4. cbn [e_rx with_refs]. tauto.
  Qed.
End Strings.

Lemma sizes_bound lo hi n : (forall z, lo = Some z -> 0 <= z) -> (forall z, hi = Some z -> 0 <= z) ->
  (sizes (bound lo) (bound hi) n <-> (forall z, lo = Some z -> z <= Z.of_nat n) /\ (forall z, hi = Some z -> Z.of_nat n <= z)).
Proof.
  intros L H. unfold sizes, bound. destruct lo as [lo|], hi as [hi|]; try specialize (L _ eq_refl); try specialize (H _ eq_refl);
    (split; [intros [A B]; split; intros z [= <-]; auto; lia|intros [A B]; split; intros; auto; lia]).
Qed.

Lemma below_inv E c v s x : Below E c v s x ->
  (In s (sc_allOf c) /\ x = v) \/
  (exists l j, v = gslice l /\ nth_error l j = Some x /\ item_schema c j s) \/
  (exists m k, v = gmap m /\
    ((sget k m = Some x /\ sget k (sc_props c) = Some s) \/
     (exists p, sget k m = Some x /\ In (p, s) (sc_pats c) /\ e_rx E (snd p) k = true) \/
     (sget k m = Some x /\ ~ named E c k /\ sc_addProps c = Some s /\ s <> SNil) \/
     (In k (keys m) /\ sget k (sc_depSchemas c) = Some s /\ x = gmap m))).
Proof.
  destruct 1 as [v s I|l j x s I J|m k x s I J|m k x p s I J K|m k x s I J K L|m k s I J]; auto.
  - right. left. exists l, j. auto.
  - right. right. exists m, k. auto.
  - right. right. exists m, k. split; auto. right. left. exists p. auto.
  - right. right. exists m, k. auto 8.
  - right. right. exists m, k. auto 8.
Qed.

Section Node.
  Context (E0 : env) (D : resolver) (root : schema) (rf : refs) (bytes : bool).
  Notation E := (with_refs E0 rf).
  Notation Sub := (Sub D root).
  Notation Valid := (Valid E0 D root). Notation Invalid := (Invalid E0 D root).
  Hypothesis HD : forall m x, sget m rf = Some x -> exists s', Def D root m s' /\ Good s' /\ x = bc s'.
  Hypothesis HG : forall x, Sub root x -> Good x.
  Hypothesis HS : forall x, Sub root x -> Sorted x.
  Hypothesis HP : all_plain E0 D root bytes root.
  Definition fits (v : gval) : Prop := json v /\ (bytes = true -> one_byte v).
  Lemma fits_item l x : fits (gslice l) -> In x l -> fits x.
  Proof.
    intros [J B] I. split; [inversion J; subst; auto|]. intros Q s Hs. apply (B Q). eapply oc_item; eauto.
  Qed.
  Lemma fits_member m k x : fits (gmap m) -> sget k m = Some x -> fits x.
  Proof.
    intros [J B] I. split; [inversion J; subst; eauto|]. intros Q s Hs. apply (B Q). eapply oc_member; eauto.
  Qed.

  Context (n : nat) (c : scfg).
  Hypothesis Hs : Sub root (Sch c).
  Hypothesis R : sc_ref c = ""%string.
  Hypothesis IHt : forall x, Kid c x -> forall v, fits v -> holds E n true (bc x) v -> Valid x v.
  Hypothesis IHf : forall x, Kid c x -> forall v, fits v -> holds E n false (bc x) v -> Invalid x v.
  Let P : plain E0 D root bytes c := HP c Hs R.

  Definition Rest (v : gval) : Prop :=
    enum_ok c v /\
    (forall f, v = gfloat f -> number_keywords c (fval f)) /\
    (forall s, v = gstr s -> string_keywords E0 c s) /\
    (forall l, v = gslice l -> array_keywords c l) /\
    (forall m, v = gmap m -> object_keywords E0 c m).
  Definition Rest_below (v : gval) : Prop := forall s x, Below E0 c v s x -> (In s (sc_allOf c) /\ x = v) \/ Valid s x.
  Definition Fault (v : gval) : Prop := ~ Rest v \/ exists s x, Below E0 c v s x /\ Invalid s x.

  Lemma no_enum t : In t (types_of c) -> t <> TString -> t <> TInteger -> forall v, enum_ok c v.
  Proof. intros T N1 N2 v NE. destruct (pl_enum_type _ _ _ _ _ P NE t T); contradiction. Qed.

  (** *** arrays *)
  Notation a := (match bc_one c TArray with CArr a => a | _ => new_arr end).
  Lemma item_built j s : In TArray (types_of c) -> item_schema c j s -> item_of a j = bc s /\ Kid c s.
  Proof.
    intros T H. assert (KA : forall x, In x (array_kids c) -> Kid c x) by (intros; now apply kid_array).
    unfold array_kids in KA. unfold item_schema in H. unfold item_of. cbn [bc_one bc_array a_items a_pos a_add].
    pose proof (pl_tuple _ _ _ _ _ P) as PT.
    destruct (sc_items c) as [[[|] l]|]; [| |destruct H].
    - rewrite nth_error_map. destruct (nth_error l j) as [s'|] eqn:N; cbn [option_map].
      + subst s'. split; auto. apply KA. rewrite in_app_iff. left. eapply nth_error_In; eauto.
      + destruct H as [H NS]. destruct (PT l eq_refl) as [NE [Q|Q]]; rewrite Q in H; [discriminate|]. injection H as <-. congruence.
    - destruct l as [|x l]; [discriminate|]. injection H as ->. cbn [map hd].
      assert (K : Kid c s) by (apply KA; now left).
      pose proof (kid_nn D root HG c Hs R s K) as NN. destruct (bc s); auto. congruence.
  Qed.
  Lemma item_source j : In TArray (types_of c) -> item_of a j <> CNil -> item_of a j = CEmpty \/ exists s, item_schema c j s /\ item_of a j = bc s /\ Kid c s.
  Proof.
    intros T H. assert (KA : forall x, In x (array_kids c) -> Kid c x) by (intros; now apply kid_array).
    unfold array_kids in KA. unfold item_schema. unfold item_of in *. cbn [bc_one bc_array a_items a_pos a_add] in *.
    pose proof (pl_tuple _ _ _ _ _ P) as PT.
    destruct (sc_items c) as [[[|] l]|]; cbn [map hd] in *.
    - rewrite nth_error_map in *. destruct (nth_error l j) as [s'|] eqn:N; cbn [option_map] in *.
      + right. exists s'. splits; auto. apply KA. rewrite in_app_iff. left. eapply nth_error_In; eauto.
      + destruct (PT l eq_refl) as [NE [Q|Q]]; rewrite Q in *; destruct l; try congruence; cbn [map] in *; try congruence. auto.
    - destruct l as [|x l]; [cbn in H; destruct j; cbn in H; congruence|]. cbn [map hd] in *.
      assert (K : Kid c x) by (apply KA; now left).
      pose proof (kid_nn D root HG c Hs R x K) as NN. right. exists x. cbn. destruct (bc x); auto. congruence.
    - destruct j; cbn in H; congruence.
  Qed.
  Lemma surplus_iff j : surplus a j <-> exists ts, sc_items c = Some (true, ts) /\ sc_addItems c = None /\ nth_error ts j = None.
  Proof.
    unfold surplus. cbn [bc_one bc_array a_items a_pos a_add]. pose proof (pl_tuple _ _ _ _ _ P) as PT. split.
    - intros (H1 & H2 & H3 & H4). destruct (sc_items c) as [[[|] l]|]; try congruence. exists l. splits; auto.
      + destruct (PT l eq_refl) as [_ [Q|Q]]; auto. rewrite Q in H4. discriminate.
      + rewrite nth_error_map in H3. destruct (nth_error l j); [discriminate|auto].
    - intros (ts & I & A & N). destruct (PT ts I) as [NE _]. rewrite I, A. splits; auto.
      + destruct ts; [congruence|discriminate].
      + now rewrite nth_error_map, N.
  Qed.
  Lemma text_string x v : text_schema x -> holds E n true (bc x) v -> json v -> exists s, v = gstr s.
  Proof.
    intros T H J. apply (text_texty) in T. destruct (bc x) as [| | | |d q| | | | | | | | | |]; try contradiction.
    apply holds_sat in H. cbn in H. destruct H as (T0 & s & -> & _). inversion J; subst. eauto.
  Qed.

  Lemma arr_true l : In TArray (types_of c) -> fits (gslice l) -> holds E n true (bc_one c TArray) (gslice l) ->
    array_keywords c l /\ Rest_below (gslice l).
  Proof.
    intros T F H. apply holds_sat in H. change (bc_one c TArray) with (CArr a) in H. cbn [sat_step] in H.
    destruct H as (T0 & i & ol & Q & SZ & U & SU & IT). injection Q as <- <- <-. cbn [elements] in *.
    assert (IV : forall j x s, nth_error l j = Some x -> item_schema c j s -> holds E n true (bc s) x).
    { intros j x s Hx Hi. destruct (item_built j s T Hi) as [B K]. apply (IT j); auto. apply item_of_spec. split; auto.
      now apply (kid_nn D root HG c Hs R). }
    split.
    - unfold array_keywords. cbn [bc_one bc_array a_min a_max a_uniq] in SZ, U.
      apply (sizes_bound (sc_minItems c) (sc_maxItems c)) in SZ; [|apply (pl_minItems _ _ _ _ _ P)|apply (pl_maxItems _ _ _ _ _ P)].
      destruct SZ as [S1 S2]. splits; auto.
      + intros UQ. destruct (pl_unique _ _ _ _ _ P UQ) as (x & r & IS & TX). rewrite UQ in U. specialize (U eq_refl).
        intros i j y z Hy Hz EQ. apply (proj1 (NoDup_nth_error l) U); [apply nth_error_Some; congruence|].
        assert (YS : exists s, y = gstr s).
        { apply (text_string x); auto; [|apply (fits_item l); auto; eapply nth_error_In; eauto]. apply (IV i y x Hy). unfold item_schema. now rewrite IS. }
        destruct YS as [s ->]. inversion EQ; subst. congruence.
      + intros ts IS AI. destruct (le_lt_dec (List.length l) (List.length ts)) as [L|L]; auto. exfalso.
        apply (SU (List.length ts) L). apply surplus_iff. exists ts. splits; auto. apply nth_error_None. lia.
    - intros s x B. apply below_inv in B as [B|[(l' & j & Q & Hx & Hi)|(m & k & Q & _)]]; [now left| |discriminate].
      injection Q as <-. right. destruct (item_built j s T Hi) as [_ K].
      apply IHt; eauto. apply (fits_item l); auto. eapply nth_error_In; eauto.
  Qed.
  Lemma arr_false l : In TArray (types_of c) -> fits (gslice l) -> holds E n false (bc_one c TArray) (gslice l) ->
    ~ array_keywords c l \/ exists s x, Below E0 c (gslice l) s x /\ Invalid s x.
  Proof.
    intros T F H. apply holds_vio in H. change (bc_one c TArray) with (CArr a) in H. cbn [vio_step] in H.
    destruct H as [H|(T0 & i & ol & Q & H)]; [exfalso; eapply H; reflexivity|]. injection Q as <- <- <-. cbn [elements] in *.
    destruct H as [H|[[UQ H]|[(j & L & H)|(j & x & y & Hx & HI & HV)]]].
    - left. intros K. apply H. cbn [bc_one bc_array a_min a_max].
      apply sizes_bound; [apply (pl_minItems _ _ _ _ _ P)|apply (pl_maxItems _ _ _ _ _ P)|]. split; apply K.
    - left. intros K. apply H. apply NoDup_nth_error. intros i j L EQ.
      cbn [bc_one bc_array a_uniq] in UQ. destruct (sc_unique c) as [[|]|] eqn:SU; try discriminate.
      destruct (nth_error l i) as [x|] eqn:Hi; [|apply nth_error_None in Hi; lia].
      destruct K as (_ & _ & K & _). apply (K SU i j x x); auto.
      apply json_equal_refl. apply (fits_item l); auto. eapply nth_error_In; eauto.
    - left. intros (_ & _ & _ & K). apply surplus_iff in H as (ts & IS & AI & N). specialize (K ts IS AI). apply nth_error_None in N. lia.
    - right. apply item_of_spec in HI as [-> NN]. destruct (item_source j T NN) as [Q|(s & IS & Q & K)].
      + rewrite Q in HV. apply holds_vio in HV. destruct HV.
      + exists s, x. split; [eapply bl_item; eauto|]. rewrite Q in HV. apply IHf; auto. eapply fits_item; eauto. eapply nth_error_In; eauto.
  Qed.

  (** *** objects *)
  Notation o := (match bc_one c TObject with CObj o => o | _ => new_obj end).
  Lemma obj_true m : In TObject (types_of c) -> fits (gmap m) -> holds E n true (bc_one c TObject) (gmap m) ->
    object_keywords E0 c m /\ Rest_below (gmap m).
  Proof.
    intros T F H. apply holds_sat in H. change (bc_one c TObject) with (CObj o) in H. cbn [sat_step] in H.
    destruct H as (T0 & kk & i & ET & m' & Q & SZ & RQ & CV & AP & PD & SD). injection Q as <- <- <- <- <-.
    split.
    - unfold object_keywords. cbn [bc_one bc_object o_min o_max] in SZ.
      apply (sizes_bound (sc_minProps c) (sc_maxProps c)) in SZ; [|apply (pl_minProps _ _ _ _ _ P)|apply (pl_maxProps _ _ _ _ _ P)].
      destruct SZ as [S1 S2]. splits; auto.
      + intros k Hk. apply RQ. now apply obj_required.
      + intros NA k Hk. destruct (CV k Hk) as [C|C]; [now apply (obj_named E0 rf)|]. exfalso. apply C. cbn. now rewrite NA.
      + intros k ds d Hk G Hd. apply (PD k); auto. unfold prop_deps. cbn. now rewrite G.
    - intros s x B. apply below_inv in B as [B|[(l & j & Q & _)|(m' & k & Q & B)]]; [now left|discriminate|].
      injection Q as <-. right. destruct B as [[G G']|[(p & G & I & X)|[(G & NN & QA & NS)|(HK & G & ->)]]].
      + apply IHt; [eapply props_kid; eauto|eapply fits_member; eauto|]. apply (AP k); auto. apply obj_applies. left. exists s. split; auto. now left.
      + apply IHt; [eapply pats_kid; eauto|eapply fits_member; eauto|]. apply (AP k); auto. apply obj_applies. left. exists s. split; auto. right. eauto.
      + assert (K : Kid c s) by (eapply add_kid; eauto).
        apply IHt; auto; [eapply fits_member; eauto|]. apply (AP k); auto. apply obj_applies. right. split; auto. right. exists s. splits; auto.
        now apply (kid_nn D root HG c Hs R).
      + assert (K : Kid c s) by (eapply dep_kid; eauto).
        apply IHt; auto. specialize (SD k HK). rewrite obj_sdep, G in SD. apply SD. now apply (kid_nn D root HG c Hs R).
  Qed.
  Lemma obj_false m : In TObject (types_of c) -> fits (gmap m) -> holds E n false (bc_one c TObject) (gmap m) ->
    ~ object_keywords E0 c m \/ exists s x, Below E0 c (gmap m) s x /\ Invalid s x.
  Proof.
    intros T F H. apply holds_vio in H. change (bc_one c TObject) with (CObj o) in H. cbn [vio_step] in H.
    destruct H as [H|(T0 & kk & i & ET & m' & Q & H)]; [exfalso; eapply H; reflexivity|]. injection Q as <- <- <- <- <-.
    destruct H as [H|[(k & HR & HK)|[(k & HK & HC & HA)|[(k & x & y & G & AP & HV)|[(k & d & HK & HD' & HN)|(k & HK & HN & HV)]]]]].
    - left. intros K. apply H. cbn [bc_one bc_object o_min o_max].
      apply sizes_bound; [apply (pl_minProps _ _ _ _ _ P)|apply (pl_maxProps _ _ _ _ _ P)|]. split; apply K.
    - left. intros (_ & _ & K & _). apply HK, K. now apply obj_required.
    - left. intros (_ & _ & _ & K & _). apply HC. apply obj_named. apply K; auto.
      cbn in HA. destruct (sc_addProps c) as [[|z]|] eqn:QA; auto; try discriminate. exfalso.
      apply (kid_nn D root HG c Hs R (Sch z)); auto. apply add_kid; auto. discriminate.
    - apply obj_applies in AP as [(s & -> & [G'|(p & I & X)])|[NN [[QA ->]|(s & QA & NS & -> & _)]]].
      + right. exists s, x. split; [eapply bl_prop; eauto|]. apply IHf; [eapply props_kid; eauto|eapply fits_member; eauto|auto].
      + right. exists s, x. split; [eapply bl_pattern; eauto|]. apply IHf; [eapply pats_kid; eauto|eapply fits_member; eauto|auto].
      + apply holds_vio in HV. destruct HV.
      + right. exists s, x. split; [eapply bl_additional; eauto|]. apply IHf; [eapply add_kid; eauto|eapply fits_member; eauto|auto].
    - left. intros (_ & _ & _ & _ & K). unfold prop_deps in HD'. cbn in HD'. destruct (sget k (sc_depNames c)) as [ds|] eqn:G; [|destruct HD'].
      apply HN. eapply K; eauto.
    - rewrite obj_sdep in *. destruct (sget k (sc_depSchemas c)) as [s|] eqn:G; [|congruence].
      right. exists s, (gmap m). split; [eapply bl_dependency; eauto|]. apply IHf; auto. eapply dep_kid; eauto.
  Qed.

  (** *** one type *)
  Ltac quiet := repeat match goal with |- forall x, _ = _ -> _ => let Q := fresh in intros ? Q; discriminate Q end.
  Lemma below_scalar v : (forall l, v <> gslice l) -> (forall m, v <> gmap m) -> Rest_below v.
  Proof.
    intros N1 N2 s x B. apply below_inv in B as [B|[(l & j & Q & _)|(m & k & Q & _)]]; [now left| |]; exfalso; [eapply N1|eapply N2]; eauto.
  Qed.
  Lemma one_true t v : In t (types_of c) -> fits v -> holds E n true (bc_one c t) v -> has_type t v /\ Rest v /\ Rest_below v.
  Proof.
    intros T F H. pose proof F as [J B]. pose proof (HG _ Hs) as [NU _].
    destruct t.
    - apply holds_sat in H. cbn in H. destruct H as [k H]. assert (v = GNil) by (destruct J; inversion H; auto). subst v.
      splits; [reflexivity| |apply below_scalar; discriminate]. unfold Rest. splits; quiet. eapply no_enum; eauto; discriminate.
    - rewrite int_of_eq in H. apply holds_sat in H. cbn in H.
      destruct J as [|b|f V Fi|s|l Jl|m Sm Jm]; try (exfalso; destruct H as [(? & ? & ? & Q & _)|[(? & ? & ? & Q & _)|(? & ? & ? & Q & _)]]; discriminate).
      assert (W : whole (fval f) /\ number_meaning (int_of c) (fval f)).
      { destruct H as [(? & ? & ? & Q & _)|[(? & ? & ? & Q & _)|(? & ? & ? & Q & W & M)]]; try discriminate. injection Q as <- <- <-. auto. }
      destruct W as [W M]. apply (int_of_means E0 D root bytes c P f Fi) in M as [M1 M2].
      splits.
      + exists f. split; auto. destruct Fi as [q Hq]. rewrite Hq in *. destruct W as [W|[W|W]]; auto; discriminate.
      + unfold Rest. splits; quiet; auto. intros g [= <-]. auto.
      + apply below_scalar; discriminate.
    - rewrite str_of_eq in H. apply holds_sat in H. cbn in H.
      destruct H as (T0 & s & -> & H). assert (T0 = "string"%string) as -> by (inversion J; auto).
      apply (str_of_means E0 D root rf bytes c P) in H; [|intros Q; apply (B Q); constructor]. destruct H as [M1 M2].
      splits; [exists s; reflexivity| |apply below_scalar; discriminate]. unfold Rest. splits; quiet; auto. intros s' [= <-]. auto.
    - assert (exists m, v = gmap m) as [m ->].
      { apply holds_sat in H. cbn in H. destruct H as (T0 & kk & i & ET & m & Q & _). subst v. inversion J; subst. exists m. reflexivity. }
      destruct (obj_true m T F H) as [K1 K2]. splits; [exists m; reflexivity| |auto].
      unfold Rest. splits; quiet; [eapply no_enum; eauto; discriminate|]. intros m' [= <-]. auto.
    - assert (exists l, v = gslice l) as [l ->].
      { apply holds_sat in H. cbn in H. destruct H as (T0 & i & ol & Q & _). subst v. inversion J; subst. exists l. reflexivity. }
      destruct (arr_true l T F H) as [K1 K2]. splits; [exists l; reflexivity| |auto].
      unfold Rest. splits; quiet; [eapply no_enum; eauto; discriminate|]. intros l' [= <-]. auto.
    - apply holds_sat in H. cbn in H. destruct H as (T0 & b & ->).
      splits; [inversion J; subst; exists b; reflexivity| |apply below_scalar; discriminate]. unfold Rest. splits; quiet. eapply no_enum; eauto; discriminate.
    - assert (NE : sc_enum c = []).
      { destruct (sc_enum c) eqn:Q; auto. destruct (pl_enum_type _ _ _ _ _ P ltac:(congruence) _ T); discriminate. }
      rewrite (num_of_eq c NE) in H. apply holds_sat in H. cbn in H.
      destruct H as (T0 & w & f & -> & M). inversion J; subst.
      splits; [exists f; reflexivity| |apply below_scalar; discriminate]. unfold Rest. splits; quiet; [intros K; congruence|].
      intros g [= <-]. now apply (num_of_means E0 D root bytes c P f).
    - exfalso. apply NU. eapply un_here; eauto.
  Qed.
  Lemma one_false t v : In t (types_of c) -> fits v -> has_type t v -> holds E n false (bc_one c t) v -> Fault v.
  Proof.
    intros T F HT H. pose proof F as [J B].
    destruct t; cbn in HT.
    - subst v. apply holds_vio in H. cbn in H. destruct H. eexists. constructor.
    - destruct HT as (f & -> & I). rewrite int_of_eq in H. apply holds_vio in H. cbn in H. left. intros (K1 & K2 & _). apply H. right. right.
      exists "float64"%string, false, f. splits; auto; [right; now right|]. inversion J; subst.
      apply (int_of_means E0 D root bytes c P f); auto.
    - destruct HT as (s & ->). rewrite str_of_eq in H. apply holds_vio in H. cbn in H. left. intros (K1 & _ & K2 & _). apply H.
      exists "string"%string, s. split; auto. apply (str_of_means E0 D root rf bytes c P); [intros Q; apply (B Q); constructor|auto].
    - destruct HT as (m & ->). destruct (obj_false m T F H) as [K|K]; [left|now right]. intros (_ & _ & _ & _ & K'). auto.
    - destruct HT as (l & ->). destruct (arr_false l T F H) as [K|K]; [left|now right]. intros (_ & _ & _ & K' & _). auto.
    - destruct HT as (b & ->). apply holds_vio in H. cbn in H. destruct H. eexists _, _. reflexivity.
    - destruct HT as (f & ->). assert (NE : sc_enum c = []).
      { destruct (sc_enum c) eqn:Q; auto. destruct (pl_enum_type _ _ _ _ _ P ltac:(congruence) _ T); discriminate. }
      rewrite (num_of_eq c NE) in H. apply holds_vio in H. cbn in H. left. intros (_ & K & _). apply H.
      exists "float64"%string, false, f. split; auto. inversion J; subst. apply (num_of_means E0 D root bytes c P f); auto.
    - destruct HT.
  Qed.

  (** *** all types *)
  Lemma typed : types_of c <> [] -> sc_type c <> [] /\ forall t, In t (types_of c) <-> In t (sc_type c).
  Proof.
    intros N. assert (Q : sc_type c <> []).
    { destruct (pl_type _ _ _ _ _ P) as [H|(G & _)]; auto. intros Q. apply N. unfold types_of. rewrite Q, G. reflexivity. }
    split; auto. intros t. rewrite types_of_in. destruct (sc_type c); [congruence|tauto].
  Qed.
  Lemma untyped : types_of c = [] -> sc_type c = [] /\ forall v, json v -> (enum_ok c v -> Rest v) /\ Rest_below v.
  Proof.
    intros N. destruct (types_of_nil c N) as [N1 G]. split; auto. intros v J.
    destruct (pl_type _ _ _ _ _ P) as [H|(_ & DN & DS)]; [congruence|].
    unfold guess in G. apply app_eq_nil in G as [G1 G]. apply app_eq_nil in G as [G2 G]. apply app_eq_nil in G as [G3 G]. apply app_eq_nil in G as [G4 _].
    destruct (looks_object c) eqn:LO; [discriminate|]. destruct (looks_array c) eqn:LA; [discriminate|].
    destruct (looks_string c) eqn:LS; [discriminate|]. destruct (looks_number c) eqn:LN; [discriminate|].
    unfold looks_object in LO. repeat (apply orb_false_iff in LO as [LO ?]).
    unfold looks_array in LA. repeat (apply orb_false_iff in LA as [LA ?]).
    unfold looks_string in LS. repeat (apply orb_false_iff in LS as [LS ?]).
    unfold looks_number in LN.
    assert (I0 : forall A (o : option A), initialized o = false -> o = None) by (intros A [x|]; [discriminate|auto]).
    repeat match goal with H : initialized _ = false |- _ => apply I0 in H end.
    destruct (sc_mult c) eqn:NM; [discriminate|]. destruct (sc_min c) eqn:Nm; [discriminate|]. destruct (sc_max c) eqn:Nx; [discriminate|].
    assert (PR : sc_props c = []) by (destruct (sc_props c); [auto|discriminate]).
    assert (PA : sc_pats c = []) by (destruct (sc_pats c); [auto|discriminate]).
    assert (RE : sc_required c = []) by (destruct (sc_required c); [auto|discriminate]).
    assert (AD : sc_addProps c = Some SNil) by (destruct (sc_addProps c) as [[|]|]; [auto|discriminate|discriminate]).
    split.
    - intros EN. unfold Rest. splits; auto.
      + intros f _. unfold number_keywords. rewrite NM, Nm, Nx. splits; discriminate.
      + intros s _. unfold string_keywords.
        repeat match goal with H : _ = None |- _ => rewrite H end. splits; try discriminate.
        assert (NF : forall x, In x known_formats -> sc_format c <> x).
        { intros x Hx Q. match goal with H : mem _ known_formats = false |- _ => rewrite Q in H; apply mem_In in Hx; congruence end. }
        unfold json_format. splits; intros Q; exfalso; (eapply NF; [|exact Q]); cbn; tauto.
      + intros l _. unfold array_keywords. repeat match goal with H : _ = None |- _ => rewrite H end. splits; discriminate.
      + intros m _. unfold object_keywords. rewrite RE, AD, DN. repeat match goal with H : _ = None |- _ => rewrite H end.
        splits; try discriminate. intros k [].
    - intros s x B. apply below_inv in B as [B|[(l & j & -> & Hx & Hi)|(m & k & -> & B)]]; [now left| |]; exfalso.
      + unfold item_schema in Hi. repeat match goal with H : sc_items c = None |- _ => rewrite H in Hi end. auto.
      + rewrite PR, PA, AD, DS in B. destruct B as [[_ B]|[(p & _ & B & _)|[(_ & _ & B & B')|(_ & B & _)]]]; try discriminate; try now destruct B. congruence.
  Qed.
  Lemma enum_equal e v : scalar_json e -> json v -> (go_equal e v <-> json_equal e v).
  Proof.
    intros (J & N1 & N2) J'. destruct J as [|b|f V Fi|s|l Jl|m Sm Jm]; try (exfalso; eapply N1; reflexivity); try (exfalso; eapply N2; reflexivity).
    - split; intros H; inversion H; subst; constructor.
    - split; intros H; inversion H; subst; constructor.
    - split; intros H; inversion H; subst; inversion J'; subst; constructor; now apply feq_spec.
    - split; intros H; inversion H; subst; constructor.
  Qed.
  Lemma types_true v : fits v -> (forall y, In y (bc_types c) -> holds E n true y v) -> Local E0 c v /\ Rest_below v.
  Proof.
    intros F H. pose proof F as [J _]. unfold bc_types in H. destruct (types_of c) as [|t ts] eqn:T.
    - destruct (untyped T) as [N U]. destruct (U v J) as [U1 U2]. split; auto.
      assert (EN : enum_ok c v).
      { intros NE. destruct (sc_enum c) as [|e0 l0] eqn:Q; [congruence|]. specialize (H _ (or_introl eq_refl)). apply holds_sat in H. cbn in H.
        destruct H as (e & I & X). exists e. split; auto. apply enum_equal; auto. apply (pl_enum _ _ _ _ _ P). now rewrite Q. }
      split; [congruence|exact (U1 EN)].
    - assert (N : types_of c <> []) by congruence. destruct (typed N) as [NT TT].
      specialize (H _ (or_introl eq_refl)). rewrite <- T in H.
      assert (H' : exists t, In t (types_of c) /\ holds E n true (bc_one c t) v).
      { clear - H N. destruct (types_of c) as [|t [|u us]]; [congruence| |].
        - exists t. split; [now left|exact H].
        - apply holds_sat in H. destruct H as (y & I & H). change (In y (map (bc_one c) (t :: u :: us))) in I.
          apply in_map_iff in I as (w & <- & I). exists w. auto. }
      destruct H' as (u & I & H'). destruct (one_true u v I F H') as (K1 & K2 & K3). split; auto.
      split; [|exact K2]. intros _. exists u. split; auto. now apply TT.
  Qed.
  Lemma types_false v y : fits v -> In y (bc_types c) -> holds E n false y v -> ~ Local E0 c v \/ exists s x, Below E0 c v s x /\ Invalid s x.
  Proof.
    intros F I H. pose proof F as [J _]. unfold bc_types in I. destruct (types_of c) as [|t ts] eqn:T.
    - left. intros (_ & K & _). destruct (sc_enum c) as [|e0 l0] eqn:Q; [destruct I|]. destruct I as [<-|[]].
      apply holds_vio in H. cbn in H. apply H. destruct K as (e & I & X); [discriminate|]. exists e. split; auto.
      apply enum_equal; auto. apply (pl_enum _ _ _ _ _ P). now rewrite Q.
    - assert (N : types_of c <> []) by congruence. destruct (typed N) as [NT TT]. destruct I as [<-|[]]. rewrite <- T in H.
      assert (H' : forall t, In t (types_of c) -> holds E n false (bc_one c t) v).
      { clear - H N. destruct (types_of c) as [|t [|u us]]; [congruence| |].
        - intros w [<-|[]]. exact H.
        - apply holds_vio in H. intros w I. apply (H (bc_one c w)). change (In (bc_one c w) (map (bc_one c) (t :: u :: us))). now apply in_map. }
      assert (X : (exists t, In t (sc_type c) /\ has_type t v) \/ forall t, In t (sc_type c) -> ~ has_type t v).
      { clear - J. induction (sc_type c) as [|t l IH]; [right; intros t []|].
        destruct (has_type_dec t v J) as [A|A]; [left; exists t; split; auto; now left|].
        destruct IH as [(u & I & B)|B]; [left; exists u; split; auto; now right|]. right. intros u [<-|I]; auto. }
      destruct X as [(u & Iu & HT)|X].
      + apply TT in Iu. destruct (one_false u v Iu F HT (H' u Iu)) as [K|K]; auto. left. intros (L1 & L2). apply K. exact L2.
      + left. intros (K & _). destruct (K NT) as (u & Iu & HT). eapply X; eauto.
  Qed.

  (** *** combinators *)
  Definition CombV (v : gval) : Prop :=
    (sc_not c <> SNil -> Invalid (sc_not c) v) /\
    (forall s, In s (sc_allOf c) -> Valid s v) /\
    (sc_anyOf c <> [] -> exists s, In s (sc_anyOf c) /\ Valid s v) /\
    (sc_oneOf c <> [] -> exists l1 s l2, sc_oneOf c = l1 ++ s :: l2 /\ Valid s v /\ forall x, In x (l1 ++ l2) -> Invalid x v).
  Lemma map_split (l : list schema) m1 y m2 : map bc l = m1 ++ y :: m2 -> exists l1 x l2, l = l1 ++ x :: l2 /\ m1 = map bc l1 /\ y = bc x /\ m2 = map bc l2.
  Proof.
    intros H. apply map_eq_app in H as (l1 & l2' & -> & Q1 & Q2). destruct l2' as [|x l2]; [discriminate|]. cbn [map] in Q2. injection Q2 as <- <-.
    exists l1, x, l2. auto.
  Qed.
  Lemma comb_true v : fits v -> (forall y, In y (bc_comb c) -> holds E n true y v) -> CombV v.
  Proof.
    intros F H. unfold bc_comb in H. unfold CombV.
    assert (KC : forall x, In x (comb_kids c) -> Kid c x) by (intros; now apply kid_comb). unfold comb_kids in KC.
    pose proof (pl_not _ _ _ _ _ P) as P1. pose proof (pl_all _ _ _ _ _ P) as P2. pose proof (pl_any _ _ _ _ _ P) as P3.
    destruct (sc_not c) as [|z] eqn:Qn.
    - destruct (sc_allOf c) as [|a0 al] eqn:Qa.
      + destruct (sc_anyOf c) as [|b0 bl] eqn:Qb.
        * destruct (sc_oneOf c) as [|d0 dl] eqn:Qd; [splits; try congruence; intros s []|].
          splits; try congruence; try (intros s []). intros _. specialize (H _ (or_introl eq_refl)).
          destruct dl as [|d1 dl].
          -- exists [], d0, []. splits; auto; [|intros x []]. apply IHt; auto. apply KC. now left.
          -- apply holds_sat in H. destruct H as (m1 & y & m2 & Q & H1 & H2).
             change (map bc (d0 :: d1 :: dl) = m1 ++ y :: m2) in Q. apply map_split in Q as (l1 & x & l2 & Q & -> & -> & ->).
             exists l1, x, l2. splits; auto.
             ++ apply IHt; auto. apply KC. rewrite Q. apply in_or_app. right. now left.
             ++ intros w Hw. apply IHf; auto. { apply KC. rewrite Q. apply in_app_iff in Hw. apply in_or_app. cbn. tauto. }
                apply H2. rewrite <- map_app. now apply in_map.
        * rewrite (P3 ltac:(discriminate)). splits; try congruence; try (intros s []). intros _. specialize (H _ (or_introl eq_refl)).
          destruct bl as [|b1 bl].
          -- exists b0. split; [now left|]. apply IHt; auto. apply KC. now left.
          -- apply holds_sat in H. destruct H as (y & I & H). change (In y (map bc (b0 :: b1 :: bl))) in I. apply in_map_iff in I as (x & <- & I).
             exists x. split; auto.
      + destruct (P2 ltac:(discriminate)) as [-> ->]. splits; try congruence. specialize (H _ (or_introl eq_refl)).
        destruct al as [|a1 al].
        * intros s [<-|[]]. apply IHt; auto. apply KC. now left.
        * apply holds_sat in H. intros s I. apply IHt; auto. apply (H (bc s)).
          change (In (bc s) (map bc (a0 :: a1 :: al))). now apply in_map.
    - destruct (P1 ltac:(discriminate)) as (-> & -> & ->). splits; try congruence; try (intros s []). intros _.
      specialize (H _ (or_introl eq_refl)). apply holds_sat in H. apply IHf; auto. apply KC. now left.
  Qed.
  Lemma comb_false v y : fits v -> In y (bc_comb c) -> holds E n false y v -> Invalid (Sch c) v.
  Proof.
    intros F I H. unfold bc_comb in I.
    assert (KC : forall x, In x (comb_kids c) -> Kid c x) by (intros; now apply kid_comb). unfold comb_kids in KC.
    destruct (sc_not c) as [|z] eqn:Qn.
    - destruct (sc_allOf c) as [|a0 al] eqn:Qa.
      + destruct (sc_anyOf c) as [|b0 bl] eqn:Qb.
        * destruct (sc_oneOf c) as [|d0 dl] eqn:Qd; [destruct I|]. destruct I as [<-|[]].
          destruct dl as [|d1 dl].
          -- apply iv_none; auto; rewrite Qd; [discriminate|]. intros s [<-|[]]. apply IHf; auto. apply KC. now left.
          -- apply holds_vio in H. destruct H as [H|(m1 & y1 & m2 & y2 & m3 & Q & H1 & H2)].
             ++ apply iv_none; auto; rewrite Qd; [discriminate|]. intros s I. apply IHf; auto. apply H.
                change (In (bc s) (map bc (d0 :: d1 :: dl))). now apply in_map.
             ++ change (map bc (d0 :: d1 :: dl) = m1 ++ y1 :: m2 ++ y2 :: m3) in Q. apply map_split in Q as (l1 & x1 & l2 & Q & -> & -> & Q2).
                symmetry in Q2. apply map_split in Q2 as (l2' & x2 & l3 & Q2 & -> & -> & ->). subst l2.
                eapply (iv_two _ _ _ _ _ l1 x1 l2' x2 l3); auto.
                ** rewrite Qd. exact Q.
                ** apply IHt; auto. apply KC. rewrite Q. apply in_or_app. right. now left.
                ** apply IHt; auto. apply KC. rewrite Q. apply in_or_app. right. right. apply in_or_app. right. now left.
        * destruct I as [<-|[]]. apply iv_any; auto; rewrite Qb; [discriminate|]. intros s I. apply IHf; auto.
          destruct bl as [|b1 bl]; [destruct I as [<-|[]]; exact H|]. apply holds_vio in H. apply H.
          change (In (bc s) (map bc (b0 :: b1 :: bl))). now apply in_map.
      + destruct I as [<-|[]]. destruct al as [|a1 al].
        * apply (iv_below _ _ _ c v a0 v); auto; [constructor; rewrite Qa; now left|]. apply IHf; auto. apply KC. now left.
        * apply holds_vio in H. destruct H as (y & I & H). change (In y (map bc (a0 :: a1 :: al))) in I. apply in_map_iff in I as (x & <- & I).
          apply (iv_below _ _ _ c v x v); auto. constructor. now rewrite Qa.
    - destruct I as [<-|[]]. apply holds_vio in H. destruct H as [H|H].
      + exfalso. apply (kid_nn D root HG c Hs R (sc_not c)); [apply KC; rewrite Qn; now left|now rewrite Qn].
      + apply iv_not; auto; rewrite Qn; [discriminate|]. apply IHt; auto. apply KC. now left.
  Qed.

  Lemma node_true v : fits v -> holds E n true (bc (Sch c)) v -> Valid (Sch c) v.
  Proof.
    intros F H. rewrite bc_step in H by assumption.
    assert (H' : forall y, In y (bc_comb c ++ bc_types c) -> holds E n true y v).
    { destruct (bc_comb c ++ bc_types c) as [|y [|z l]]; [intros y []| |].
      - intros w [<-|[]]. exact H.
      - apply holds_sat in H. exact H. }
    destruct (types_true v F) as [L B]; [intros; apply H'; apply in_or_app; now right|].
    destruct (comb_true v F) as (C1 & C2 & C3 & C4); [intros; apply H'; apply in_or_app; now left|].
    assert (B' : forall s x, Below E0 c v s x -> Valid s x).
    { intros s x Hx. destruct (B s x Hx) as [[I ->]|K]; auto. }
    assert (A : exists any, (sc_anyOf c <> [] -> In any (sc_anyOf c)) /\ (sc_anyOf c <> [] -> Valid any v)).
    { destruct (sc_anyOf c) as [|b0 bl]; [exists SNil; split; congruence|]. destruct C3 as (s & I & V); [discriminate|]. exists s. auto. }
    destruct A as (any & A1 & A2).
    assert (O : exists l1 one l2, (sc_oneOf c <> [] -> sc_oneOf c = l1 ++ one :: l2) /\ (sc_oneOf c <> [] -> Valid one v) /\
                 (forall s, sc_oneOf c <> [] -> In s (l1 ++ l2) -> Invalid s v)).
    { destruct (sc_oneOf c) as [|d0 dl]; [exists [], SNil, []; splits; congruence|]. destruct C4 as (l1 & s & l2 & Q & V & X); [discriminate|].
      exists l1, s, l2. splits; auto. }
    destruct O as (l1 & one & l2 & O1 & O2 & O3).
    exact (va_keywords _ _ _ c v any one l1 l2 R L B' C1 A1 A2 O1 O2 O3).
  Qed.
  Lemma node_false v : fits v -> holds E n false (bc (Sch c)) v -> Invalid (Sch c) v.
  Proof.
    intros F H. rewrite bc_step in H by assumption.
    assert (H' : exists y, In y (bc_comb c ++ bc_types c) /\ holds E n false y v).
    { destruct (bc_comb c ++ bc_types c) as [|y [|z l]].
      - apply holds_vio in H. destruct H as (y & [] & _).
      - exists y. split; [now left|exact H].
      - apply holds_vio in H. exact H. }
    destruct H' as (y & I & H'). apply in_app_iff in I as [I|I]; [now apply (comb_false v y)|].
    destruct (types_false v y F I H') as [K|(s & x & B & K)]; [now apply iv_local|]. eapply iv_below; eauto.
  Qed.
End Node.

(** ** The whole schema *)
Section Main.
  Context (E0 : env) (D : resolver) (root : schema) (rf : refs) (bytes : bool).
  Notation E := (with_refs E0 rf).
  Notation Sub := (Sub D root).
  Notation Valid := (Valid E0 D root). Notation Invalid := (Invalid E0 D root).
  Hypothesis HD : forall m x, sget m rf = Some x -> exists s', Def D root m s' /\ Good s' /\ x = bc s'.
  Hypothesis HK : forall c, Sub root (Sch c) -> sc_ref c <> ""%string -> exists x, sget (sc_ref c) rf = Some x.
  Hypothesis HG : forall x, Sub root x -> Good x.
  Hypothesis HS : forall x, Sub root x -> Sorted x.
  Hypothesis HP : all_plain E0 D root bytes root.
  Theorem holds_means n : forall x, Sub root x -> forall v, fits bytes v ->
    (holds E n true (bc x) v -> Valid x v) /\ (holds E n false (bc x) v -> Invalid x v).
  Proof.
    induction n as [|n IHn]; [intros x Hs v F; split; intros []|].
    induction x as [|c IH] using schema_subs_ind; intros Hs v F.
    - exfalso. destruct (HG SNil Hs) as [_ G]. apply G. constructor.
    - destruct (String.eqb_spec (sc_ref c) "") as [R|R].
      + assert (K : forall x, Kid c x -> forall v, fits bytes v -> (holds E (S n) true (bc x) v -> Valid x v) /\ (holds E (S n) false (bc x) v -> Invalid x v)).
        { intros x Kx. apply IH; [now apply Kid_subs|eapply sub_kid; eauto]. }
        split; intros H; [eapply (node_true E0 D root rf bytes)|eapply (node_false E0 D root rf bytes)]; eauto; intros x Kx w Fw; apply (K x Kx w Fw).
      + cbn [bc] in *. pose proof R as R'. apply String.eqb_neq in R'. rewrite R'. cbn [negb].
        destruct (HK c Hs R) as [y Hy]. destruct (HD _ _ Hy) as (s' & Ds & G & ->).
        destruct (IHn s' (sub_def _ _ _ _ _ Hs R Ds) v F) as [V I].
        split; intros H.
        * destruct H as (z & Q & H). change (sget (sc_ref c) rf = Some z) in Q. rewrite Hy in Q. injection Q as <-. eapply va_ref; eauto.
        * destruct H as [Q|(z & Q & H)]; [change (sget (sc_ref c) rf = None) in Q; congruence|].
          change (sget (sc_ref c) rf = Some z) in Q. rewrite Hy in Q. injection Q as <-. eapply iv_ref; eauto.
  Qed.
End Main.
