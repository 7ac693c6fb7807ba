(** A store holds at most one constraint tree at a place. *)
From Verif Require Import Base GoFloat GoValue Maybe Formats Constraint StructInfo Validate Builder SrcSyntax SrcText SrcTextB SrcProg SrcStore SrcProgB SrcStepB SrcSetters SrcRep SrcLoop SrcBuildW.
Open Scope string_scope.
Open Scope list_scope.
Open Scope nat_scope.

Lemma BIf_inj l l' : map BIf l = map BIf l' -> l = l'.
Proof. revert l'. induction l as [|x l IH]; intros [|y l'] H; try discriminate; [reflexivity|]. injection H as -> H. f_equal. now apply IH. Qed.
Lemma BStr_inj l l' : map BStr l = map BStr l' -> l = l'.
Proof. revert l'. induction l as [|x l IH]; intros [|y l'] H; try discriminate; [reflexivity|]. injection H as -> H. f_equal. now apply IH. Qed.
Lemma req_inj (l l' : list (string * unit)) : map (fun p => (BStr (fst p), BUnit)) l = map (fun p => (BStr (fst p), BUnit)) l' -> l = l'.
Proof. revert l'. induction l as [|[x []] l IH]; intros [|[y []] l'] H; try discriminate; [reflexivity|]. injection H as -> H. f_equal. now apply IH. Qed.
Lemma dv_inj d d' : dv d = dv d' -> d = d'.
Proof. destruct d, d'; cbn; intro H; try discriminate; [injection H as ->|]; reflexivity. Qed.
Lemma erep_fun lo hi lo' hi' h v o o' : erep lo hi h v o -> erep lo' hi' h v o' -> o = o'.
Proof.
  intros [|b u l _ H1 H2] K; inversion K as [|? u' l' _ K1 K2 E1 E2]; subst; [reflexivity|]. rewrite H1 in K1. injection K1 as <-. rewrite H2 in K2. injection K2 as K2. f_equal. now apply BIf_inj.
Qed.
Lemma deps_fun l l1 l2 : Forall2 (fun e p => fst e = BStr (fst p) /\ slice_items (snd e) = Some (map BStr (snd p))) l l1 ->
  Forall2 (fun e p => fst e = BStr (fst p) /\ slice_items (snd e) = Some (map BStr (snd p))) l l2 -> l1 = l2.
Proof.
  intro H. revert l2. induction H as [|[a b] [x y] l l1 [H1 H2] _ IH]; intros l2 K; inversion K as [|? [x' y'] ? l2' [K1 K2] K3]; subst; [reflexivity|].
  cbn [fst snd] in *. rewrite (IH _ K3). subst a. injection K1 as <-. rewrite H2 in K2. injection K2 as K2. apply BStr_inj in K2. now subst.
Qed.
Lemma str_inj d c e d' c' e' : str_struct d c e = str_struct d' c' e' -> s_enum c = s_enum c' -> d = d' /\ c = c'.
Proof.
  unfold str_struct. intros H He. split; [apply dv_inj; exact (f_equal (fun v => match v with BStruct _ ((_, x) :: _) => x | _ => BNil end) H)|].
  injection H as _ _ _ H3 H4 H5 H6.
  destruct c as [a b x f en], c' as [a' b' x' f' en']. cbn in *. subst. f_equal. destruct x, x'; congruence.
Qed.
Lemma num_inj d c e d' c' e' : num_struct d c e = num_struct d' c' e' -> n_enum c = n_enum c' -> d = d' /\ c = c'.
Proof.
  unfold num_struct. intros H He. split; [apply dv_inj; exact (f_equal (fun v => match v with BStruct _ ((_, x) :: _) => x | _ => BNil end) H)|].
  injection H as _ _ H1 H2 H3 H4 H5 H6 H7 H8 H9.
  destruct c, c'. cbn in *. now subst.
Qed.
Lemma first_field x y : x = y -> (fun v => match v with BStruct _ ((_, x) :: _) => x | _ => BNil end) x = (fun v => match v with BStruct _ ((_, x) :: _) => x | _ => BNil end) y.
Proof. now intros ->. Qed.
Section F.
  Variables (V : bv) (lo hi lo' hi' : nat) (h : list bv).
  Ltac same := repeat match goal with
    | H : cell ?a h = Some ?x, K : cell ?a h = Some ?y |- _ => lazymatch x with y => fail | _ => let J := fresh in assert (J : x = y) by congruence; clear K end
    | H : slice_items ?v = Some ?x, K : slice_items ?v = Some ?y |- _ => lazymatch x with y => fail | _ => let J := fresh in assert (J : x = y) by congruence; clear K end
    end.
  Lemma reps_fun :
    (forall v c, rep V lo hi h v c -> forall c', rep V lo' hi' h v c' -> c = c') /\ (forall l cs, reps V lo hi h l cs -> forall cs', reps V lo' hi' h l cs' -> cs = cs') /\
    (forall l cs, sreps V lo hi h l cs -> forall cs', sreps V lo' hi' h l cs' -> cs = cs') /\ (forall l cs, rreps V lo hi h l cs -> forall cs', rreps V lo' hi' h l cs' -> cs = cs').
  Proof.
    apply (rep_all V lo hi h (fun v c _ => forall c', rep V lo' hi' h v c' -> c = c') (fun l cs _ => forall cs', reps V lo' hi' h l cs' -> cs = cs')
      (fun l cs _ => forall cs', sreps V lo' hi' h l cs' -> cs = cs') (fun l cs _ => forall cs', rreps V lo' hi' h l cs' -> cs = cs')).
    all: intros; match goal with K : rep _ _ _ _ _ ?c' |- _ = ?c' => inversion K; subst | K : reps _ _ _ _ _ ?c' |- _ = ?c' => inversion K; subst | K : sreps _ _ _ _ _ ?c' |- _ = ?c' => inversion K; subst | K : rreps _ _ _ _ _ ?c' |- _ = ?c' => inversion K; subst end.
    all: try reflexivity.
    all: try (same; try discriminate).
    all: try match goal with |- ?c :: _ = ?c' :: _ => f_equal; [|now auto]; try (f_equal); now auto end.
    - f_equal. apply dv_inj. exact (first_field _ _ H0).
    - match goal with K : str_struct _ _ ?e1 = str_struct _ _ ?e2 |- _ => let Q := fresh in assert (Q : e1 = e2) by (injection K; auto); rewrite <- Q in *; clear Q end.
      match goal with K : str_struct _ _ _ = str_struct _ _ _ |- _ => destruct (str_inj _ _ _ _ _ _ K) as [-> ->]; [eapply erep_fun; eassumption|reflexivity] end.
    - match goal with K : num_struct _ _ ?e1 = num_struct _ _ ?e2 |- _ => let Q := fresh in assert (Q : e1 = e2) by (injection K; auto); rewrite <- Q in *; clear Q end.
      match goal with K : num_struct _ _ _ = num_struct _ _ _ |- _ => destruct (num_inj _ _ _ _ _ _ K) as [-> ->]; [eapply erep_fun; eassumption|reflexivity] end.
    - match goal with K : int_struct _ _ ?e1 = int_struct _ _ ?e2 |- _ => let Q := fresh in assert (Q : e1 = e2) by (injection K; auto); rewrite <- Q in *; clear Q; apply first_field in K; cbv beta iota delta [int_struct] in K end.
      match goal with K : num_struct _ _ _ = num_struct _ _ _ |- _ => destruct (num_inj _ _ _ _ _ _ K) as [-> ->]; [eapply erep_fun; eassumption|reflexivity] end.
    - match goal with K : int_struct _ _ ?e1 = int_struct _ _ ?e2 |- _ => let Q := fresh in assert (Q : e1 = e2) by (injection K; auto); rewrite <- Q in *; clear Q; apply first_field in K; cbv beta iota delta [int_struct] in K end.
      match goal with K : num_struct _ _ _ = num_struct _ _ _ |- _ => destruct (num_inj _ _ _ _ _ _ K) as [-> ->]; [eapply erep_fun; eassumption|reflexivity] end.
    - match goal with K : arr_struct _ _ _ _ = arr_struct _ _ _ _ |- _ => injection K; intros; subst end. same. subst. f_equal.
      destruct x, x0. cbn in *. f_equal; auto.
    - match goal with K : obj_struct _ _ _ ?m1 = obj_struct _ _ _ ?m2 |- _ => destruct m1 as [m11 m12 m13 m14 m15], m2 as [m21 m22 m23 m24 m25]; injection K; cbn [om_pats om_props om_deps om_req om_sdeps] in *; intros; subst end. same.
      repeat match goal with K : BMapI ?x = BMapI ?y |- _ => injection K; clear K; intro K; subst end. f_equal.
      destruct o, o0. cbn in *. f_equal; auto; try (eapply deps_fun; eassumption). now apply req_inj.
    - match goal with K : enum_struct _ = enum_struct _ |- _ => injection K; intros; subst end. same. f_equal. now apply BIf_inj.
    - match goal with K : combo_struct _ _ = combo_struct _ _ |- _ => injection K; intros; subst end. same. subst. f_equal. auto.
    - match goal with K : combo_struct _ _ = combo_struct _ _ |- _ => injection K; intros; subst end. same. subst. f_equal. auto.
    - match goal with K : combo_struct _ _ = combo_struct _ _ |- _ => injection K; intros; subst end. same. subst. f_equal. auto.
    - match goal with K : not_struct _ = not_struct _ |- _ => injection K; intros; subst end. f_equal. auto.
    - match goal with K : ref_struct _ _ = ref_struct _ _ |- _ => injection K; intros; subst end. reflexivity.
  Qed.
End F.

Theorem rep_one V lo hi lo' hi' h v c c' : rep V lo hi h v c -> rep V lo' hi' h v c' -> c = c'.
Proof. intros H K. exact (proj1 (reps_fun V lo hi lo' hi' h) v c H c' K). Qed.
(** the validator at an address: one root, one set of registered constraints *)
Theorem validator_one h va c rf c' rf' : validator h va c rf -> validator h va c' rf' -> c = c' /\ rf = rf'.
Proof.
  intros (cm & root & H1 & (lo & hi & H2) & H3) (cm' & root' & K1 & (lo' & hi' & K2) & K3).
  rewrite H1 in K1. injection K1 as <- <-. split; [eapply rep_one; eassumption|].
  destruct H3 as [[H3 ->]|(m & l & H3 & H4 & H5)], K3 as [[K3 ->]|(m' & l' & K3 & K4 & K5)]; [reflexivity|rewrite H3 in K3; discriminate|rewrite H3 in K3; discriminate|].
  rewrite H3 in K3. injection K3 as <-. rewrite H4 in K4. injection K4 as <-. clear - H5 K5.
  revert rf' K5. induction H5 as [|[k v] [x c] l rf [H1 (lo & hi & H2)] _ IH]; intros rf' K; inversion K as [|? [x' c'] ? rf1 [K1 (lo' & hi' & K2)] K3]; subst; [reflexivity|].
  cbn [fst snd] in *. rewrite (IH _ K3). subst k. injection K1 as <-. now rewrite (rep_one _ _ _ _ _ _ _ _ _ H2 K2).
Qed.
