(** Every finished run of Validate on a document is justified by the declarative
    meaning in Spec.v, and no run panics. *)
From Verif Require Import Base GoFloat GoValue Maybe Formats HostSpec Constraint StructInfo Validate Fuel Reach ReadOnly Spec.
Open Scope Z_scope.

Ltac splits := repeat match goal with |- _ /\ _ => split end.

(** ** Scalars *)
Lemma within_bool lo hi n :
  ((-1 <? lo) && (n <? lo) = false /\ (-1 <? hi) && (hi <? n) = false) <-> within lo hi n.
Proof.
  unfold within. rewrite !andb_false_iff, !Z.ltb_ge. lia.
Qed.

Lemma ieq_doc_total e v : uncomparable e = false -> jdoc v -> exists b, ieq e v = Some b.
Proof.
  intros U J. destruct e, J; cbn [ieq is_gnil]; rewrite ?U; eauto;
    match goal with |- context [String.eqb ?a ?b] => destruct (String.eqb a b); cbn [negb]; eauto end.
Qed.

Lemma enum_loop_spec l v : comparables l -> jdoc v ->
  match enum_loop l v with
  | Pass => listed l v
  | Fail _ => ~ listed l v
  | _ => False
  end.
Proof.
  intros C J. induction l as [|e l IH]; cbn [enum_loop].
  - intros (e & [] & _).
  - assert (C' : comparables l) by (intros x Hx; apply C; now right). specialize (IH C').
    destruct (ieq_doc_total e v (C e (or_introl eq_refl)) J) as [b Hb]. rewrite Hb.
    destruct b.
    + exists e. split; [now left|auto].
    + destruct (enum_loop l v); auto.
      * destruct IH as (x & Hx & Ex). exists x. split; [now right|auto].
      * intros (x & [<-|Hx] & Ex); [congruence|]. apply IH. exists x; auto.
Qed.

Lemma num_check_spec c f : opt comparables (n_enum c) ->
  match num_check c f with
  | Pass => num_ok c f
  | Fail _ => ~ num_ok c f
  | _ => False
  end.
Proof.
  intros C. unfold num_check, num_ok.
  destruct (n_amin c) eqn:M1, (n_xmin c) eqn:M2, (n_amax c) eqn:M3, (n_xmax c) eqn:M4; cbn [andb negb];
  repeat match goal with |- context[if ?b then _ else _] => destruct b eqn:?; cbn [andb negb] end;
  try (intuition congruence);
  try (match goal with H : n_amul c && _ && _ = true |- _ =>
         apply andb_prop in H; destruct H as [H H3]; apply andb_prop in H; destruct H as [H1 H2];
         apply negb_true_iff in H2, H3; intros (_ & _ & H4 & _); destruct (H4 H1); congruence end);
  (assert (MU : n_amul c = true -> feq (n_mul c) fzero = true \/ feq (fmod f (n_mul c)) fzero = true) by
    (intros Hm; rewrite Hm in *; cbn [andb] in *;
     destruct (feq (n_mul c) fzero) eqn:Z1; [now left|]; cbn [negb andb] in *;
     destruct (feq (fmod f (n_mul c)) fzero); [now right|cbn in *; congruence]));
  (destruct (n_enum c) as [l|]; cbn [opt] in *;
   [ pose proof (enum_loop_spec l (gfloat f) C (jd_float _ _ _)) as HE;
     destruct (enum_loop l (gfloat f)); intuition congruence
   | intuition congruence ]).
Qed.

Lemma format_check_spec E fmt s :
  match format_check E fmt s with
  | Pass => format_ok E fmt s
  | Fail _ => ~ format_ok E fmt s
  | _ => False
  end.
Proof.
  unfold format_check, format_ok.
  pose proof (is_domain_name_spec s) as X1. pose proof (ipv4_chars_spec s) as X2. pose proof (ipv6_chars_spec s) as X3.
  destruct (String.eqb_spec fmt "datetime") as [->|N1].
  { destruct (e_time E s) as [t|]; [|intros (H & _); destruct (H eq_refl); congruence].
    split; [eauto|]. splits; intros; discriminate. }
  destruct (String.eqb_spec fmt "email") as [->|N2].
  { destruct (e_email E s); [intros (_ & H & _); specialize (H eq_refl); congruence|].
    split; [congruence|]. split; auto. splits; intros; discriminate. }
  destruct (String.eqb_spec fmt "hostname") as [->|N3].
  { destruct (is_domain_name s); [|intros (_ & _ & H & _); specialize (H eq_refl); apply X1 in H; congruence].
    split; [congruence|]. split; [congruence|]. split; [intros _; now apply X1|]. splits; intros; discriminate. }
  destruct (String.eqb_spec fmt "ipv4") as [->|N4].
  { destruct (ipv4_chars s); cbn [negb]; [|intros (_ & _ & _ & H & _); destruct (H eq_refl) as [H1 H2]; apply X2 in H1; congruence].
    destruct (e_ip E s); [|intros (_ & _ & _ & H & _); destruct (H eq_refl); congruence].
    splits; try (intros; congruence). intros _. split; auto. now apply X2. }
  destruct (String.eqb_spec fmt "ipv6") as [->|N5].
  { destruct (ipv6_chars s); cbn [negb]; [|intros (_ & _ & _ & _ & H & _); destruct (H eq_refl) as [H1 H2]; apply X3 in H1; congruence].
    destruct (e_ip E s); [|intros (_ & _ & _ & _ & H & _); destruct (H eq_refl); congruence].
    splits; try (intros; congruence). intros _. split; auto. now apply X3. }
  destruct (String.eqb_spec fmt "uri") as [->|N6].
  { destruct (e_uri E s); [|intros (_ & _ & _ & _ & _ & H); specialize (H eq_refl); congruence].
    splits; intros; congruence. }
  splits; intros; congruence.
Qed.

Lemma str_check_spec E c s : opt comparables (s_enum c) ->
  match str_check E c s with
  | Pass => str_ok E c s
  | Fail _ => ~ str_ok E c s
  | _ => False
  end.
Proof.
  intros C. unfold str_check, str_ok. change (slen s) with (Z.of_nat (String.length s)).
  pose proof (within_bool (s_min c) (s_max c) (Z.of_nat (String.length s))) as W.
  destruct ((-1 <? s_max c) && _); [intuition congruence|].
  destruct ((-1 <? s_min c) && _); [intuition congruence|].
  assert (W' : within (s_min c) (s_max c) (Z.of_nat (String.length s))) by tauto. clear W.
  pose proof (format_check_spec E (s_fmt c) s) as F.
  destruct (format_check E (s_fmt c) s); try tauto.
  assert (EN : match match s_enum c with Some l => enum_loop l (gstr s) | None => Pass end with
               | Pass => opt (fun l => listed l (gstr s)) (s_enum c)
               | Fail _ => ~ opt (fun l => listed l (gstr s)) (s_enum c)
               | _ => False end).
  { destruct (s_enum c) as [l|]; [|exact I]. apply (enum_loop_spec l (gstr s) C). constructor. }
  destruct (s_rx c) as [rx|]; cbn [opt].
  - destruct (e_rx E rx s); cbn [negb].
    + destruct (match s_enum c with Some l => _ | None => _ end); tauto.
    + intuition congruence.
  - destruct (match s_enum c with Some l => _ | None => _ end); tauto.
Qed.

Lemma slen_def s : slen s = Z.of_nat (String.length s).
Proof. reflexivity. Qed.

Definition scalar_c (c : constr) : bool :=
  match c with CNull | CBool _ | CStr _ _ | CNum _ _ | CInt _ _ | CEnum _ => true | _ => false end.

Lemma scalar_spec n E c v w : scalar_c c = true -> node_ok E c -> jdoc v ->
  exists r, validate (S n) E c v w = (r, v, w) /\
  match r with Pass => scalar_ok E c v | Fail _ => ~ scalar_ok E c v | _ => False end.
Proof.
  intros S N J. destruct c; try discriminate; cbn [validate]; eexists; (split; [reflexivity|]); cbn [node_ok] in N.
  - destruct J; cbn; auto.
  - destruct J; cbn; auto.
  - destruct J; cbn; auto. apply str_check_spec; auto.
  - destruct J; cbn; auto. apply num_check_spec; auto.
  - destruct J; cbn; auto; try (apply num_check_spec; auto; fail).
    change (rv_float i f) with (widen i f).
    destruct (feq (ffloor (widen i f)) (widen i f)) eqn:F; cbn [negb]; [|intros [? _]; congruence].
    pose proof (num_check_spec c (widen i f) N) as H.
    unfold num_validate. cbn [deref1 valueOf elem]. cbn [gfloat rv_float].
    destruct (num_check c (widen i f)); tauto.
  - apply enum_loop_spec; auto.
Qed.

(** ** Loops *)
Section Sound.
  Variables (E : env) (A : constr -> gval -> gval -> Prop) (R : constr -> gval -> Prop) (rec : recT).
  Variable C : constr -> Prop.
  (** J: what is known of the values; PP: what a panic means *)
  Variables (J : gval -> Prop) (PP : Prop).
  Hypothesis Jin : forall T i l, J (GSlice T i (Some l)) -> forall x, In x l -> J x.
  Hypothesis Jout : forall T i l, (forall x, In x l -> J x) -> J (GSlice T i (Some l)).
  Hypothesis K : forall c x w r x' w', C c -> J x -> rec c x w = (r, x', w') ->
    match r with Pass => A c x x' /\ J x' | Fail _ => R c x | Panic _ => PP | OOF => True end.

  Ltac rec_cases c x w :=
    let H := fresh "HR" in let r := fresh "r" in
    destruct (rec c x w) as [[r ?x1] ?w1] eqn:H; apply K in H; [|assumption|assumption];
    destruct r; [destruct H| |exact H|clear H].

  Definition good {T} (o : res * T * orc) (okP : T -> Prop) (badP : Prop) : Prop :=
    match o with
    | (Pass, t, _) => okP t
    | (Fail _, _, _) => badP
    | (Panic _, _, _) => PP
    | (OOF, _, _) => True
    end.

  Lemma all_loop_sound cs : Forall C cs -> forall v w, J v ->
    good (all_loop rec cs v w) (fun v' => Chain A cs v v' /\ J v')
      (exists l1 x l2 v1, cs = l1 ++ x :: l2 /\ Chain A l1 v v1 /\ R x v1).
  Proof.
    induction 1 as [|c cs Hc H IH]; intros v w Jv; cbn [all_loop]; [cbn; split; auto; constructor|].
    rec_cases c v w; cbn [good]; auto.
    - specialize (IH x1 w1 H1). destruct (all_loop rec cs x1 w1) as [[[] ?] ?]; cbn [good] in *; auto.
      + destruct IH. split; auto. econstructor; eauto.
      + destruct IH as (l1 & x & l2 & v1 & -> & HC & HR). exists (c :: l1), x, l2, v1.
        split; [reflexivity|]. split; auto. econstructor; eauto.
    - exists [], c, cs, v. split; auto. split; [constructor|auto].
  Qed.

  (** combinators whose children do not change the value *)
  Hypothesis KP : forall c x w r x' w', pure E c -> rec c x w = (r, x', w') -> x' = x.

  Lemma any_loop_sound cs : Forall C cs -> Forall (pure E) cs -> forall v w, J v ->
    good (any_loop rec cs v w) (fun v' => v' = v /\ exists x, In x cs /\ A x v v) (forall x, In x cs -> R x v).
  Proof.
    induction 1 as [|c cs Hc H IH]; intros P v w Jv; cbn [any_loop]; [cbn; tauto|].
    inversion P as [|? ? Pc P']; subst.
    destruct (rec c v w) as [[rr v1] w1] eqn:HR. pose proof (KP _ _ _ _ _ _ Pc HR) as ->.
    apply K in HR; auto. destruct rr; cbn [good]; auto.
    - destruct HR. split; auto. exists c. split; [now left|auto].
    - specialize (IH P' v w1 Jv). destruct (any_loop rec cs v w1) as [[[] ?] ?]; cbn [good] in *; auto.
      + destruct IH as [-> (x & Hx & Ax)]. split; auto. exists x. split; [now right|auto].
      + intros x [<-|Hx]; auto.
  Qed.

  Lemma oneof_loop_sound cs : Forall C cs -> Forall (pure E) cs -> forall k v w, J v ->
    good (oneof_loop rec cs k v w)
      (fun v' => v' = v /\
         ((k = 1%nat /\ forall x, In x cs -> R x v) \/
          (k = 0%nat /\ exists l1 x l2, cs = l1 ++ x :: l2 /\ A x v v /\ forall y, In y (l1 ++ l2) -> R y v)))
      ((k = 0%nat /\ forall x, In x cs -> R x v) \/
       (k = 0%nat /\ exists l1 x l2 y l3, cs = l1 ++ x :: l2 ++ y :: l3 /\ A x v v /\ A y v v) \/
       (k = 1%nat /\ exists x, In x cs /\ A x v v) \/ (2 <= k)%nat).
  Proof.
    induction 1 as [|c cs Hc H IH]; intros P k v w Jv; cbn [oneof_loop].
    - destruct k as [|[|k]]; cbn [good]; cbn; try (left; tauto); try tauto.
      + right. right. right. lia.
    - inversion P as [|? ? Pc P']; subst.
      destruct (rec c v w) as [[rr v1] w1] eqn:HR. pose proof (KP _ _ _ _ _ _ Pc HR) as ->.
      apply K in HR; auto. destruct rr; cbn [good]; auto.
      + destruct HR as [HA _]. specialize (IH P' (S k) v w1 Jv).
        destruct (oneof_loop rec cs (S k) v w1) as [[[] ?] ?]; cbn [good] in *; auto.
        * destruct IH as [-> [[Hk HR]|[Hk _]]]; [|lia]. split; auto. right. split; [lia|].
          exists [], c, cs. auto.
        * destruct IH as [[Hk _]|[[Hk _]|[[Hk (x & Hx & Ax)]|Hk]]]; try lia.
          -- right. left. split; [lia|]. apply in_split in Hx. destruct Hx as (l2 & l3 & ->).
             exists [], c, l2, x, l3. auto.
          -- destruct k as [|k]; [lia|]. destruct k as [|k]; [|right; right; right; lia].
             right. right. left. split; auto. exists c. split; [now left|auto].
      + specialize (IH P' k v w1 Jv).
        destruct (oneof_loop rec cs k v w1) as [[[] ?] ?]; cbn [good] in *; auto.
        * destruct IH as [-> [[Hk HA]|[Hk (l1 & x & l2 & -> & Ax & HA)]]]; split; auto; [left|right]; (split; [auto|]).
          -- intros x [<-|Hx]; auto.
          -- exists (c :: l1), x, l2. repeat split; auto. intros y [<-|Hy]; auto.
        * destruct IH as [[Hk HA]|[[Hk (l1 & x & l2 & y & l3 & -> & Ax & Ay)]|[[Hk (x & Hx & Ax)]|Hk]]].
          -- left. split; auto. intros x [<-|Hx]; auto.
          -- right. left. split; auto. exists (c :: l1), x, l2, y, l3. auto.
          -- right. right. left. split; auto. exists x. split; [now right|auto].
          -- right. right. right. exact Hk.
  Qed.

  Lemma not_sound c v w : (c <> CNil -> C c) -> pure E c -> J v ->
    good (not_validate rec c v w) (fun v' => v' = v /\ R c v) (c = CNil \/ A c v v).
  Proof.
    intros Hc Pc Jv. unfold not_validate.
    assert (G : c <> CNil -> good match rec c v w with
      | (Pass, v', w') => (Fail "'not' validation failed", v', w')
      | (Fail _, v', w') => (Pass, v', w')
      | o => o end (fun v' => v' = v /\ R c v) (c = CNil \/ A c v v)).
    { intros N. destruct (rec c v w) as [[rr v1] w1] eqn:HR. pose proof (KP _ _ _ _ _ _ Pc HR) as ->.
      apply K in HR; auto. destruct rr; cbn [good]; auto. destruct HR; auto. }
    destruct c; try (apply G; discriminate). cbn. auto.
  Qed.

  (** *** Arrays *)
  Lemma nth_set_nth {T} i j (x : T) l :
    nth_error (set_nth i x l) j = if Nat.eqb i j then (match nth_error l j with Some _ => Some x | None => None end) else nth_error l j.
  Proof.
    revert i j. induction l as [|y l IH]; intros i j; cbn.
    - destruct i, j; cbn; auto. destruct (Nat.eqb i j); auto.
    - destruct i, j; cbn; auto.
  Qed.
  Lemma set_nth_len {T} i (x : T) l : List.length (set_nth i x l) = List.length l.
  Proof. revert i. induction l as [|y l IH]; intros [|i]; cbn; auto. Qed.

  (** the constraints a job list applies to index j, in order *)
  Definition for_idx (jobs : list (nat * constr)) (j : nat) : list constr :=
    map snd (filter (fun p => Nat.eqb (fst p) j) jobs).

  Definition jlist (l : list gval) : Prop := forall x, In x l -> J x.

  Lemma jlist_nth l j x : jlist l -> nth_error l j = Some x -> J x.
  Proof. intros H N. apply H. eapply nth_error_In; eauto. Qed.

  Lemma jlist_set l i x : jlist l -> J x -> jlist (set_nth i x l).
  Proof.
    intros H Jx y Hy. apply In_nth_error in Hy. destruct Hy as [j Hy]. rewrite nth_set_nth in Hy.
    destruct (Nat.eqb i j); [|eapply jlist_nth; eauto].
    destruct (nth_error l j); [congruence|discriminate].
  Qed.

  Lemma idx_loop_sound jobs : Forall (fun j => C (snd j)) jobs -> forall l w, jlist l ->
    Forall (fun j => (fst j < List.length l)%nat) jobs ->
    good (idx_loop rec jobs l w)
      (fun l' => List.length l' = List.length l /\ jlist l' /\
         forall j x x', nth_error l j = Some x -> nth_error l' j = Some x' -> Chain A (for_idx jobs j) x x')
      (exists j x c1 c c2 x1, nth_error l j = Some x /\ for_idx jobs j = c1 ++ c :: c2 /\ Chain A c1 x x1 /\ R c x1).
  Proof.
    induction 1 as [|[i c] jobs Hc H IH]; intros l w Jl Lt; cbn [idx_loop].
    - cbn. repeat split; auto. intros j x x' H1 H2. assert (x = x') by congruence. subst. constructor.
    - inversion Lt as [|? ? Li Lt']; subst. cbn in Li.
      destruct (nth_error l i) as [xi|] eqn:Ni; [|apply nth_error_None in Ni; lia].
      assert (Hn : nth i l GNil = xi) by (now apply nth_error_nth with (d := GNil) in Ni).
      rewrite Hn. assert (Jx : J xi) by (eapply jlist_nth; eauto).
      assert (FI : forall j, for_idx ((i, c) :: jobs) j = if Nat.eqb i j then c :: for_idx jobs j else for_idx jobs j).
      { intros j. unfold for_idx. cbn [filter fst]. destruct (Nat.eqb i j); reflexivity. }
      rec_cases c xi w; cbn [good]; auto.
      + assert (J1 : jlist (set_nth i x1 l)) by (apply jlist_set; auto).
        assert (L1 : Forall (fun j => (fst j < List.length (set_nth i x1 l))%nat) jobs) by now rewrite set_nth_len.
        specialize (IH (set_nth i x1 l) w1 J1 L1).
        destruct (idx_loop rec jobs (set_nth i x1 l) w1) as [[[] l2] w2]; cbn [good] in *; auto.
        * destruct IH as (HL & J2 & HC). rewrite set_nth_len in HL. repeat split; auto.
          intros j x x' H2 H3. rewrite FI. specialize (HC j).
          rewrite nth_set_nth in HC. destruct (Nat.eqb_spec i j) as [->|Nj].
          -- rewrite H2 in HC. econstructor; [|eapply HC; eauto]. assert (xi = x) by congruence. now subst.
          -- eapply HC; eauto.
        * destruct IH as (j & x & c1 & c0 & c2 & x2 & H2 & H3 & H4 & H5).
          rewrite nth_set_nth in H2. exists j.
          destruct (Nat.eqb_spec i j) as [->|Nj].
          -- rewrite Ni in H2. injection H2 as <-.
             exists xi, (c :: c1), c0, c2, x2. rewrite FI, Nat.eqb_refl, H3. repeat split; auto. econstructor; eauto.
          -- exists x, c1, c0, c2, x2. rewrite FI. destruct (Nat.eqb_spec i j); [congruence|]. auto.
      + exists i, xi, [], c, (for_idx jobs i), xi. rewrite FI, Nat.eqb_refl. repeat split; auto. constructor.
  Qed.

  Lemma for_idx_app a b j : for_idx (a ++ b) j = for_idx a j ++ for_idx b j.
  Proof. unfold for_idx. now rewrite filter_app, map_app. Qed.

  Lemma for_idx_seq c s k j : for_idx (map (fun i : nat => (i, c)) (seq s k)) j =
    if (s <=? j)%nat && (j <? s + k)%nat then [c] else [].
  Proof.
    revert s. induction k as [|k IH]; intros s; cbn [seq map].
    - unfold for_idx; cbn [filter map]. destruct (Nat.leb_spec s j), (Nat.ltb_spec j (s + 0)); cbn; auto; lia.
    - unfold for_idx in *. cbn [filter fst].
      destruct (Nat.eqb_spec s j) as [->|N]; cbn [map snd]; rewrite IH.
      + destruct (Nat.leb_spec (S j) j), (Nat.leb_spec j j), (Nat.ltb_spec j (j + S k)); cbn; auto; lia.
      + destruct (Nat.leb_spec (S s) j), (Nat.leb_spec s j), (Nat.ltb_spec j (S s + k)), (Nat.ltb_spec j (s + S k)); cbn; auto; lia.
  Qed.

  Lemma for_idx_pos_gen cs : forall s n j, for_idx (combine (seq s n) cs) j =
    if (s <=? j)%nat && (j <? s + n)%nat then (match nth_error cs (j - s) with Some c => [c] | None => [] end) else [].
  Proof.
    induction cs as [|c cs IH]; intros s n j.
    - destruct n; cbn [seq combine]; unfold for_idx; cbn; destruct (_ && _); auto; destruct (j - s)%nat; auto.
    - destruct n; cbn [seq combine].
      + unfold for_idx; cbn [filter map]. destruct (Nat.leb_spec s j), (Nat.ltb_spec j (s + 0)); cbn; auto; lia.
      + unfold for_idx in *. cbn [filter fst]. destruct (Nat.eqb_spec s j) as [->|N]; cbn [map snd]; rewrite IH.
        * rewrite Nat.sub_diag.
          destruct (Nat.leb_spec (S j) j), (Nat.leb_spec j j), (Nat.ltb_spec j (j + S n)); cbn; auto; lia.
        * destruct (Nat.leb_spec (S s) j), (Nat.leb_spec s j), (Nat.ltb_spec j (S s + n)), (Nat.ltb_spec j (s + S n)); cbn [andb]; auto; try lia.
          replace (j - s)%nat with (S (j - S s)) by lia. reflexivity.
  Qed.

  Lemma for_idx_pos cs n j : (j < n)%nat ->
    for_idx (positional_jobs cs n) j = match nth_error cs j with Some c => [c] | None => [] end.
  Proof.
    intros L. unfold positional_jobs. rewrite for_idx_pos_gen. rewrite Nat.sub_0_r.
    destruct (Nat.leb_spec 0 j), (Nat.ltb_spec j (0 + n)); cbn; auto; lia.
  Qed.

  Lemma uniq_loop_spec seen l : uniq_loop E seen l = true <->
    NoDup (map (sprint E true) l) /\ forall x, In x l -> ~ In (sprint E true x) seen.
  Proof.
    revert seen. induction l as [|x l IH]; intros seen; cbn [uniq_loop map].
    - split; auto. intros _. split; [constructor|tauto].
    - destruct (mem (sprint E true x) seen) eqn:M.
      + apply mem_In in M. split; [discriminate|]. intros [_ H]. exfalso. apply (H x); [now left|auto].
      + apply mem_false in M. rewrite IH. split.
        * intros [H1 H2]. split.
          -- constructor; auto. intros Hin. apply in_map_iff in Hin. destruct Hin as (y & Hy & Hin).
             apply (H2 y Hin). rewrite Hy. now left.
          -- intros y [<-|Hy]; auto. intros Hs. apply (H2 y Hy). now right.
        * intros [H1 H2]. inversion H1; subst. split; auto. intros y Hy [Hs|Hs].
          -- apply H3. rewrite Hs. now apply in_map.
          -- apply (H2 y); [now right|auto].
  Qed.

  Lemma Chain_app l1 l2 x y z : Chain A l1 x y -> Chain A l2 y z -> Chain A (l1 ++ l2) x z.
  Proof. induction 1; cbn; auto. intros. econstructor; eauto. Qed.

  Lemma arr_sound a v w : J v ->
    (a_items a <> CNil -> C (a_items a)) -> (a_add a <> CNil -> C (a_add a)) -> Forall C (a_pos a) ->
    good (arr_validate rec E a v w) (fun v' => arr_sem A R E a v (Some v') /\ J v') (arr_sem A R E a v None).
  Proof.
    intros Jv HI HA HP. unfold arr_validate.
    destruct v as [| | | | | |T i [l|]| | | | | |]; try (cbn; reflexivity).
    2:    { (* nil slice *)
      cbn [List.length].
      pose proof (within_bool (a_min a) (a_max a) (Z.of_nat 0)) as W.
      destruct ((-1 <? a_min a) && _); [cbn; left; intuition congruence|].
      destruct ((-1 <? a_max a) && _); [cbn; left; intuition congruence|].
      cbn [uniq_loop negb]. rewrite andb_false_r.
      assert (G : arr_sem A R E a (GSlice T i None) (Some (GSlice T i None))).
      { cbn. splits; try tauto.
        - intros _. constructor.
        - intros (_ & _ & HH). cbn in HH. lia.
        - exists []. splits; auto. intros j x x' HH. destruct j; discriminate. }
      destruct (a_items a); cbn [seq map idx_loop]; try (cbn [good]; split; [exact G|exact Jv]).
      unfold positional_jobs. cbn [seq combine idx_loop].
      rewrite (proj2 (Nat.ltb_ge (List.length (a_pos a)) 0)) by lia. rewrite andb_false_r.
      cbn [good]; split; [exact G|exact Jv]. }
    assert (Jl : jlist l) by (unfold jlist; eauto).
    set (n := List.length l).
    pose proof (within_bool (a_min a) (a_max a) (Z.of_nat n)) as W.
    destruct ((-1 <? a_min a) && _); [cbn; left; intuition congruence|].
    destruct ((-1 <? a_max a) && _); [cbn; left; intuition congruence|].
    assert (W' : within (a_min a) (a_max a) (Z.of_nat n)) by tauto. clear W.
    pose proof (uniq_loop_spec [] l) as U.
    destruct (a_uniq a && negb (uniq_loop E [] l)) eqn:UB.
    { apply andb_prop in UB. destruct UB as [U1 U2]. apply negb_true_iff in U2.
      cbn. right. left. split; auto. intros ND. destruct U as [_ U]. rewrite U in U2; [discriminate|].
      split; auto. }
    assert (U' : a_uniq a = true -> NoDup (map (sprint E true) l)).
    { intros Ha. rewrite Ha in UB. cbn in UB. apply negb_false_iff in UB. apply U in UB. tauto. }
    clear U UB.
    assert (OKI : forall c, a_items a = c -> c <> CNil ->
      good (let '(r, l1, w1) := idx_loop rec (map (fun i0 : nat => (i0, c)) (seq 0 n)) l w in
            (r, GSlice T i (Some l1), w1))
        (fun v' => arr_sem A R E a (GSlice T i (Some l)) (Some v') /\ J v')
        (arr_sem A R E a (GSlice T i (Some l)) None)).
    { intros c Hc Nc. rewrite Hc in HI. specialize (HI Nc).
      assert (EC : forall j, (j < n)%nat -> elem_cs a n j = for_idx (map (fun i0 : nat => (i0, c)) (seq 0 n)) j).
      { intros j Lj. rewrite for_idx_seq. unfold elem_cs. rewrite Hc.
        destruct (Nat.leb_spec 0 j), (Nat.ltb_spec j (0 + n)); try lia. cbn. destruct c; congruence. }
      pose proof (idx_loop_sound (map (fun i0 : nat => (i0, c)) (seq 0 n))) as IS.
      assert (F1 : Forall (fun j : nat * constr => C (snd j)) (map (fun i0 : nat => (i0, c)) (seq 0 n))).
      { apply Forall_forall. intros j Hj. apply in_map_iff in Hj. destruct Hj as (? & <- & _). exact HI. }
      assert (F2 : Forall (fun j : nat * constr => (fst j < List.length l)%nat) (map (fun i0 : nat => (i0, c)) (seq 0 n))).
      { apply Forall_forall. intros j Hj. apply in_map_iff in Hj. destruct Hj as (? & <- & Hj). apply in_seq in Hj. cbn. unfold n in Hj. lia. }
      specialize (IS F1 l w Jl F2).
      destruct (idx_loop rec _ l w) as [[[] l1] w1]; cbn [good] in *; auto.
      - destruct IS as (HL & J1 & HC). split; [|apply Jout; exact J1]. cbn. fold n. splits; try tauto.
        + intros (HH & _). congruence.
        + exists l1. splits; auto. intros j x x' N1 N2.
          rewrite EC; [eapply HC; eauto|]. unfold n. apply nth_error_Some. congruence.
      - destruct IS as (j & x & c1 & c0 & c2 & x1 & N1 & N2 & N3 & N4). cbn. right. right. right.
        exists j, x, c1, c0, c2, x1. splits; auto. fold n. rewrite EC; auto.
        unfold n. apply nth_error_Some. congruence. }
    destruct (a_items a) eqn:Ei; try (apply OKI; [reflexivity|discriminate]).
    clear OKI HI.
    set (lp := List.length (a_pos a)).
    assert (F1 : Forall (fun j : nat * constr => C (snd j)) (positional_jobs (a_pos a) n)).
    { apply Forall_forall. intros [j c] Hj. unfold positional_jobs in Hj. apply in_combine_r in Hj.
      rewrite Forall_forall in HP. auto. }
    assert (F2 : Forall (fun j : nat * constr => (fst j < List.length l)%nat) (positional_jobs (a_pos a) n)).
    { apply Forall_forall. intros [j c] Hj. unfold positional_jobs in Hj. apply in_combine_l in Hj. apply in_seq in Hj. cbn. unfold n in *. lia. }
    pose proof (idx_loop_sound _ F1 l w Jl F2) as IS.
    destruct (idx_loop rec (positional_jobs (a_pos a) n) l w) as [[[] l1] w1]; cbn [good] in IS; try (cbn [good]; tauto).
    2:{ cbn [good]. destruct IS as (j & x & c1 & c0 & c2 & x1 & N1 & N2 & N3 & N4). cbn. right. right. right.
        assert (Lj : (j < n)%nat) by (unfold n; apply nth_error_Some; congruence).
        rewrite for_idx_pos in N2 by exact Lj.
        exists j, x, c1, c0, (c2 ++ (if (0 <? lp)%nat && (lp <? n)%nat && (lp - 1 <=? j)%nat then [a_add a] else [])), x1.
        splits; auto. unfold elem_cs. rewrite Ei. fold lp n. rewrite N2, <- app_assoc. reflexivity. }
    destruct IS as (HL & J1 & HC).
    destruct ((0 <? lp)%nat && (lp <? n)%nat) eqn:EX.
    - apply andb_prop in EX. destruct EX as [EX1 EX2]. apply Nat.ltb_lt in EX1, EX2.
      assert (OKA : forall c, a_add a = c -> c <> CNil ->
        good (let '(r, l2, w2) := idx_loop rec (map (fun i0 : nat => (i0, c)) (seq (lp - 1) (n - (lp - 1)))) l1 w1 in
              (r, GSlice T i (Some l2), w2))
          (fun v' => arr_sem A R E a (GSlice T i (Some l)) (Some v') /\ J v')
          (arr_sem A R E a (GSlice T i (Some l)) None)).
      { intros c Hc Nc. rewrite Hc in HA. specialize (HA Nc).
        set (jobs2 := map (fun i0 : nat => (i0, c)) (seq (lp - 1) (n - (lp - 1)))).
        assert (EC : forall j, (j < n)%nat -> elem_cs a n j =
          (match nth_error (a_pos a) j with Some c => [c] | None => [] end) ++ for_idx jobs2 j).
        { intros j Lj. unfold jobs2. rewrite for_idx_seq. unfold elem_cs. rewrite Ei. fold lp. f_equal.
          rewrite Hc. rewrite (proj2 (Nat.ltb_lt 0 lp) EX1), (proj2 (Nat.ltb_lt lp n) EX2). cbn [andb].
          replace (lp - 1 + (n - (lp - 1)))%nat with n by lia.
          rewrite (proj2 (Nat.ltb_lt j n) Lj), andb_true_r. reflexivity. }
        assert (G1 : Forall (fun j : nat * constr => C (snd j)) jobs2).
        { apply Forall_forall. intros j Hj. apply in_map_iff in Hj. destruct Hj as (? & <- & _). exact HA. }
        assert (G2 : Forall (fun j : nat * constr => (fst j < List.length l1)%nat) jobs2).
        { apply Forall_forall. intros j Hj. apply in_map_iff in Hj. destruct Hj as (? & <- & Hj). apply in_seq in Hj.
          cbn. rewrite HL. fold n. lia. }
        pose proof (idx_loop_sound jobs2 G1 l1 w1 J1 G2) as IS2.
        fold jobs2. destruct (idx_loop rec jobs2 l1 w1) as [[[] l2] w2]; cbn [good] in *; auto.
        - destruct IS2 as (HL2 & J2 & HC2). split; [|apply Jout; exact J2]. cbn. fold n. splits; try tauto.
          + intros (_ & HH & _). congruence.
          + exists l2. rewrite HL2. splits; auto. intros j x x' N1 N2.
            assert (Lj : (j < n)%nat) by (unfold n; apply nth_error_Some; congruence).
            destruct (nth_error l1 j) as [y|] eqn:N3; [|apply nth_error_None in N3; unfold n in *; lia].
            rewrite EC by exact Lj. eapply Chain_app; [|eapply HC2; eauto].
            rewrite <- (for_idx_pos (a_pos a) n j Lj). eapply HC; eauto.
        - destruct IS2 as (j & x & c1 & c0 & c2 & x1 & N1 & N2 & N3 & N4). cbn. right. right. right.
          assert (Lj : (j < n)%nat) by (unfold n; rewrite <- HL; apply nth_error_Some; congruence).
          destruct (nth_error l j) as [y|] eqn:N5; [|apply nth_error_None in N5; unfold n in *; lia].
          exists j, y, ((match nth_error (a_pos a) j with Some c => [c] | None => [] end) ++ c1), c0, c2, x1.
          splits; auto.
          + fold n. rewrite EC by exact Lj. rewrite N2, <- app_assoc. reflexivity.
          + eapply Chain_app; [|exact N3]. rewrite <- (for_idx_pos (a_pos a) n j Lj). eapply HC; eauto. }
      destruct (a_add a) eqn:Ea; try (apply OKA; [reflexivity|discriminate]).
      cbn [good]. cbn. right. right. left. unfold too_many. fold lp n. rewrite Ei, Ea. auto.
    - cbn [good]. split; [|apply Jout; exact J1]. cbn. fold n. splits; try tauto.
      + intros (_ & _ & HH). fold lp in HH.
        rewrite (proj2 (Nat.ltb_lt 0 lp)), (proj2 (Nat.ltb_lt lp n)) in EX by lia. discriminate.
      + exists l1. splits; auto. intros j x x' N1 N2.
        assert (Lj : (j < n)%nat) by (unfold n; apply nth_error_Some; congruence).
        unfold elem_cs. rewrite Ei. fold lp. rewrite EX. cbn [andb]. rewrite app_nil_r.
        rewrite <- (for_idx_pos (a_pos a) n j Lj). eapply HC; eauto.
  Qed.
End Sound.
