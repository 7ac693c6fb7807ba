(** Derivations of the documented meaning have a finite height. *)
From Verif Require Import Base GoFloat FloatSpec GoValue Maybe Formats HostSpec Constraint StructInfo Validate Fuel Reach Spec SpecSound Scalars DocSpec Repeat.
Open Scope Z_scope.

(** one step of [Satisfies] and of [Violates] *)
Definition sat_step (E : env) (S V : constr -> gval -> Prop) (c : constr) (v : gval) : Prop :=
  match c with
  | CNil => False
  | CEmpty => True
  | CNull | CBool _ | CStr _ _ | CNum _ _ | CInt _ _ | CEnum _ => means E c v
  | CArr a => exists T i ol, v = GSlice T i ol /\
      sizes (a_min a) (a_max a) (List.length (elements ol)) /\
      (a_uniq a = true -> NoDup (elements ol)) /\
      (forall j, (j < List.length (elements ol))%nat -> ~ surplus a j) /\
      (forall j x c, nth_error (elements ol) j = Some x -> item_rule a j c -> S c x)
  | CObj o => exists T kk i ET m, v = GMap T kk i ET (Some m) /\
      sizes (o_min o) (o_max o) (List.length m) /\
      (forall k, is_required o k = true -> In k (keys m)) /\
      (forall k, In k (keys m) -> covered E o k \/ o_add o <> CNil) /\
      (forall k x c, sget k m = Some x -> applies E o k c -> S c x) /\
      (forall k d, In k (keys m) -> In d (prop_deps o k) -> In d (keys m)) /\
      (forall k, In k (keys m) -> schema_dep o k <> CNil -> S (schema_dep o k) v)
  | CAll l => forall c, In c l -> S c v
  | CAny l => exists c, In c l /\ S c v
  | COneOf l => exists l1 c l2, l = l1 ++ c :: l2 /\ S c v /\ forall c', In c' (l1 ++ l2) -> V c' v
  | CNot c => V c v
  | CRef n => exists c, e_refs E n = Some c /\ S c v
  end.
Definition vio_step (E : env) (S V : constr -> gval -> Prop) (c : constr) (v : gval) : Prop :=
  match c with
  | CNil => False
  | CEmpty => False
  | CNull | CBool _ | CStr _ _ | CNum _ _ | CInt _ _ | CEnum _ => ~ means E c v
  | CArr a =>
      (forall T i ol, v <> GSlice T i ol) \/
      exists T i ol, v = GSlice T i ol /\
        (~ sizes (a_min a) (a_max a) (List.length (elements ol)) \/
         (a_uniq a = true /\ ~ NoDup (elements ol)) \/
         (exists j, (j < List.length (elements ol))%nat /\ surplus a j) \/
         (exists j x c, nth_error (elements ol) j = Some x /\ item_rule a j c /\ V c x))
  | CObj o =>
      (forall T kk i ET m, v <> GMap T kk i ET (Some m)) \/
      exists T kk i ET m, v = GMap T kk i ET (Some m) /\
        (~ sizes (o_min o) (o_max o) (List.length m) \/
         (exists k, is_required o k = true /\ ~ In k (keys m)) \/
         (exists k, In k (keys m) /\ ~ covered E o k /\ o_add o = CNil) \/
         (exists k x c, sget k m = Some x /\ applies E o k c /\ V c x) \/
         (exists k d, In k (keys m) /\ In d (prop_deps o k) /\ ~ In d (keys m)) \/
         (exists k, In k (keys m) /\ schema_dep o k <> CNil /\ V (schema_dep o k) v))
  | CAll l => exists c, In c l /\ V c v
  | CAny l => forall c, In c l -> V c v
  | COneOf l => (forall c, In c l -> V c v) \/
      exists l1 c1 l2 c2 l3, l = l1 ++ c1 :: l2 ++ c2 :: l3 /\ S c1 v /\ S c2 v
  | CNot c => c = CNil \/ S c v
  | CRef n => e_refs E n = None \/ exists c, e_refs E n = Some c /\ V c v
  end.

Fixpoint holds (E : env) (n : nat) (pos : bool) (c : constr) (v : gval) : Prop :=
  match n with
  | O => False
  | S n' => if pos then sat_step E (holds E n' true) (holds E n' false) c v
            else vio_step E (holds E n' true) (holds E n' false) c v
  end.

Lemma sat_step_mono E (S V S' V' : constr -> gval -> Prop) :
  (forall c v, S c v -> S' c v) -> (forall c v, V c v -> V' c v) ->
  (forall c v, sat_step E S V c v -> sat_step E S' V' c v).
Proof.
  intros HS HV c v. destruct c; cbn [sat_step]; auto.
  - intros (T & i & ol & H1 & H2 & H3 & H4 & H5). exists T, i, ol. splits; eauto.
  - intros (T & kk & i & ET & m & H1 & H2 & H3 & H4 & H5 & H6 & H7). exists T, kk, i, ET, m. splits; eauto.
  - intros (x & H1 & H2). eauto.
  - intros (l1 & x & l2 & H1 & H2 & H3). exists l1, x, l2. splits; auto.
  - intros (x & H1 & H2). eauto.
Qed.
Lemma vio_step_mono E (S V S' V' : constr -> gval -> Prop) :
  (forall c v, S c v -> S' c v) -> (forall c v, V c v -> V' c v) ->
  (forall c v, vio_step E S V c v -> vio_step E S' V' c v).
Proof.
  intros HS HV c v. destruct c; cbn [vio_step]; auto.
  - intros [H|(T & i & ol & H1 & H2)]; auto. right. exists T, i, ol. split; auto.
    destruct H2 as [H2|[H2|[H2|(j & x & c0 & A & B & C)]]]; auto. right. right. right. exists j, x, c0. auto.
  - intros [H|(T & kk & i & ET & m & H1 & H2)]; auto. right. exists T, kk, i, ET, m. split; auto.
    destruct H2 as [H2|[H2|[H2|[(k & x & c0 & A & B & C)|[H2|(k & A & B & C)]]]]]; auto 8.
    + right. right. right. left. exists k, x, c0. auto.
    + right. right. right. right. right. exists k. auto.
  - intros (x & H1 & H2). eauto.
  - intros [H|(l1 & c1 & l2 & c2 & l3 & H1 & H2 & H3)]; auto. right. exists l1, c1, l2, c2, l3. auto.
  - intros [H|H]; auto.
  - intros [H|(x & H1 & H2)]; auto. right. eauto.
Qed.

Lemma holds_S E n : forall pos c v, holds E n pos c v -> holds E (S n) pos c v.
Proof.
  induction n as [|n IH]; intros pos c v; [intros []|]. intros H.
  change (if pos then sat_step E (holds E n true) (holds E n false) c v else vio_step E (holds E n true) (holds E n false) c v) in H.
  change (if pos then sat_step E (holds E (S n) true) (holds E (S n) false) c v else vio_step E (holds E (S n) true) (holds E (S n) false) c v).
  destruct pos; [eapply sat_step_mono|eapply vio_step_mono]; try exact H; intros ? ?; apply IH.
Qed.
Lemma holds_le E n m pos c v : (n <= m)%nat -> holds E n pos c v -> holds E m pos c v.
Proof. induction 1; auto. intros H1. apply holds_S. auto. Qed.

(** keep the index *)
Lemma holds_sat E n c v : holds E n true c v -> sat_step E (holds E n true) (holds E n false) c v.
Proof. destruct n as [|n]; [intros []|]. intros H. eapply sat_step_mono; [..|exact H]; intros ? ?; apply holds_S. Qed.
Lemma holds_vio E n c v : holds E n false c v -> vio_step E (holds E n true) (holds E n false) c v.
Proof. destruct n as [|n]; [intros []|]. intros H. eapply vio_step_mono; [..|exact H]; intros ? ?; apply holds_S. Qed.

(** the constraints that apply to a property, listed *)
Definition applying (E : env) (o : objcfg) (k : string) : list constr :=
  match sget k (o_props o) with Some c => [c] | None => [] end ++
  map snd (filter (fun e => e_rx E (snd (fst e)) k) (o_pats o)) ++
  (if mem k (keys (o_props o)) || existsb (fun e => e_rx E (snd (fst e)) k) (o_pats o) then []
   else match o_add o with CNil => [] | c => [c] end).
Lemma covered_bool E o k : covered E o k <-> mem k (keys (o_props o)) || existsb (fun e => e_rx E (snd (fst e)) k) (o_pats o) = true.
Proof.
  rewrite orb_true_iff, mem_In, existsb_exists. unfold covered, matches. split; (intros [H|H]; [now left|right]).
  - destruct H as (c & p & I & R). exists (p, c). auto.
  - destruct H as ([p c] & I & R). exists c, p. auto.
Qed.
Lemma applying_spec E o k c : In c (applying E o k) <-> applies E o k c.
Proof.
  unfold applying, applies. rewrite !in_app_iff. rewrite covered_bool.
  assert (A : In c match sget k (o_props o) with Some c => [c] | None => [] end <-> sget k (o_props o) = Some c).
  { destruct (sget k (o_props o)); cbn; [|split; [intros []|discriminate]]. split; [intros [->|[]]; auto|intros [= ->]; auto]. }
  assert (B : In c (map snd (filter (fun e => e_rx E (snd (fst e)) k) (o_pats o))) <-> matches E o k c).
  { rewrite in_map_iff. unfold matches. split.
    - intros ([p x] & <- & I). apply filter_In in I as [I R]. exists p. auto.
    - intros (p & I & R). exists (p, c). split; auto. apply filter_In. auto. }
  rewrite A, B. destruct (mem k (keys (o_props o)) || existsb _ (o_pats o)) eqn:Q.
  - cbn. intuition congruence.
  - assert (C : In c match o_add o with CNil => [] | c => [c] end <-> c = o_add o /\ c <> CNil).
    { destruct (o_add o); cbn; intuition congruence. }
    rewrite C. intuition congruence.
Qed.

Definition item_of (a : arrcfg) (j : nat) : constr :=
  match a_items a with
  | CNil => match nth_error (a_pos a) j with Some p => p | None => match a_pos a with [] => CNil | _ => a_add a end end
  | x => x
  end.
Lemma item_of_spec a j c : item_rule a j c <-> c = item_of a j /\ c <> CNil.
Proof.
  unfold item_rule, item_of. destruct (a_items a); try tauto. destruct (nth_error (a_pos a) j); try tauto.
  destruct (a_pos a); intuition congruence.
Qed.

Section Heights.
  Variable E : env.
  Lemma all_heights pos (L : list (constr * gval)) :
    (forall x, In x L -> exists n, holds E n pos (fst x) (snd x)) ->
    exists n, forall x, In x L -> holds E n pos (fst x) (snd x).
  Proof. apply (bound_all (fun n x => holds E n pos (fst x) (snd x))). intros. eapply holds_le; eauto. Qed.

  Lemma list_heights pos l v : (forall c, In c l -> exists n, holds E n pos c v) -> exists n, forall c, In c l -> holds E n pos c v.
  Proof. apply (bound_all (fun n c => holds E n pos c v)). intros. eapply holds_le; eauto. Qed.

End Heights.

Combined Scheme SV_mut from Sat_mut, Vio_mut.
Theorem derivation_height E pos c v : (if pos : bool then Satisfies E c v else Violates E c v) -> exists n, holds E n pos c v.
Proof.
  assert (SC : forall b c v, scalar_c c = true -> (if b : bool then means E c v else ~ means E c v) -> exists n, holds E n b c v).
  { intros b c0 v0 S0 H. exists 1%nat. destruct b, c0; try discriminate; exact H. }
  enough (HH : (forall c v, Satisfies E c v -> exists n, holds E n true c v) /\ (forall c v, Violates E c v -> exists n, holds E n false c v)).
  { destruct HH as [H1 H2]. destruct pos; auto. }
  clear c v pos.
  apply (SV_mut E (fun c v => exists n, holds E n true c v) (fun c v => exists n, holds E n false c v)); intros.
  - exists 1%nat. exact I.
  - apply (SC true); auto. eapply scalar_not_composite; eauto.
  - destruct (all_heights E true (map (fun j => (item_of a j, nth j (elements ol) GNil))
               (filter (fun j => negb (match item_of a j with CNil => true | _ => false end)) (seq 0 (List.length (elements ol)))))) as [n Hn].
    { intros x Hx. apply in_map_iff in Hx as (j & <- & Hj). apply filter_In in Hj as [Hj NC]. apply in_seq in Hj. cbn [fst snd].
      apply (H3 j); [apply nth_error_nth'; lia|]. apply item_of_spec. split; auto. intros Z. rewrite Z in NC. discriminate. }
    exists (S n). cbn [holds sat_step]. exists T, i, ol. splits; auto.
    intros j x c Hx Hc. apply item_of_spec in Hc as [-> NC].
    assert (j < List.length (elements ol))%nat by (apply nth_error_Some; congruence).
    rewrite <- (nth_error_nth _ _ GNil Hx). apply (Hn (item_of a j, nth j (elements ol) GNil)).
    apply in_map_iff. exists j. split; auto. apply filter_In. split; [apply in_seq; lia|]. destruct (item_of a j); auto.
  - set (v := GMap T kk i ET (Some m)) in *.
    destruct (all_heights E true (flat_map (fun k => match sget k m with Some x => map (fun c => (c, x)) (applying E o k) | None => [] end) (keys m))) as [n1 Hn1].
    { intros x Hx. apply in_flat_map in Hx as (k & Hk & Hx). destruct (sget k m) as [y|] eqn:G; [|destruct Hx].
      apply in_map_iff in Hx as (c & <- & Hc). cbn [fst snd]. apply (H3 k); auto. now apply applying_spec. }
    destruct (all_heights E true (flat_map (fun k => match schema_dep o k with CNil => [] | c => [(c, v)] end) (keys m))) as [n2 Hn2].
    { intros x Hx. apply in_flat_map in Hx as (k & Hk & Hx). specialize (H6 k Hk).
      destruct (schema_dep o k); try (destruct Hx; fail); destruct Hx as [<-|[]]; apply H6; discriminate. }
    exists (S (Nat.max n1 n2)). cbn [holds sat_step]. exists T, kk, i, ET, m. splits; auto.
    + intros k x c G A. eapply holds_le; [|apply (Hn1 (c, x))]; [lia|]. apply in_flat_map. exists k.
      split; [apply sget_some_keys; eauto|]. rewrite G. apply in_map_iff. exists c. split; auto. now apply applying_spec.
    + intros k Hk Nk. eapply holds_le; [|apply (Hn2 (schema_dep o k, v))]; [lia|]. apply in_flat_map. exists k.
      split; auto. destruct (schema_dep o k); try (left; reflexivity). congruence.
  - destruct (list_heights E true l v) as [n Hn]; auto. exists (S n). exact Hn.
  - destruct H1 as [h Hn]. exists (S h). cbn. eauto.
  - destruct H0 as [n1 Hn1]. destruct (list_heights E false (l1 ++ l2) v) as [n2 Hn2]; auto.
    exists (S (Nat.max n1 n2)). cbn. exists l1, c, l2. splits; auto.
    + eapply holds_le; [|exact Hn1]. lia.
    + intros c' Hc'. eapply holds_le; [|apply Hn2; exact Hc']. lia.
  - destruct H0 as [n Hn]. exists (S n). exact Hn.
  - destruct H1 as [h Hn]. exists (S h). cbn. eauto.
  - apply (SC false); auto.
  - exists 1%nat. cbn. auto.
  - exists 1%nat. cbn. right. exists T, i, ol. auto.
  - exists 1%nat. cbn. right. exists T, i, ol. auto.
  - exists 1%nat. cbn. right. exists T, i, ol. split; auto. right. right. left. eauto.
  - destruct H2 as [n Hn]. exists (S n). cbn. right. exists T, i, ol. split; auto. do 3 right. eauto 6.
  - exists 1%nat. cbn. auto.
  - exists 1%nat. cbn. right. exists T, kk, i, ET, m. auto.
  - exists 1%nat. cbn. right. exists T, kk, i, ET, m. split; auto. right. left. eauto.
  - exists 1%nat. cbn. right. exists T, kk, i, ET, m. split; auto. right. right. left. eauto.
  - destruct H2 as [n Hn]. exists (S n). cbn. right. exists T, kk, i, ET, m. split; auto. do 3 right. left. eauto 6.
  - exists 1%nat. cbn. right. exists T, kk, i, ET, m. split; auto. do 4 right. left. eauto.
  - destruct H2 as [n Hn]. exists (S n). cbn. right. exists T, kk, i, ET, m. split; auto. do 5 right. eauto.
  - destruct H1 as [h Hn]. exists (S h). cbn. eauto.
  - destruct (list_heights E false l v) as [n Hn]; auto. exists (S n). exact Hn.
  - destruct (list_heights E false l v) as [n Hn]; auto. exists (S n). cbn. auto.
  - destruct H0 as [n1 Hn1], H2 as [n2 Hn2]. exists (S (Nat.max n1 n2)). cbn. right. exists l1, c1, l2, c2, l3. splits; auto.
    + eapply holds_le; [|exact Hn1]. lia.
    + eapply holds_le; [|exact Hn2]. lia.
  - destruct H0 as [n Hn]. exists (S n). cbn. auto.
  - exists 1%nat. cbn. auto.
  - destruct H1 as [h Hn]. exists (S h). cbn. eauto.
  - exists 1%nat. cbn. auto.
Qed.
