(** Generic helpers: finite maps keyed by strings (sorted association lists,
    the canonical form of a Go map), and the oracle that chooses the iteration
    order of a Go [range] over a map.  Nothing here models /repo code except
    where stated. *)
From Coq Require Export String Ascii ZArith Bool Lia Permutation Sorted Arith List.
Export ListNotations.
#[global] Open Scope list_scope.

Notation "a +++ b" := (String.append a b) (right associativity, at level 60).

(** ** Strings ordered bytewise (Go's [<] on strings) *)
Definition slt (a b : string) : Prop := String.compare a b = Lt.

Lemma compare_refl s : String.compare s s = Eq.
Proof. induction s as [|a s IH]; cbn; auto. unfold Ascii.compare. now rewrite N.compare_refl. Qed.

Lemma ascii_compare_trans a b c :
  Ascii.compare a b = Lt -> Ascii.compare b c = Lt -> Ascii.compare a c = Lt.
Proof. unfold Ascii.compare; rewrite !N.compare_lt_iff; lia. Qed.

Lemma ascii_compare_eq a b : Ascii.compare a b = Eq -> a = b.
Proof.
  unfold Ascii.compare. intros H%N.compare_eq_iff.
  rewrite <- (ascii_N_embedding a), <- (ascii_N_embedding b). now rewrite H.
Qed.

Lemma slt_trans a b c : slt a b -> slt b c -> slt a c.
Proof.
  unfold slt. revert b c; induction a as [|x a IH]; intros [|y b] [|z c]; cbn; try congruence.
  destruct (Ascii.compare x y) eqn:E1, (Ascii.compare y z) eqn:E2; try congruence; intros H1 H2.
  - apply ascii_compare_eq in E1, E2; subst.
    assert (E : Ascii.compare z z = Eq) by (unfold Ascii.compare; apply N.compare_refl).
    rewrite E. eauto.
  - apply ascii_compare_eq in E1; subst. now rewrite E2.
  - apply ascii_compare_eq in E2; subst. now rewrite E1.
  - now rewrite (ascii_compare_trans _ _ _ E1 E2).
Qed.

Lemma slt_irrefl a : ~ slt a a.
Proof. unfold slt; rewrite compare_refl; congruence. Qed.

Lemma compare_gt_slt a b : String.compare a b = Gt -> slt b a.
Proof.
  unfold slt; intros H. rewrite String.compare_antisym, H. reflexivity.
Qed.

(** ** String-keyed finite maps *)
Section SMap.
  Context {A : Type}.

  Fixpoint sget (k : string) (m : list (string * A)) : option A :=
    match m with
    | [] => None
    | (k', x) :: m' => if String.eqb k k' then Some x else sget k m'
    end.

  Fixpoint sset (k : string) (x : A) (m : list (string * A)) : list (string * A) :=
    match m with
    | [] => [(k, x)]
    | (k', y) :: m' =>
        match String.compare k k' with
        | Lt => (k, x) :: m
        | Eq => (k, x) :: m'
        | Gt => (k', y) :: sset k x m'
        end
    end.

  Definition sdel (k : string) (m : list (string * A)) : list (string * A) :=
    filter (fun p => negb (String.eqb k (fst p))) m.

  (** replace the value of an existing key in place *)
  Fixpoint supd (k : string) (x : A) (m : list (string * A)) : list (string * A) :=
    match m with
    | [] => []
    | (k', y) :: r => if String.eqb k k' then (k', x) :: r else (k', y) :: supd k x r
    end.

  Definition keys (m : list (string * A)) : list string := map fst m.

  (** the canonical form of a map: keys strictly increasing *)
  Definition ssorted (m : list (string * A)) : Prop := StronglySorted slt (keys m).

  Lemma sget_sset_same k x m : sget k (sset k x m) = Some x.
  Proof.
    induction m as [|[k' y] m IH]; cbn; [now rewrite String.eqb_refl|].
    destruct (String.compare k k') eqn:E; cbn; rewrite ?String.eqb_refl; auto.
    destruct (String.eqb_spec k k'); auto.
    subst; rewrite compare_refl in E; congruence.
  Qed.

  Lemma sget_sset_other k k' x m : k' <> k -> sget k' (sset k x m) = sget k' m.
  Proof.
    intros Hne; induction m as [|[k2 y] m IH]; cbn.
    - destruct (String.eqb_spec k' k); congruence.
    - destruct (String.compare k k2) eqn:E; cbn.
      + apply String.compare_eq_iff in E; subst.
        destruct (String.eqb_spec k' k2); congruence.
      + destruct (String.eqb_spec k' k); [congruence|reflexivity].
      + now rewrite IH.
  Qed.

  Lemma sget_sdel_same k m : sget k (sdel k m) = None.
  Proof.
    induction m as [|[k' y] m IH]; cbn; auto.
    destruct (String.eqb_spec k k'); cbn; auto.
    destruct (String.eqb_spec k k'); [congruence|exact IH].
  Qed.

  Lemma sget_sdel_other k k' m : k' <> k -> sget k' (sdel k m) = sget k' m.
  Proof.
    intros Hne; induction m as [|[k2 y] m IH]; cbn; auto.
    destruct (String.eqb_spec k k2); cbn.
    - subst. destruct (String.eqb_spec k' k2); [congruence|exact IH].
    - destruct (String.eqb_spec k' k2); [reflexivity|exact IH].
  Qed.

  Lemma sdel_absent k m : sget k m = None -> sdel k m = m.
  Proof.
    induction m as [|[k' y] m IH]; cbn; auto.
    destruct (String.eqb_spec k k'); [congruence|].
    cbn; intros H; f_equal; exact (IH H).
  Qed.

  Lemma sget_in k x m : sget k m = Some x -> In (k, x) m.
  Proof.
    induction m as [|[k' y] m IH]; cbn; [congruence|].
    destruct (String.eqb_spec k k'); intros H; [left; congruence|right; auto].
  Qed.

  Lemma sget_none_keys k m : sget k m = None <-> ~ In k (keys m).
  Proof.
    induction m as [|[k' y] m IH]; cbn; [tauto|].
    destruct (String.eqb_spec k k'); subst; [split; [congruence|tauto]|].
    rewrite IH; intuition congruence.
  Qed.

  Lemma sget_some_keys k m : (exists x, sget k m = Some x) <-> In k (keys m).
  Proof.
    destruct (sget k m) eqn:E.
    - split; [|eauto]. intros _. apply sget_in in E.
      apply in_map_iff. now exists (k, a).
    - apply sget_none_keys in E. split; [intros [x H]; congruence|tauto].
  Qed.

  Lemma supd_same k x m : sget k m = Some x -> supd k x m = m.
  Proof.
    induction m as [|[k' y] m IH]; cbn; [reflexivity|].
    destruct (String.eqb k k'); [congruence|]. intros H. now rewrite IH.
  Qed.

  Lemma supd_keys k x m : keys (supd k x m) = keys m.
  Proof.
    induction m as [|[k' y] m IH]; cbn; [reflexivity|].
    destruct (String.eqb k k'); cbn; [reflexivity|]. unfold keys in IH. now rewrite IH.
  Qed.

  Lemma sget_supd_same k x m : In k (keys m) -> sget k (supd k x m) = Some x.
  Proof.
    induction m as [|[k' y] m IH]; cbn; [tauto|].
    destruct (String.eqb_spec k k') as [->|N]; cbn.
    - now rewrite String.eqb_refl.
    - intros [H|H]; [congruence|]. destruct (String.eqb_spec k k'); [congruence|]. auto.
  Qed.

  Lemma sget_supd_other k k' x m : k' <> k -> sget k' (supd k x m) = sget k' m.
  Proof.
    intros N. induction m as [|[j y] m IH]; cbn; [reflexivity|].
    destruct (String.eqb_spec k j) as [->|M]; cbn.
    - destruct (String.eqb_spec k' j); [congruence|reflexivity].
    - destruct (String.eqb_spec k' j); auto.
  Qed.

  Lemma supd_length k x m : List.length (supd k x m) = List.length m.
  Proof.
    induction m as [|[j y] m IH]; cbn; [reflexivity|]. destruct (String.eqb k j); cbn; auto.
  Qed.

  Lemma ssorted_nodup m : ssorted m -> NoDup (keys m).
  Proof.
    unfold ssorted. induction (keys m) as [|k ks IH]; constructor.
    - inversion H as [|? ? ? HF]; subst. intros Hin.
      rewrite Forall_forall in HF. apply (slt_irrefl k), HF, Hin.
    - inversion H; auto.
  Qed.

  Lemma nodup_sget m k x : NoDup (keys m) -> In (k, x) m -> sget k m = Some x.
  Proof.
    induction m as [|[k' y] m IH]; cbn; [tauto|].
    intros Hnd [H|H]; inversion Hnd; subst.
    - inversion H; subst; now rewrite String.eqb_refl.
    - destruct (String.eqb_spec k k'); auto; subst.
      exfalso. apply H2, in_map_iff. now exists (k', x).
  Qed.

  Lemma sset_keys k x m k' : In k' (keys (sset k x m)) <-> k' = k \/ In k' (keys m).
  Proof.
    rewrite <- !sget_some_keys. destruct (String.eqb_spec k' k).
    - subst. rewrite sget_sset_same. split; eauto.
    - rewrite sget_sset_other by auto. intuition congruence.
  Qed.

  Lemma sset_sorted k x m : ssorted m -> ssorted (sset k x m).
  Proof.
    unfold ssorted. induction m as [|[k' y] m IH]; cbn; intros H.
    - repeat constructor.
    - inversion H as [|? ? Hs HF]; subst.
      destruct (String.compare k k') eqn:E; cbn.
      + apply String.compare_eq_iff in E; subst. now constructor.
      + constructor; auto. constructor; auto.
        rewrite Forall_forall in *. intros z Hz. eapply slt_trans; eauto. 
      + constructor; auto.
        rewrite Forall_forall in *. intros z Hz.
        apply sset_keys in Hz as [->|Hz]; auto. now apply compare_gt_slt.
  Qed.

  Lemma sdel_sorted k m : ssorted m -> ssorted (sdel k m).
  Proof.
    unfold ssorted. induction m as [|[k' y] m IH]; cbn; intros H; auto.
    inversion H as [|? ? Hs HF]; subst.
    destruct (String.eqb k k'); cbn; auto. constructor; auto.
    rewrite Forall_forall in *. intros z Hz. apply HF.
    apply in_map_iff in Hz as ([z' w] & <- & Hz). apply filter_In in Hz.
    apply in_map_iff. exists (z', w); tauto.
  Qed.

  Lemma ssorted_ext m1 : forall m2,
    ssorted m1 -> ssorted m2 -> (forall k, sget k m1 = sget k m2) -> m1 = m2.
  Proof.
    unfold ssorted. induction m1 as [|[k1 x1] m1 IH]; intros [|[k2 x2] m2] H1 H2 E; auto.
    - specialize (E k2); cbn in E; rewrite String.eqb_refl in E; congruence.
    - specialize (E k1); cbn in E; rewrite String.eqb_refl in E; congruence.
    - cbn in H1, H2. inversion H1 as [|? ? S1 F1]; inversion H2 as [|? ? S2 F2]; subst.
      rewrite Forall_forall in F1, F2.
      assert (k1 = k2) as ->.
      { destruct (String.eqb_spec k1 k2); auto. exfalso.
        assert (In k1 (keys m2)).
        { apply sget_some_keys. specialize (E k1). cbn in E.
          rewrite String.eqb_refl in E. destruct (String.eqb_spec k1 k2); eauto; congruence. }
        assert (In k2 (keys m1)).
        { apply sget_some_keys. specialize (E k2). cbn in E.
          rewrite String.eqb_refl in E. destruct (String.eqb_spec k2 k1); eauto; congruence. }
        apply (slt_irrefl k1). eapply slt_trans; [apply F1|apply F2]; eauto. }
      assert (x1 = x2) as ->.
      { specialize (E k2). cbn in E. rewrite String.eqb_refl in E. congruence. }
      f_equal. apply IH; auto. intros k. specialize (E k). cbn in E.
      destruct (String.eqb_spec k k2); auto. subst.
      assert (N1 : sget k2 m1 = None).
      { apply sget_none_keys. intros Hin. now apply (slt_irrefl k2), F1. }
      assert (N2 : sget k2 m2 = None).
      { apply sget_none_keys. intros Hin. now apply (slt_irrefl k2), F2. }
      congruence.
  Qed.
End SMap.

(** ** Membership in a list of names *)
Definition mem (k : string) (l : list string) : bool := existsb (String.eqb k) l.

Lemma mem_In k l : mem k l = true <-> In k l.
Proof.
  unfold mem. rewrite existsb_exists. split.
  - intros (x & Hx & E). apply String.eqb_eq in E; now subst.
  - intros H; exists k; split; auto using String.eqb_refl.
Qed.

Lemma mem_false k l : mem k l = false <-> ~ In k l.
Proof. rewrite <- mem_In. destruct (mem k l); intuition congruence. Qed.

Definition remove_s (k : string) (l : list string) : list string :=
  filter (fun x => negb (String.eqb k x)) l.

Lemma remove_s_In k l x : In x (remove_s k l) <-> In x l /\ x <> k.
Proof.
  unfold remove_s. rewrite filter_In, negb_true_iff, String.eqb_neq. intuition congruence.
Qed.

Lemma remove_s_NoDup k l : NoDup l -> NoDup (remove_s k l).
Proof. apply NoDup_filter. Qed.

(** ** Iteration order of a Go map.

    Go iterates maps in an unspecified order.  A run of the model is given an
    oracle: a stream of choices.  [shuffle] uses it to pick the visiting order of
    one [range] loop and returns the rest of the stream.  [shuffle_perm] says the
    order is always a permutation, and [shuffle_all] that every permutation can
    occur, so quantifying over oracles is quantifying over iteration orders. *)
Definition orc := list nat.

Definition next (w : orc) : nat * orc :=
  match w with [] => (0, []) | k :: w' => (k, w') end.

Fixpoint take_nth {A} (i : nat) (x : A) (l : list A) : A * list A :=
  match i, l with
  | O, _ => (x, l)
  | S _, [] => (x, [])
  | S i', y :: l' => let (z, r) := take_nth i' y l' in (z, x :: r)
  end.

Fixpoint shuffle_n {A} (n : nat) (w : orc) (l : list A) : list A * orc :=
  match n, l with
  | S n', x :: l' =>
      let (k, w1) := next w in
      let (y, r) := take_nth k x l' in
      let (p, w2) := shuffle_n n' w1 r in (y :: p, w2)
  | _, _ => ([], w)
  end.

Definition shuffle {A} (w : orc) (l : list A) : list A * orc :=
  shuffle_n (length l) w l.

Lemma take_nth_perm {A} i : forall (x : A) l y r,
  take_nth i x l = (y, r) -> Permutation (x :: l) (y :: r).
Proof.
  induction i as [|i IH]; intros x l y r; cbn.
  - destruct l; intros H; inversion H; reflexivity.
  - destruct l as [|z l]; [intros H; inversion H; reflexivity|].
    destruct (take_nth i z l) as [u v] eqn:E. intros H; inversion H; subst.
    apply IH in E. etransitivity; [constructor; exact E|apply perm_swap].
Qed.

Lemma shuffle_n_perm {A} n : forall w (l : list A),
  length l = n -> Permutation l (fst (shuffle_n n w l)).
Proof.
  induction n as [|n IH]; intros w [|x l] Hl; cbn in *; try discriminate; [constructor|].
  destruct (next w) as [k w1]. destruct (take_nth k x l) as [y r] eqn:E.
  apply take_nth_perm in E.
  assert (length r = n) by (apply Permutation_length in E; cbn in E; lia).
  specialize (IH w1 r H). destruct (shuffle_n n w1 r) as [p w2]; cbn in *.
  rewrite E. now constructor.
Qed.

Lemma shuffle_perm {A} w (l : list A) p w' :
  shuffle w l = (p, w') -> Permutation l p.
Proof.
  intros H. pose proof (shuffle_n_perm (length l) w l eq_refl) as P.
  unfold shuffle in H. now rewrite H in P.
Qed.

Lemma take_nth_mid {A} : forall (l1 : list A) y l2 x l,
  x :: l = l1 ++ y :: l2 -> take_nth (length l1) x l = (y, l1 ++ l2).
Proof.
  induction l1 as [|z l1 IH]; cbn; intros y l2 x l H; inversion H; subst.
  - destruct l2; reflexivity.
  - destruct (l1 ++ y :: l2) as [|u v] eqn:E; [destruct l1; discriminate|].
    rewrite (IH y l2 u v); auto.
Qed.

Lemma shuffle_all {A} (p : list A) : forall l,
  Permutation l p -> exists w, forall w', shuffle (w ++ w') l = (p, w').
Proof.
  unfold shuffle. induction p as [|y p IH]; intros l HP.
  - apply Permutation_sym, Permutation_nil in HP; subst. exists []; reflexivity.
  - assert (Hin : In y l) by (eapply Permutation_in; [symmetry; eassumption|now left]).
    apply in_split in Hin as (l1 & l2 & ->).
    assert (HP' : Permutation (l1 ++ l2) p).
    { apply Permutation_cons_inv with y. rewrite <- HP. apply Permutation_middle. }
    destruct (IH _ HP') as [w Hw]. exists (length l1 :: w). intros w'.
    destruct (l1 ++ y :: l2) as [|u v] eqn:E; [destruct l1; discriminate|].
    cbn [length shuffle_n]. rewrite <- app_comm_cons. cbn [next].
    rewrite (take_nth_mid l1 y l2 u v) by auto.
    replace (length v) with (length (l1 ++ l2)).
    + now rewrite Hw.
    + apply (f_equal (@length A)) in E. rewrite app_length in *. cbn in E. lia.
Qed.

(** Decimal rendering of integers ([%d], [strconv.Itoa]). *)
From Coq Require Import DecimalString.
Definition dec_Z (z : Z) : string := NilZero.string_of_int (Z.to_int z).
