(** What Process gathers before it writes: the references, their names, the order of the
    validators.  Facts on lists and maps only. *)
From Coq Require Import Permutation.
From Verif Require Import Base GoFloat GoValue Maybe Formats Constraint ConstrInd StructInfo Validate Builder GoText GoLang Generator GenRound SrcSyntax SrcGen SrcGenLoop SrcGenVal.
Open Scope string_scope.
Open Scope list_scope.

(** the first definition of a name is kept, and the name is listed then *)
Definition add_ref (mx : list (string * constr) * list string) (e : string * constr) : list (string * constr) * list string :=
  match sget (fst e) (fst mx) with Some _ => mx | None => (sset (fst e) (snd e) (fst mx), snd mx ++ [fst e]) end.
Fixpoint all_refs (w : orc) (vs : list validator) (mx : list (string * constr) * list string) : (list (string * constr) * list string) * orc :=
  match vs with
  | [] => (mx, w)
  | v :: r => let (p, w1) := shuffle w (v_refs v) in all_refs w1 r (fold_left add_ref p mx)
  end.

Lemma sget_of_ref k m : sget k (of_ref m) = option_map (QRefC k) (sget k m).
Proof.
  unfold of_ref. induction m as [|[k' c] m IH]; cbn; [reflexivity|].
  destruct (String.eqb k k') eqn:E; [|exact IH]. apply String.eqb_eq in E. now subst.
Qed.
Lemma sset_of_ref k c m : sset k (QRefC k c) (of_ref m) = of_ref (sset k c m).
Proof.
  unfold of_ref. induction m as [|[k' d] m IH]; [reflexivity|]. cbn [map sset fst snd].
  destruct (String.compare k k'); cbn [map fst snd]; [reflexivity..|]. now rewrite IH.
Qed.

Definition put_ref (m : list (string * constr)) (e : string * constr) : list (string * constr) :=
  match sget (fst e) m with Some _ => m | None => sset (fst e) (snd e) m end.
Lemma fst_add_ref p mx : fst (fold_left add_ref p mx) = fold_left put_ref p (fst mx).
Proof.
  revert mx. induction p as [|e p IH]; intro mx; [reflexivity|]. cbn [fold_left]. rewrite IH. f_equal.
  unfold add_ref, put_ref. destruct (sget (fst e) (fst mx)); reflexivity.
Qed.
Lemma put_ref_sorted m e : ssorted m -> ssorted (put_ref m e).
Proof. unfold put_ref. intro H. destruct (sget (fst e) m); [exact H|]. now apply sset_sorted. Qed.
Lemma put_refs_sorted p m : ssorted m -> ssorted (fold_left put_ref p m).
Proof. revert m. induction p as [|e p IH]; intros m H; [exact H|]. cbn. apply IH. now apply put_ref_sorted. Qed.
Lemma put_refs_get k p m : NoDup (map fst p) -> sget k (fold_left put_ref p m) = match sget k m with Some c => Some c | None => sget k p end.
Proof.
  revert m. induction p as [|[k' c] p IH]; intros m H.
  - cbn. destruct (sget k m); reflexivity.
  - cbn [map fst] in H. inversion H as [|? ? Hn Hd]; subst. cbn [fold_left]. rewrite IH by exact Hd. unfold put_ref. cbn [fst snd sget].
    destruct (sget k' m) as [d|] eqn:E'.
    + destruct (sget k m) eqn:E; [reflexivity|]. destruct (String.eqb k k') eqn:Ek; [|reflexivity].
      apply String.eqb_eq in Ek. subst. congruence.
    + destruct (String.eqb k k') eqn:Ek.
      * apply String.eqb_eq in Ek. subst. rewrite sget_sset_same, E'. reflexivity.
      * apply String.eqb_neq in Ek. rewrite sget_sset_other by exact Ek. reflexivity.
Qed.
Lemma sget_perm {A} k (p l : list (string * A)) : NoDup (map fst l) -> Permutation p l -> sget k p = sget k l.
Proof.
  intros Hn Hp. assert (Hn' : NoDup (map fst p)) by (eapply Permutation_NoDup; [apply Permutation_map, Permutation_sym; exact Hp|exact Hn]).
  destruct (sget k l) as [x|] eqn:E.
  - apply Base.sget_in in E. apply nodup_sget; [exact Hn'|]. eapply Permutation_in; [apply Permutation_sym; exact Hp|exact E].
  - apply sget_none_keys. apply sget_none_keys in E. intro H. apply E. unfold keys in *. eapply Permutation_in; [apply Permutation_map; exact Hp|exact H].
Qed.
Lemma put_refs_perm p l m : ssorted m -> ssorted l -> Permutation p l -> fold_left put_ref p m = fold_left put_ref l m.
Proof.
  intros Hm Hl Hp. assert (Hn : NoDup (map fst l)) by (apply ssorted_nodup; exact Hl).
  assert (Hn' : NoDup (map fst p)) by (eapply Permutation_NoDup; [apply Permutation_map, Permutation_sym; exact Hp|exact Hn]).
  apply ssorted_ext; [now apply put_refs_sorted..|]. intro k. rewrite !put_refs_get by assumption. now rewrite (sget_perm k p l).
Qed.

Definition refs_count (vs : list validator) : nat := fold_right (fun v n => (List.length (v_refs v) + n)%nat) 0%nat vs.
Lemma skip_next w : snd (next w) = skipn 1 w.
Proof. destruct w; reflexivity. Qed.
Lemma skipn_skipn {A} n m (w : list A) : skipn n (skipn m w) = skipn (m + n) w.
Proof. revert w. induction m as [|m IH]; intros [|x w]; cbn; try reflexivity; [destruct n; reflexivity|]. apply IH. Qed.
Lemma shuffle_n_rest {A} n : forall w (l : list A), n = List.length l -> snd (shuffle_n n w l) = skipn n w.
Proof.
  induction n as [|n IH]; intros w l H; [destruct l; reflexivity|]. destruct l as [|x l]; [discriminate|]. cbn [shuffle_n].
  destruct (next w) as [k w1] eqn:En. destruct (take_nth k x l) as [y r] eqn:Et.
  destruct (shuffle_n n w1 r) as [p w2] eqn:Es. cbn [snd].
  assert (Hr : n = List.length r).
  { apply take_nth_perm in Et. apply Permutation_length in Et. cbn in *. lia. }
  pose proof (IH w1 r Hr) as Hs. rewrite Es in Hs. cbn [snd] in Hs. subst w2.
  pose proof (skip_next w) as Hw. rewrite En in Hw. cbn [snd] in Hw. subst w1. rewrite skipn_skipn. reflexivity.
Qed.
Lemma shuffle_rest {A} w (l : list A) : snd (shuffle w l) = skipn (List.length l) w.
Proof. now apply shuffle_n_rest. Qed.

Lemma all_refs_rest vs w mx : snd (all_refs w vs mx) = skipn (refs_count vs) w.
Proof.
  revert w mx. induction vs as [|v vs IH]; intros w mx; [reflexivity|]. cbn [all_refs refs_count fold_right].
  destruct (shuffle w (v_refs v)) as [p w1] eqn:E. rewrite IH. pose proof (shuffle_rest w (v_refs v)) as H. rewrite E in H. cbn in H. subst.
  apply skipn_skipn.
Qed.
Lemma all_refs_map vs w mx : Forall (fun v => ssorted (v_refs v)) vs -> ssorted (fst mx) ->
  fst (fst (all_refs w vs mx)) = fold_left (fun m v => fold_left put_ref (v_refs v) m) vs (fst mx).
Proof.
  revert w mx. induction vs as [|v vs IH]; intros w mx Hv Hm; [reflexivity|]. inversion Hv; subst. cbn [all_refs fold_left].
  destruct (shuffle w (v_refs v)) as [p w1] eqn:E. apply shuffle_perm in E. rewrite IH.
  - rewrite fst_add_ref. f_equal. apply put_refs_perm; auto. now apply Permutation_sym.
  - assumption.
  - rewrite fst_add_ref. now apply put_refs_sorted.
Qed.
(** the names gathered are the keys *)
Lemma keys_sset {A} k (x : A) m : sget k m = None -> Permutation (map fst (sset k x m)) (k :: map fst m).
Proof.
  induction m as [|[k' y] m IH]; cbn; [reflexivity|].
  destruct (String.eqb k k') eqn:E; [discriminate|]. intro H.
  destruct (String.compare k k') eqn:Ec; cbn.
  - apply String.compare_eq_iff in Ec. subst. now rewrite String.eqb_refl in E.
  - reflexivity.
  - rewrite (IH H). apply perm_swap.
Qed.
Lemma add_refs_names p mx : Permutation (snd mx) (map fst (fst mx)) -> Permutation (snd (fold_left add_ref p mx)) (map fst (fst (fold_left add_ref p mx))).
Proof.
  revert mx. induction p as [|e p IH]; intros mx H; [exact H|]. cbn [fold_left]. apply IH. unfold add_ref.
  destruct (sget (fst e) (fst mx)) eqn:E; [exact H|]. cbn [fst snd]. rewrite (keys_sset _ _ _ E), <- H. apply Permutation_sym, Permutation_cons_append.
Qed.
Lemma all_refs_names vs w mx : Permutation (snd mx) (map fst (fst mx)) -> Permutation (snd (fst (all_refs w vs mx))) (map fst (fst (fst (all_refs w vs mx)))).
Proof.
  revert w mx. induction vs as [|v vs IH]; intros w mx H; [exact H|]. cbn [all_refs]. destruct (shuffle w (v_refs v)) as [p w1].
  apply IH. now apply add_refs_names.
Qed.
Lemma merge_refs_put vs : merge_refs vs = fold_left (fun m v => fold_left put_ref (v_refs v) m) vs [].
Proof. reflexivity. Qed.
Lemma merge_sorted vs m : ssorted m -> ssorted (fold_left (fun m v => fold_left put_ref (v_refs v) m) vs m).
Proof. revert m. induction vs as [|v vs IH]; intros m H; [exact H|]. cbn. apply IH. now apply put_refs_sorted. Qed.

(** ** The variables of the references *)
Lemma vars_get {A} (f : string -> A) r (l : list (string * string)) m : NoDup (map fst l) ->
  sget r (fold_left (fun m e => sset (fst e) (f (snd e)) m) l m) = match sget r l with Some x => Some (f x) | None => sget r m end.
Proof.
  revert m. induction l as [|[k x] l IH]; intros m H; [reflexivity|]. cbn [map fst] in H. inversion H as [|? ? Hn Hd]; subst.
  cbn [fold_left fst snd]. rewrite IH by exact Hd. cbn [sget]. destruct (String.eqb r k) eqn:E.
  - apply String.eqb_eq in E. subst. rewrite sget_sset_same.
    destruct (sget k l) eqn:E; [|reflexivity]. exfalso. apply Hn. apply sget_some_keys. eauto.
  - apply String.eqb_neq in E. now rewrite sget_sset_other by exact E.
Qed.

(** ** The order of the validators *)
Lemma sort_i_v vs is l : map (nth_error vs) is = map Some l -> map (nth_error vs) (sort_i vs is) = map Some (sort_v l).
Proof.
  revert l. induction is as [|i is IH]; intros [|v l] H; cbn in H; try discriminate; [reflexivity|].
  injection H as Hi Hr. specialize (IH l Hr). cbn [sort_i sort_v fold_right]. fold (sort_i vs is) (sort_v l).
  revert IH. generalize (sort_i vs is) (sort_v l). intros js us.
  revert us. induction js as [|j js IHj]; intros [|u us] E; cbn in E; try discriminate; cbn [insert_i insert_v map]; [now rewrite Hi|].
  injection E as Ej Er. rewrite Hi, Ej.
  destruct (String.compare (v_name v) (v_name u)); cbn [map]; rewrite ?Hi, ?Ej, ?Er; try reflexivity.
  f_equal. now apply IHj.
Qed.
Lemma nth_seq (vs : list validator) : map (nth_error vs) (seq 0 (List.length vs)) = map Some vs.
Proof.
  assert (H : forall pre suf : list validator, map (nth_error (pre ++ suf)) (seq (List.length pre) (List.length suf)) = map Some suf).
  { intros pre suf. revert pre. induction suf as [|v suf IH]; intro pre; [reflexivity|]. cbn [List.length seq map]. f_equal.
    - rewrite nth_error_app2, Nat.sub_diag by lia. reflexivity.
    - specialize (IH (pre ++ [v])). rewrite app_length in IH. cbn in IH. rewrite Nat.add_1_r, <- app_assoc in IH. exact IH. }
  exact (H [] vs).
Qed.

(** ** The text of a reference starts with a letter *)
Definition starts_j (s : string) : Prop := match s with EmptyString => True | String c _ => c = "j"%char end.
Definition gives_j (m : gm string) : Prop := forall w s u, m w = GOk (s, u) -> starts_j s.
Lemma post_j m : gives_j m -> gives_j (post m).
Proof.
  unfold post, gbind. intros H w x w1. specialize (H w). destruct (m w) as [[s u]| |]; intro E; try discriminate. injection E as <- <-. specialize (H s u eq_refl).
  destruct s as [|c r]; [vm_compute; exact I|]. cbn in H. subst c.
  cbn [trim_suffix]. change (String.eqb (String "j" r) ("." +++ nl)) with false. cbv iota. reflexivity.
Qed.
Lemma bind_j {A} (m : gm A) f : (forall a, gives_j (f a)) -> gives_j (gbind m f).
Proof. unfold gbind. intros H w x w1. destruct (m w) as [[a u]| |]; intro E; try discriminate. exact (H a u x w1 E). Qed.
Lemma ret_j s : starts_j s -> gives_j (gret s).
Proof. intros H w x w1 E. injection E as <- <-. exact H. Qed.
Lemma emit_j G cm c : gives_j (emit G cm c).
Proof.
  destruct c; cbn [emit]; apply post_j; try (apply ret_j; cbn; auto; fail).
  - unfold string_code. apply bind_j; intro. apply bind_j; intro. apply ret_j. reflexivity.
  - unfold integer_code. destruct d as [g|]; [|apply ret_j; reflexivity].
    destruct g as [| | | |? b| | | | | | | |]; try discriminate. destruct b; try discriminate. destruct (String.eqb _ _); [apply ret_j; reflexivity|discriminate].
  - unfold array_code. repeat (apply bind_j; intro). apply ret_j. reflexivity.
  - unfold object_code. repeat (apply bind_j; intro). apply ret_j. reflexivity.
  - unfold combo_code. destruct (map _ _); [apply ret_j; reflexivity|]. apply bind_j; intro. apply ret_j. reflexivity.
  - unfold combo_code. destruct (map _ _); [apply ret_j; reflexivity|]. apply bind_j; intro. apply ret_j. reflexivity.
  - unfold combo_code. destruct (map _ _); [apply ret_j; reflexivity|]. apply bind_j; intro. apply ret_j. reflexivity.
  - unfold not_code. apply bind_j; intro. apply ret_j. reflexivity.
Qed.
Lemma strip_j x : starts_j x -> strip x = x.
Proof. destruct x as [|c r]; [reflexivity|]. cbn. intros ->. reflexivity. Qed.
