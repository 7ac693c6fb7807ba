(** Loops of generator.go. *)
From Verif Require Import Base GoFloat GoValue Maybe Formats Constraint StructInfo Validate Builder GoText GoLang Generator SrcSyntax SrcText SrcTextG SrcProg SrcGen SrcProgG SrcStepG SrcGenFun.
Open Scope string_scope.
Open Scope list_scope.
Open Scope Z_scope.

(** a loop whose rounds write *)
Lemma rounds_wrote {X} (f : X -> qv) (g : X -> gm string) body kk vv a B env v l :
  (forall x i t w, In x l -> wrote (qround body kk vv (QInt i) (f x) (mk env (bufput a t B) v w)) (g x w) a t B env v) ->
  forall i t w, wrote (qrounds body kk vv (q_indexed i (map f l)) (mk env (bufput a t B) v w)) (gconcat (map g l) w) a t B env v.
Proof.
  intros H. induction l as [|x l IH]; intros i t w; cbn [map q_indexed qrounds gconcat].
  { cbn. now rewrite append_nil_r'. }
  pose proof (H x i t w (or_introl eq_refl)) as Hx. unfold gbind at 1.
  destruct (g x w) as [[y w1]|m|m]; cbn [wrote] in Hx.
  - rewrite Hx. specialize (IH (fun x0 i0 t0 w0 Hin => H x0 i0 t0 w0 (or_intror Hin)) (i + 1) (t +++ y) w1).
    unfold gbind. destruct (gconcat (map g l) w1) as [[z w2]|m|m]; cbn [wrote gret] in *; [|exact IH..].
    rewrite IH, append_assoc'. reflexivity.
  - destruct Hx as (m' & t' & e' & w' & -> & Hs). cbn. do 4 eexists. split; [reflexivity|exact Hs].
  - destruct Hx as (m' & ->). eexists; reflexivity.
Qed.
(** a loop that gathers entries in variables *)
Lemma rounds_gather {X} (ent : X -> qv * qv) body kk vv (S : list X -> qst) :
  (forall acc x, qround body kk vv (fst (ent x)) (snd (ent x)) (S acc) = QNx (S (acc ++ [x]))) ->
  forall p acc, qrounds body kk vv (map ent p) (S acc) = QNx (S (acc ++ p)).
Proof.
  intros H p. induction p as [|x p IH]; intro acc; cbn [map qrounds]; [now rewrite app_nil_r|].
  specialize (H acc x). destruct (ent x) as [u1 u2]. cbn [fst snd] in H. rewrite H, IH, <- app_assoc. reflexivity.
Qed.
(** "for i, x := range xs { fmt.Fprint(out, f(x)); if i < l-1 { fmt.Fprint(out, sep) } }" *)
Lemma rounds_join (f : string -> string) sep body kk vv a B env v (n : Z) :
  (forall x i t w, qround body kk vv (QInt i) (QStr x) (mk env (bufput a t B) v w)
                   = QNx (mk env (bufput a (t +++ f x +++ when (i <? n - 1) sep) B) v w)) ->
  forall l i t w, i + Z.of_nat (List.length l) = n ->
  qrounds body kk vv (q_indexed i (map QStr l)) (mk env (bufput a t B) v w)
  = QNx (mk env (bufput a (t +++ join sep (map f l)) B) v w).
Proof.
  intros H l. induction l as [|x l IH]; intros i t w Hn; cbn [map q_indexed qrounds].
  { cbn. now rewrite append_nil_r'. }
  rewrite H, IH by (cbn [List.length] in Hn; lia).
  do 2 f_equal. f_equal. destruct l as [|y l].
  - replace (i <? n - 1) with false by (symmetry; apply Z.ltb_ge; cbn [List.length] in Hn; lia).
    cbn [map join when]. rewrite ?append_nil_r'. reflexivity.
  - replace (i <? n - 1) with true by (symmetry; apply Z.ltb_lt; cbn [List.length] in Hn; lia).
    cbn [map when]. rewrite !append_assoc'. reflexivity.
Qed.

(** ** Orders *)
Lemma take_nth_map {A C} (f : A -> C) i : forall x l, take_nth i (f x) (map f l) = (f (fst (take_nth i x l)), map f (snd (take_nth i x l))).
Proof.
  induction i as [|i IH]; intros x [|y l]; cbn; try reflexivity.
  rewrite IH. destruct (take_nth i y l); reflexivity.
Qed.
Lemma shuffle_n_map {A C} (f : A -> C) n : forall w l, shuffle_n n w (map f l) = (map f (fst (shuffle_n n w l)), snd (shuffle_n n w l)).
Proof.
  induction n as [|n IH]; intros w [|x l]; cbn; try reflexivity.
  destruct (next w) as [k w1]. rewrite take_nth_map. destruct (take_nth k x l) as [y r]; cbn [fst snd].
  rewrite IH. destruct (shuffle_n n w1 r); reflexivity.
Qed.
Lemma shuffle_map {A C} (f : A -> C) w l : shuffle w (map f l) = (map f (fst (shuffle w l)), snd (shuffle w l)).
Proof. unfold shuffle. rewrite map_length. apply shuffle_n_map. Qed.
Lemma shuffle_of_str {A} (f : A -> qv) w m : shuffle w (of_str f m) = (of_str f (fst (shuffle w m)), snd (shuffle w m)).
Proof. apply shuffle_map. Qed.
Lemma sorted_names_run {A} (m : list (string * A)) w : sorted_names m w = GOk (sort_s (map fst (fst (shuffle w m))), snd (shuffle w m)).
Proof. unfold sorted_names, keys. rewrite shuffle_map. reflexivity. Qed.
Lemma sget_of_str {A} (f : A -> qv) k m : sget k (of_str f m) = option_map f (sget k m).
Proof. induction m as [|[k' x] m IH]; cbn; [reflexivity|]. destruct (String.eqb k k'); [reflexivity|exact IH]. Qed.
Lemma in_insert_s x y l : In x (insert_s y l) -> x = y \/ In x l.
Proof.
  induction l as [|z l IH]; cbn; [intros [->|[]]; now left|].
  destruct (String.compare y z); cbn; intros H; intuition.
Qed.
Lemma in_sort_s x l : In x (sort_s l) -> In x l.
Proof. induction l as [|y l IH]; cbn; [auto|]. intros H. apply in_insert_s in H. intuition. Qed.
Lemma length_insert_s y l : List.length (insert_s y l) = S (List.length l).
Proof. induction l as [|z l IH]; cbn; [reflexivity|]. destruct (String.compare y z); cbn; auto. Qed.
Lemma length_sort_s l : List.length (sort_s l) = List.length l.
Proof. induction l as [|y l IH]; [reflexivity|]. change (sort_s (y :: l)) with (insert_s y (sort_s l)). rewrite length_insert_s. cbn. now rewrite IH. Qed.
Lemma length_shuffle {A} w (l : list A) : List.length (fst (shuffle w l)) = List.length l.
Proof. destruct (shuffle w l) as [p w1] eqn:E. apply shuffle_perm in E. cbn. symmetry. now apply Permutation_length. Qed.
Lemma in_shuffle {A} w (l : list A) x : In x (fst (shuffle w l)) -> In x l.
Proof. destruct (shuffle w l) as [p w1] eqn:E. apply shuffle_perm in E. cbn. intro H. eapply Permutation_in; [symmetry; exact E|exact H]. Qed.
Lemma sget_in {A} k (m : list (string * A)) : In k (map fst m) -> exists x, sget k m = Some x /\ In (k, x) m.
Proof.
  induction m as [|[k' y] m IH]; cbn; [intros []|]. destruct (String.eqb k k') eqn:E.
  - apply String.eqb_eq in E. subst. intros _. exists y. split; [reflexivity|now left].
  - intros [->|H]; [now rewrite String.eqb_refl in E|]. destruct (IH H) as (x & Hx & Hi). exists x. split; [exact Hx|now right].
Qed.
Lemma in_names {A} w (m : list (string * A)) k : In k (sort_s (map fst (fst (shuffle w m)))) -> exists x, sget k m = Some x /\ In (k, x) m.
Proof.
  intros H. apply in_sort_s in H. apply sget_in. apply in_map_iff in H as (e & <- & He). apply in_map. eapply in_shuffle; exact He.
Qed.

(** ** Stepping *)
Ltac newline := let t := eval vm_compute in nl in change nl with t in *.
Lemma range_map G F call k v body m e B vv w :
  q_range G F call k v body (QMap m) (mk e B vv w) =
  qrounds (qrun (qexec G F call) body) k v (map q_entry (fst (shuffle w m))) (mk e B vv (snd (shuffle w m))).
Proof. unfold q_range, q_over, q_items. cbn [qord]. destruct (shuffle w m). reflexivity. Qed.
Lemma range_pats G F call k v body m e B vv w :
  q_range G F call k v body (QPats m) (mk e B vv w) =
  qrounds (qrun (qexec G F call) body) k v (map q_pat (fst (shuffle w m))) (mk e B vv (snd (shuffle w m))).
Proof. unfold q_range, q_over, q_items. cbn [qord]. destruct (shuffle w m). reflexivity. Qed.
(** the round of a loop *)
Ltac in_round :=
  match goal with |- context [qround ?body ?k ?v ?a ?b ?s] =>
    let t := evalq (q_bind k v a b (qpush s)) in
    change (qround body k v a b s) with (qleave (body t))
  end.
