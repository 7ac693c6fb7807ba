(** Generated code: what running it leads to (C47), and what is lost (C48). *)
From Verif Require Import Base GoFloat GoValue Maybe Formats Constraint StructInfo Validate Reach ConstrInd Local Builder GoText GoLang GoEval Generator GenLex GenParse GenCode GenLike GenSpec GenFaith GenRound GenObj GenMain GenProcess.
Open Scope string_scope.
Open Scope list_scope.

(** ** The generated validator gives the verdicts of the original *)
Lemma same_trans E f c f' c' f'' c'' : Same E f c f' c' -> Same E f' c' f'' c'' -> Same E f c f'' c''.
Proof. intros A B n v r v'. now rewrite (A n v r v'), (B n v r v'). Qed.
Lemma same_local E f1 f2 c : agree E f1 f2 c -> Same E f1 c f2 c.
Proof. intros A n v r v'. split; intros (w & w' & H); exists w, w'; [rewrite <- (validate_local E f1 f2)|rewrite (validate_local E f1 f2)]; auto. Qed.

Definition own_refs (v : validator) : string -> option constr := fun n => sget n (v_refs v).
Definition run_refs (st : estate) : string -> option constr := fun n => match e_cmap st with Some R => sget n R | None => None end.
Definition regen_refs (vs : list validator) : string -> option constr := fun n => option_map regen (sget n (merge_refs vs)).

(** the possible outcomes of v.Validate(x): result, message included, and the value afterwards *)
Definition outcomes (E : env) (refs : string -> option constr) (name addr : string) (root : constr) (n : nat) (x : gval) (r : res) (x' : gval) : Prop :=
  exists w w', jsval_validate n (set_refs E refs) name addr root x w = (r, x', w').
Lemma same_outcomes E f c f' c' : Same E f c f' c' -> forall name addr addr' n x r x', name <> "" ->
  outcomes E f name addr c n x r x' <-> outcomes E f' name addr' c' n x r x'.
Proof.
  assert (H : forall f c f' c', Same E f c f' c' -> forall name addr addr' n x r x', name <> "" ->
    outcomes E f name addr c n x r x' -> outcomes E f' name addr' c' n x r x').
  { clear. intros f c f' c' S name addr addr' n x r x' NE (w & w' & H). unfold jsval_validate in H.
    destruct (validate n (set_refs E f) c x w) as [[r0 x0] w0] eqn:V.
    assert (K : exists u u', validate n (set_refs E f') c' x u = (r0, x0, u')) by (apply S; eauto).
    destruct K as (u & u' & K). exists u, u'. unfold jsval_validate. rewrite K.
    destruct name as [|a s]; [congruence|]. destruct r0; inversion H; subst; reflexivity. }
  intros S name addr addr' n x r x' NE. split; [now apply H|]. apply H; auto.
  intros m y q y'. symmetry. apply S.
Qed.

Lemma name_all_nth vs i v : nth_error vs i = Some v -> In (named i v) (name_all vs).
Proof.
  intros H. unfold name_all. apply in_map_iff. exists (i, v). split; [reflexivity|].
  assert (X : forall l k i, nth_error l i = Some v -> In (k + i, v)%nat (combine (seq k (List.length l)) l)).
  { induction l as [|u l IH]; intros k [|j] E; cbn in *; try discriminate.
    - inversion E; subst. rewrite Nat.add_0_r. auto.
    - right. replace (k + S j)%nat with (S k + j)%nat by lia. now apply IH. }
  apply (X vs 0%nat i H).
Qed.
Lemma named_root i v : v_root (named i v) = v_root v.
Proof. unfold named. destruct (v_name v); reflexivity. Qed.

(** Every emittable constraint: the generated file is accepted, and running it gives validators
    whose outcomes are those of the round trips [regen]. *)
Theorem generated_code_runs E G vs : names_ok vs -> contents_ok vs -> forall w,
  exists s w' st, process G vs w = GOk (s, w') /\ run_go s = Some st /\
    forall i v, nth_error vs i = Some v -> exists j,
      sget (v_name (named i v)) (e_vars st) = Some (VJ j) /\ j_name j = v_name (named i v) /\
      Same E (regen_refs vs) (regen (v_root v)) (run_refs st) (j_root j).
Proof.
  intros NO CO w. destruct (process_rebuilds G vs NO CO w) as (s & w' & st & P & R & B1 & B2). exists s, w', st. split; [auto|split; [auto|]].
  intros i v H. destruct (B1 (named i v) (name_all_nth _ _ _ H)) as (c & L & S1). rewrite named_root in L. eexists. split; [exact S1|split; [reflexivity|]]. cbn [j_root].
  apply like_same; [|exact L]. intros n. unfold regen_refs, run_refs. destruct (e_cmap st) as [R1|].
  - specialize (B2 n). destruct (sget n (merge_refs vs)), (sget n R1); cbn; auto.
  - rewrite B2. exact I.
Qed.

(** Faithful constraints: the outcomes of the generated validators are those of the originals.
    [agree]: merging the references of all validators did not change what this one uses. *)
Theorem generated_code_equivalent E G vs : names_ok vs -> contents_ok vs ->
  (forall v, In v vs -> faithful (v_root v)) -> (forall n c, sget n (merge_refs vs) = Some c -> faithful c) -> forall w,
  exists s w' st, process G vs w = GOk (s, w') /\ run_go s = Some st /\
    forall i v, nth_error vs i = Some v -> agree E (own_refs v) (fun n => sget n (merge_refs vs)) (v_root v) ->
    exists j, sget (v_name (named i v)) (e_vars st) = Some (VJ j) /\ j_name j = v_name (named i v) /\
      Same E (own_refs v) (v_root v) (run_refs st) (j_root j) /\
      forall addr addr' n x r x',
        outcomes E (own_refs v) (v_name (named i v)) addr (v_root v) n x r x' <-> outcomes E (run_refs st) (j_name j) addr' (j_root j) n x r x'.
Proof.
  intros NO CO FV FR w. destruct (generated_code_runs E G vs NO CO w) as (s & w' & st & P & R & B). exists s, w', st. split; [auto|split; [auto|]].
  intros i v H A. destruct (B i v H) as (j & J1 & J2 & J3). exists j. split; [auto|split; [auto|]].
  assert (S1 : Same E (own_refs v) (v_root v) (run_refs st) (j_root j)).
  { eapply same_trans; [apply same_local, A|]. eapply same_trans; [|exact J3]. apply like_same.
    - intros n. unfold regen_refs. destruct (sget n (merge_refs vs)) as [c|] eqn:S1; cbn; auto.
      eapply faithful_like; [right; eapply CO; eauto|eapply FR; eauto].
    - apply nth_error_In in H. eapply faithful_like; [right; apply CO; auto|auto]. }
  split; [exact S1|]. intros. rewrite J2. apply same_outcomes; auto.
  destruct NO as [_ NO]. destruct (NO (v_name (named i v))) as [ID _]; [apply in_map, name_all_nth, H|].
  intros Z. rewrite Z in ID. discriminate ID.
Qed.

(** a single validator keeps all its references *)
Lemma merge_single v : ssorted (v_refs v) -> merge_refs [v] = v_refs v.
Proof.
  intros S1. unfold merge_refs. cbn [fold_left].
  assert (X : forall (l m : list (string * constr)), (forall n, sget n (fold_left (fun m e => match sget (fst e) m with Some _ => m | None => sset (fst e) (snd e) m end) l m)
     = match sget n m with Some c => Some c | None => sget n l end)).
  { clear. induction l as [|[k c] l IH]; intros m n; cbn [fold_left sget]; [now destruct (sget n m)|]. rewrite IH. cbn [fst snd].
    destruct (sget k m) as [d|] eqn:S2.
    - destruct (sget n m) as [d'|] eqn:S3; auto. destruct (String.eqb n k) eqn:Q; auto. apply String.eqb_eq in Q. subst. congruence.
    - destruct (String.eqb n k) eqn:Q.
      + apply String.eqb_eq in Q. subst. rewrite sget_sset_same, S2. reflexivity.
      + apply String.eqb_neq in Q. rewrite sget_sset_other by auto. reflexivity. }
  apply ssorted_ext; auto.
  - apply (merge_sorted [v]).
  - intros n. apply X.
Qed.

Theorem generated_single E G v : ssorted (v_refs v) -> names_ok [v] -> contents_ok [v] ->
  faithful (v_root v) -> (forall n c, sget n (v_refs v) = Some c -> faithful c) -> forall w,
  exists s w' st j, process G [v] w = GOk (s, w') /\ run_go s = Some st /\
    sget (v_name (named 0 v)) (e_vars st) = Some (VJ j) /\ j_name j = v_name (named 0 v) /\
    forall addr addr' n x r x',
      outcomes E (own_refs v) (j_name j) addr (v_root v) n x r x' <-> outcomes E (run_refs st) (j_name j) addr' (j_root j) n x r x'.
Proof.
  intros S1 NO CO F FR w.
  destruct (generated_code_equivalent E G [v] NO CO) with (w := w) as (s & w' & st & P & R & B).
  - intros u [<-|[]]. exact F.
  - rewrite merge_single by auto. exact FR.
  - destruct (B 0%nat v eq_refl) as (j & J1 & J2 & _ & J4).
    + intros n _. unfold own_refs. now rewrite merge_single.
    + exists s, w', st, j. rewrite J2 in *. auto 10.
Qed.
