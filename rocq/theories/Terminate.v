(** Termination of Validate (C28). *)
From Verif Require Import Base GoFloat GoValue Maybe Formats Constraint StructInfo Validate Fuel Reach ReadOnly Frame Preserve ConstrInd.
Open Scope nat_scope.

(** ** Specification: references met without descending into the value *)
Inductive Shallow : constr -> string -> Prop :=
| sh_ref n : Shallow (CRef n) n
| sh_any l x n : In x l -> Shallow x n -> Shallow (CAny l) n
| sh_all l x n : In x l -> Shallow x n -> Shallow (CAll l) n
| sh_oneof l x n : In x l -> Shallow x n -> Shallow (COneOf l) n
| sh_not x n : Shallow x n -> Shallow (CNot x) n
| sh_dep o k n : Shallow (schema_dep o k) n -> Shallow (CObj o) n.

(** the definition of n mentions n' at the level of the same value *)
Definition calls (E : env) (n n' : string) : Prop :=
  exists c, e_refs E n = Some c /\ Shallow c n'.

(** no definition reaches itself without passing an object property or an array item *)
Inductive calls_plus (E : env) : string -> string -> Prop :=
| cp_one a b : calls E a b -> calls_plus E a b
| cp_more a b c : calls E a b -> calls_plus E b c -> calls_plus E a c.

Definition guarded (E : env) : Prop := forall n, ~ calls_plus E n n.

(** only finitely many names are registered *)
Definition finite_refs (E : env) : Prop := exists l, forall n, e_refs E n <> None -> In n l.

Definition scalar (d : gval) : Prop :=
  match d with
  | GSlice _ _ (Some _) | GMap _ _ _ _ (Some _) | GPtr _ _ (Some _) | GStruct _ _ => False
  | _ => True
  end.

(** ** Depth of a value *)
Fixpoint depth (v : gval) : nat :=
  match v with
  | GSlice _ _ (Some l) => S (list_max (map depth l))
  | GMap _ _ _ _ (Some m) => S (list_max (map (fun e => depth (snd e)) m))
  | GPtr _ _ (Some (_, x)) => S (depth x)
  | GStruct _ fs => S (list_max (map (fun e => depth (snd e)) fs))
  | _ => 0
  end.

Lemma scalar_depth d : scalar d <-> depth d = 0.
Proof.
  destruct d as [| | | | | |? ? []|? ? ? ? []|? ? [[]|]| | | |]; cbn; split; intros; auto; try contradiction; try discriminate.
Qed.

Lemma list_max_in l x : In x l -> x <= list_max l.
Proof. intros H. assert (F : list_max l <= list_max l) by lia. apply list_max_le in F. rewrite Forall_forall in F. auto. Qed.

Lemma list_max_mono {A} (f : A -> nat) l l' :
  (forall y, In y l' -> exists x, In x l /\ f y <= f x) -> list_max (map f l') <= list_max (map f l).
Proof.
  intros H. apply list_max_le, Forall_forall. intros n Hn. apply in_map_iff in Hn. destruct Hn as (y & <- & Hy).
  destruct (H y Hy) as (x & Hx & L). etransitivity; [exact L|]. apply list_max_in, in_map, Hx.
Qed.

Lemma depth_path path : forall v x, get_path path v = Some x -> path <> [] -> depth x < depth v.
Proof.
  induction path as [|i p IH]; intros v x G N; [congruence|]. cbn in G.
  destruct v; try discriminate. destruct (nth_error fs i) as [[fi y]|] eqn:NE; [|discriminate].
  assert (L : depth y < depth (GStruct T fs)).
  { cbn. apply le_n_S. apply list_max_in. apply in_map_iff. exists (fi, y). split; auto. eapply nth_error_In; eauto. }
  destruct p as [|j p]; [cbn in G; congruence|].
  assert (depth x < depth y) by (apply (IH y x); auto; discriminate). lia.
Qed.

Lemma depth_set_path path : forall v x x', get_path path v = Some x -> depth x' <= depth x ->
  depth (set_path path x' v) <= depth v.
Proof.
  induction path as [|i p IH]; intros v x x' G L; cbn in *; [congruence|].
  destruct v; try discriminate. destruct (nth_error fs i) as [[fi y]|] eqn:NE; [|discriminate].
  cbn. apply le_n_S. apply list_max_mono. intros e He. apply in_set_nth_field in He.
  destruct He as [He|(z & Hz & He)].
  - exists e. auto.
  - rewrite NE in Hz. injection Hz as Hf <-. exists (fi, y). split; [eapply nth_error_In; eauto|].
    rewrite He. cbn. eapply IH; eauto.
Qed.

Lemma depth_gp v k i x : get_prop (RV false v) k = Some (RV i x) -> depth x < depth v.
Proof.
  destruct v; cbn [get_prop]; try discriminate.
  - destruct kk; try discriminate; destruct m as [m|]; try discriminate;
    destruct (sget k m) as [y|] eqn:S; try discriminate; intros [= <- <-]; apply sget_in in S;
    cbn; apply le_n_S; apply list_max_in; apply in_map_iff; exists (k, y); auto.
  - destruct (extract (GStruct T fs)) as [props|] eqn:X; try discriminate.
    destruct (field_name props k) as [fn|] eqn:F; try discriminate.
    destruct (field_by_name (GStruct T fs) fn) as [[path [fi y]]|] eqn:B; try discriminate.
    intros [= <- <-]. apply field_by_name_path in B. eapply depth_path; apply B.
Qed.

Lemma depth_deref v : match deref1 v with RZero => True | RV _ x => depth x <= depth v end.
Proof.
  unfold deref1. destruct v; cbn; try lia; auto.
  destruct p as [[i x]|]; cbn; auto.
Qed.

Lemma depth_get_prop v k i x : get_prop (deref1 v) k = Some (RV i x) -> depth x < depth v.
Proof.
  intros G. pose proof (depth_deref v) as L. destruct (deref1 v) as [|[] y]; try discriminate.
  apply depth_gp in G. lia.
Qed.

Lemma m_value_depth m : depth (m_value m) = 0.
Proof. destruct m; reflexivity. Qed.

Lemma depth_look v k pv u x : get_prop (deref1 v) k = Some pv -> look_prop pv = LHere u x -> depth x < depth v.
Proof.
  intros G L. destruct pv as [|i y]; [discriminate|]. apply depth_get_prop in G. cbn [look_prop] in L.
  destruct (is_maybe (RV i y)).
  - destruct (maybe_of (RV i y)) as [m|]; [|discriminate]. destruct (m_valid m); [|discriminate].
    injection L as <- <-. rewrite m_value_depth. lia.
  - injection L as <- <-. exact G.
Qed.

Lemma depth_put_target v k i x x' : get_prop (RV false v) k = Some (RV i x) -> depth x' <= depth x ->
  depth (put_target k x' v) <= depth v.
Proof.
  destruct v; cbn [get_prop put_target]; try discriminate; auto.
  - destruct kk; try discriminate; destruct m as [m|]; try discriminate;
    destruct (sget k m) as [y|] eqn:S; try discriminate; intros [= <- <-] L; cbn; apply le_n_S; apply list_max_mono;
    intros [k' z] Hz; apply in_supd in Hz; (destruct Hz as [->|Hz]; [exists (k, y); split; [now apply sget_in|exact L]|exists (k', z); auto]).
  - destruct (extract (GStruct T fs)) as [props|] eqn:X; try discriminate.
    destruct (field_name props k) as [fn|] eqn:F; try discriminate.
    destruct (field_by_name (GStruct T fs) fn) as [[path [fi y]]|] eqn:B; try discriminate.
    intros [= <- <-] L. apply field_by_name_path in B. eapply depth_set_path; [apply B|exact L].
Qed.

Lemma depth_put v k i x x' : get_prop (deref1 v) k = Some (RV i x) -> depth x' <= depth x ->
  depth (put_prop v k x') <= depth v.
Proof.
  intros G L. destruct v; try (apply (depth_put_target _ k i x x'); [exact G|exact L]); try discriminate.
  destruct p as [[[] y]|]; try discriminate. cbn. apply le_n_S. eapply depth_put_target; eauto.
Qed.

Lemma coerce_depth d i f : depth d = 0 -> depth (coerce d i f) = 0.
Proof.
  intros H. unfold coerce. destruct i; auto.
  destruct f as [| | | |? []| | | | | |[]| |]; destruct d; auto; cbn in *; auto; try discriminate;
    try (destruct is32; reflexivity).
Qed.

Lemma depth_set_struct E addr v k d v' :
  match v with GStruct _ _ | GMaybe _ | GTime _ => True | _ => False end ->
  depth d = 0 -> set_target E addr v k d = GOk v' -> depth v' <= depth v.
Proof.
  intros Hv Dd S.
  assert (HS : set_target E addr v k d =
      match extract v with
      | None => GPanic "reflect: NumField of non-struct type"
      | Some props =>
          match field_name props k with
          | None => GErr ("setProp: could not find field '" +++ k +++ "'")
          | Some fn =>
              match field_by_name v fn with
              | None => GErr ("setProp: could not find field '" +++ k +++ "'")
              | Some (path, (fi, f)) =>
                  match d with
                  | GNil => GPanic "reflect: Type of zero Value"
                  | _ =>
                      let dv := coerce d (f_iface fi) f in
                      if is_maybe (RV (f_iface fi) f) then
                        match f with
                        | GMaybe m =>
                            if addr then
                              match m_set (e_time E) m dv with
                              | inl m' => GOk (set_path path (GMaybe m') v)
                              | inr e => GErr e
                              end
                            else GPanic "reflect: Set using unaddressable value"
                        | GPtr T a (Some (i, GMaybe m)) =>
                            match m_set (e_time E) m dv with
                            | inl m' => GOk (set_path path (GPtr T a (Some (i, GMaybe m'))) v)
                            | inr e => GErr e
                            end
                        | _ => GPanic "nil Maybe"
                        end
                      else if negb addr then GPanic "reflect: Set using unaddressable value"
                      else if f_iface fi || String.eqb (typ dv) (typ f)
                      then GOk (set_path path dv v)
                      else GPanic "reflect: Set: value not assignable"
                  end
              end
          end
      end) by (destruct v; try contradiction; reflexivity).
  rewrite HS in S. clear HS.
  destruct (extract v) as [props|]; [|discriminate].
  destruct (field_name props k) as [fn|]; [|discriminate].
  destruct (field_by_name v fn) as [[path [fi f]]|] eqn:B; [|discriminate].
  apply field_by_name_path in B. destruct B as (B & _).
  set (dv := coerce d (f_iface fi) f) in *. cbv zeta in S.
  assert (L : depth dv = 0) by (now apply coerce_depth).
  assert (S' : (if is_maybe (RV (f_iface fi) f) then
                        match f with
                        | GMaybe m =>
                            if addr then
                              match m_set (e_time E) m dv with
                              | inl m' => GOk (set_path path (GMaybe m') v)
                              | inr e => GErr e
                              end
                            else GPanic "reflect: Set using unaddressable value"
                        | GPtr T a (Some (i, GMaybe m)) =>
                            match m_set (e_time E) m dv with
                            | inl m' => GOk (set_path path (GPtr T a (Some (i, GMaybe m'))) v)
                            | inr e => GErr e
                            end
                        | _ => GPanic "nil Maybe"
                        end
                      else if negb addr then GPanic "reflect: Set using unaddressable value"
                      else if f_iface fi || String.eqb (typ dv) (typ f)
                      then GOk (set_path path dv v)
                      else GPanic "reflect: Set: value not assignable") = GOk v')
    by (destruct d; try discriminate S; exact S).
  clear S. destruct (is_maybe (RV (f_iface fi) f)).
  - destruct f; try discriminate.
    + destruct p as [[i [| | | | | | | | | |mm| |]]|]; try discriminate.
      destruct (m_set (e_time E) mm dv); [|discriminate]. injection S' as <-.
      eapply depth_set_path; [exact B|]. cbn. lia.
    + destruct addr; [|discriminate]. destruct (m_set (e_time E) m dv); [|discriminate]. injection S' as <-.
      eapply depth_set_path; [exact B|]. cbn. lia.
  - destruct (negb addr); [discriminate|]. destruct (_ || _); [|discriminate]. injection S' as <-.
    eapply depth_set_path; [exact B|]. lia.
Qed.

Lemma depth_set_target E addr v k d v' : depth d = 0 -> set_target E addr v k d = GOk v' -> depth v' <= depth v.
Proof.
  intros Dd S. destruct v; try (eapply depth_set_struct; eauto; exact I); try discriminate S.
  cbn [set_target] in S.
  assert (H1 : forall l, list_max (map (fun e : string * gval => depth (snd e)) (sdel k l)) <= list_max (map (fun e => depth (snd e)) l)).
  { intros l. apply list_max_mono. intros e He. exists e. split; [|lia]. clear -He. induction l as [|[a b] l IH]; cbn in *; [tauto|].
    destruct (String.eqb k a); cbn in He; tauto. }
  assert (H2 : forall l, list_max (map (fun e : string * gval => depth (snd e)) (sset k d l)) <= list_max (map (fun e => depth (snd e)) l)).
  { intros l. apply list_max_le, Forall_forall. intros q Hq. apply in_map_iff in Hq. destruct Hq as ([k' y] & <- & Hy).
    cbn [snd]. apply in_sset in Hy. destruct Hy as [->|Hy]; [lia|]. apply list_max_in, in_map_iff. exists (k', y). auto. }
  destruct kk; try discriminate; destruct d; destruct m as [m|]; try (destruct (_ || _)); try discriminate; injection S as <-; cbn [depth]; try lia;
    try (specialize (H1 m); lia); specialize (H2 m); lia.
Qed.

Lemma depth_set_prop E v k d v' : depth d = 0 -> set_prop E v k d = GOk v' -> depth v' <= depth v.
Proof.
  intros Dd S.
  assert (GM : forall addr f x, gmapres f (set_target E addr x k d) = GOk v' ->
    exists x', v' = f x' /\ depth x' <= depth x).
  { clear S. intros addr f x H. destruct (set_target E addr x k d) as [x'| |] eqn:ST; try discriminate.
    injection H as <-. exists x'. split; auto. eapply depth_set_target; eauto. }
  destruct v; try (apply (depth_set_target E false _ k d v' Dd S)).
  cbn [set_prop] in S.
  destruct p as [[[] y]|]; try discriminate.
  - destruct y; try discriminate S; match type of S with gmapres ?f (set_target _ ?a ?x _ _) = _ => apply (GM a f x) in S end; destruct S as (x' & -> & L); cbn [depth] in *; lia.
  - destruct y as [| | | | | | | |T2 a2 [[[] z]|]| | | |]; try discriminate S;
      match type of S with gmapres ?f (set_target _ ?a ?x _ _) = _ => apply (GM a f x) in S end; destruct S as (x' & -> & L); cbn [depth] in *; lia.
Qed.

(** all declared defaults are scalars *)
Definition small (E : env) (c : constr) : Prop := forall d, declared E c d -> scalar d.

Lemma small_child E c x : small E c -> In x (children E c) -> small E x.
Proof. intros S H d D. apply S. eapply declared_child; eauto. Qed.

Theorem validate_depth E n c v w r v' w' : small E c -> validate n E c v w = (r, v', w') -> depth v' <= depth v.
Proof.
  intros S H.
  apply (validate_pres E (small E) (fun _ => True) (fun v v' => depth v' <= depth v)) in H; auto; [tauto|..].
  - intros; lia.
  - intros. eapply small_child; eauto.
  - intros. split; auto. eapply depth_put; eauto.
  - intros o k c0 d v0 v1 pv So Hin Hd _ G L St. split; auto. eapply depth_set_prop; [|exact St].
    apply scalar_depth, So. exists o, k, c0. repeat split; auto. constructor.
  - intros. apply Forall_forall. auto.
  - intros T i l l' _ F. split; auto. cbn. apply le_n_S. apply list_max_mono. intros y Hy.
    clear -F Hy. induction F as [|a b ? ? [_ L] F IH]; cbn in *; [tauto|].
    destruct Hy as [<-|Hy]; [exists a; auto|]. destruct (IH Hy) as (x & Hx & Lx). exists x. auto.
Qed.

(** ** Runs that do not exhaust their fuel *)
Section NoOOF.
  Variables (E : env) (rec : recT).
  Hypothesis D : forall c v w r v' w', small E c -> rec c v w = (r, v', w') -> depth v' <= depth v.

  Definition okat (d : nat) (c : constr) : Prop := forall v w, depth v < d -> rs (rec c v w) <> OOF.

  Ltac step c v w Hok :=
    let R := fresh "R" in let rr := fresh "rr" in
    pose proof (Hok v w) as R; destruct (rec c v w) as [[rr ?v1] ?w1] eqn:HR;
    apply D in HR; auto.

  Lemma all_ok d cs : Forall (small E) cs -> Forall (okat d) cs -> forall v w, depth v < d -> rs (all_loop rec cs v w) <> OOF.
  Proof.
    intros HS. induction 1 as [|c cs Hc H IH]; intros v w L; cbn [all_loop]; [discriminate|].
    inversion HS; subst. step c v w Hc. destruct rr; try (apply R; lia). apply IH; auto. lia.
  Qed.
  Lemma any_ok d cs : Forall (small E) cs -> Forall (okat d) cs -> forall v w, depth v < d -> rs (any_loop rec cs v w) <> OOF.
  Proof.
    intros HS. induction 1 as [|c cs Hc H IH]; intros v w L; cbn [any_loop]; [discriminate|].
    inversion HS; subst. step c v w Hc. destruct rr; try (apply R; lia). apply IH; auto. lia.
  Qed.
  Lemma oneof_ok d cs : Forall (small E) cs -> Forall (okat d) cs -> forall k v w, depth v < d -> rs (oneof_loop rec cs k v w) <> OOF.
  Proof.
    intros HS. induction 1 as [|c cs Hc H IH]; intros k v w L; cbn [oneof_loop].
    - cbn. destruct k as [|[|k]]; discriminate.
    - inversion HS; subst. step c v w Hc. destruct rr; try (apply R; lia); apply IH; auto; lia.
  Qed.
  Lemma not_ok d c : small E c -> (c <> CNil -> okat d c) -> forall v w, depth v < d -> rs (not_validate rec c v w) <> OOF.
  Proof.
    intros S H v w L. unfold not_validate.
    assert (G : c <> CNil -> rs match rec c v w with
      | (Pass, v', w') => (Fail "'not' validation failed", v', w')
      | (Fail _, v', w') => (Pass, v', w')
      | o => o end <> OOF).
    { intros N. specialize (H N v w L). destruct (rec c v w) as [[[] ?] ?]; cbn in *; congruence. }
    destruct c; try (apply G; discriminate). discriminate.
  Qed.

  Lemma idx_ok d jobs : Forall (fun j => small E (snd j) /\ okat d (snd j)) jobs -> forall l w,
    Forall (fun x => depth x < d) l -> Forall (fun j => fst j < List.length l) jobs ->
    rs (idx_loop rec jobs l w) <> OOF /\ Forall (fun x => depth x < d) (snd (fst (idx_loop rec jobs l w)))
    /\ List.length (snd (fst (idx_loop rec jobs l w))) = List.length l.
  Proof.
    induction 1 as [|[i c] jobs [Hs Hc] H IH]; intros l w F B; cbn [idx_loop]; [repeat split; auto; discriminate|].
    inversion B as [|? ? Bi B']; subst. cbn in *.
    assert (Ln : depth (nth i l GNil) < d).
    { rewrite Forall_forall in F. apply F, nth_In, Bi. }
    step c (nth i l GNil) w Hc.
    assert (F' : Forall (fun x => depth x < d) (set_nth i v1 l)).
    { apply Forall_forall. intros x Hx. apply In_nth_error in Hx. destruct Hx as [j Hx]. rewrite Forall_forall in F.
      clear -Hx F HR Ln. revert l j Hx F HR Ln. induction i as [|i IHi]; intros [|y l] [|j] Hx F HR Ln; cbn in *; try discriminate.
      - injection Hx as <-. lia.
      - apply F. right. eapply nth_error_In; eauto.
      - injection Hx as <-. apply F. auto.
      - eapply IHi; eauto. }
    assert (B2 : Forall (fun j => fst j < List.length (set_nth i v1 l)) jobs) by now rewrite set_nth_length.
    specialize (IH (set_nth i v1 l) w1 F' B2).
    destruct rr; cbn in *; rewrite ?set_nth_length in *; auto; repeat split; auto; try discriminate.
  Qed.

  Lemma arr_ok d a : small E (CArr a) ->
    (a_items a <> CNil -> okat d (a_items a)) -> (a_add a <> CNil -> okat d (a_add a)) -> Forall (okat d) (a_pos a) ->
    forall v w, depth v < S d -> rs (arr_validate rec E a v w) <> OOF.
  Proof.
    intros HS HI HA HP v w L. unfold arr_validate. destruct v as [| | | | | |T i ol| | | | | |]; try discriminate.
    set (l := match ol with None => [] | Some l => l end).
    assert (F : Forall (fun x => depth x < d) l).
    { unfold l. destruct ol as [l0|]; [|constructor]. apply Forall_forall. intros x Hx.
      cbn in L. assert (depth x <= list_max (map depth l0)) by (apply list_max_in, in_map, Hx). lia. }
    destruct (_ && _); [discriminate|]. destruct (_ && _); [discriminate|]. destruct (_ && _); [discriminate|].
    assert (JM : forall c s k, small E c -> okat d c -> s + k <= List.length l -> Forall (fun j => small E (snd j) /\ okat d (snd j)) (map (fun i => (i, c)) (seq s k))
      /\ Forall (fun j => fst j < List.length l) (map (fun i => (i, c)) (seq s k))).
    { intros c s k Sc Oc Lk. split; apply Forall_forall; intros j Hj; apply in_map_iff in Hj; destruct Hj as (q & <- & Hq); cbn; auto.
      apply in_seq in Hq. lia. }
    assert (SI : small E (a_items a)) by (eapply small_child; [exact HS|apply child_items]).
    assert (SA : small E (a_add a)) by (eapply small_child; [exact HS|apply child_aadd]).
    assert (GI : forall c, a_items a = c -> c <> CNil -> rs (let '(r, l1, w1) := idx_loop rec (map (fun i0 => (i0, c)) (seq 0 (List.length l))) l w in
              (r, GSlice T i (match ol with None => None | Some _ => Some l1 end), w1)) <> OOF).
    { intros c <- N. destruct (JM (a_items a) 0 (List.length l) SI (HI N) ltac:(lia)) as [J1 J2].
      destruct (idx_ok d _ J1 l w F J2) as [G _]. destruct (idx_loop rec _ l w) as [[[] ?] ?]; cbn in *; congruence. }
    destruct (a_items a) eqn:Ei; try (apply GI; [reflexivity|discriminate]).
    assert (J1 : Forall (fun j => small E (snd j) /\ okat d (snd j)) (positional_jobs (a_pos a) (List.length l))).
    { apply Forall_forall. intros [j c] Hj. unfold positional_jobs in Hj. apply in_combine_r in Hj. cbn. split.
      - eapply small_child; [exact HS|now apply child_pos].
      - rewrite Forall_forall in HP. auto. }
    assert (J2 : Forall (fun j => fst j < List.length l) (positional_jobs (a_pos a) (List.length l))).
    { apply Forall_forall. intros [j c] Hj. unfold positional_jobs in Hj. apply in_combine_l, in_seq in Hj. cbn. lia. }
    destruct (idx_ok d _ J1 l w F J2) as (G & F1 & L1).
    destruct (idx_loop rec (positional_jobs (a_pos a) (List.length l)) l w) as [[rr l1] w1]; cbn in G, F1, L1.
    destruct rr; try discriminate; [|cbn; congruence].
    destruct ((0 <? List.length (a_pos a)) && (List.length (a_pos a) <? List.length l)) eqn:EX; [|discriminate].
    apply andb_prop in EX. destruct EX as [X1 X2]. apply Nat.ltb_lt in X1, X2.
    assert (GA : forall c, a_add a = c -> c <> CNil -> rs (let '(r, l2, w2) := idx_loop rec (map (fun i0 => (i0, c)) (seq (List.length (a_pos a) - 1) (List.length l - (List.length (a_pos a) - 1)))) l1 w1 in
              (r, GSlice T i (match ol with None => None | Some _ => Some l2 end), w2)) <> OOF).
    { intros c <- N.
      destruct (JM (a_add a) (List.length (a_pos a) - 1) (List.length l - (List.length (a_pos a) - 1)) SA (HA N) ltac:(lia)) as [K1 K2].
      assert (K3 : Forall (fun j : nat * constr => fst j < Datatypes.length l1) (map (fun i : nat => (i, a_add a)) (seq (List.length (a_pos a) - 1) (List.length l - (List.length (a_pos a) - 1)))))
        by (rewrite L1; exact K2).
      destruct (idx_ok d _ K1 l1 w1 F1 K3) as [G2 _]. destruct (idx_loop rec _ l1 w1) as [[[] ?] ?]; cbn in *; congruence. }
    destruct (a_add a) eqn:Ea; try (apply GA; [reflexivity|discriminate]). discriminate.
  Qed.

  Variable gd : constr -> dres.
  Hypothesis G : forall c d, gd c = DSome d -> Default E c d.

  Definition dv (st : ostate) : nat := depth (fst (fst st)).

  Lemma props_ok d o ps : small E (CObj o) ->
    Forall (fun p => small E (snd p) /\ okat d (snd p) /\ gd (snd p) <> DOOF /\ In p (o_props o)) ps ->
    forall v pm sn w, depth v < S d ->
    rs (props_loop rec gd E o ps (v, pm, sn) w) <> OOF /\ dv (snd (fst (props_loop rec gd E o ps (v, pm, sn) w))) <= depth v.
  Proof.
    intros So. induction 1 as [|[k c] ps (Hs & Hc & Hg & Hin) H IH]; intros v pm sn w L; cbn [props_loop]; [split; [discriminate|cbn; lia]|].
    cbn [snd] in *.
    destruct (get_prop (deref1 v) k) as [pv|] eqn:Gp; [|split; [discriminate|cbn; lia]].
    destruct (look_prop pv) as [| |u x] eqn:Lp; [split; [discriminate|cbn; lia]| |].
    - destruct (is_required o k); [split; [discriminate|cbn; lia]|].
      destruct (gd c) as [|dd| |] eqn:Gc; [apply IH; auto| |split; [discriminate|cbn; lia]|congruence].
      destruct (set_prop E v k dd) as [v1| |] eqn:St; [|split; [discriminate|cbn; lia]|split; [discriminate|cbn; lia]].
      assert (L1 : depth v1 <= depth v).
      { eapply depth_set_prop; [|exact St]. apply scalar_depth, So. exists o, k, c. repeat split; auto. constructor. }
      destruct (IH v1 pm sn w ltac:(lia)). split; auto. lia.
    - assert (Lx : depth x < depth v) by (eapply depth_look; eauto).
      step c x w Hc.
      assert (L1 : depth (if u then v else put_prop v k v1) <= depth v).
      { destruct u; auto. destruct pv as [|i y]; [discriminate|]. eapply depth_put; [exact Gp|].
        cbn [look_prop] in Lp. destruct (is_maybe (RV i y)).
        - destruct (maybe_of (RV i y)) as [m|]; [|discriminate]. destruct (m_valid m); discriminate.
        - injection Lp as <-. exact HR. }
      destruct rr.
      + edestruct IH as [G1 G2]; [|split; [exact G1|]]; lia.
      + split; [discriminate|exact L1].
      + split; [discriminate|exact L1].
      + exfalso. apply R; auto. lia.
  Qed.

  Lemma pat_inner_ok d src c ns : small E c -> okat d c -> forall v pm sn w, depth v < S d ->
    rs (pat_inner rec E src c ns (v, pm, sn) w) <> OOF /\ dv (snd (fst (pat_inner rec E src c ns (v, pm, sn) w))) <= depth v.
  Proof.
    intros Hs Hc. induction ns as [|k ns IH]; intros v pm sn w L; cbn [pat_inner]; [split; [discriminate|cbn; lia]|].
    destruct (e_rx E src k); cbn [negb]; [|auto].
    destruct (get_prop (deref1 v) k) as [pv|] eqn:Gp; [|split; [discriminate|cbn; lia]].
    destruct pv as [|i x]; cbn [interface]; [split; [discriminate|cbn; lia]|].
    assert (Lx : depth x < depth v) by (eapply depth_get_prop; eauto).
    step c x w Hc. assert (L1 : depth (put_prop v k v1) <= depth v) by (eapply depth_put; eauto).
    destruct rr.
    - edestruct IH as [G1 G2]; [|split; [exact G1|]]; lia.
    - split; [discriminate|exact L1].
    - split; [discriminate|exact L1].
    - exfalso. apply R; auto. lia.
  Qed.

  Lemma pats_ok d ps : Forall (fun p => small E (snd p) /\ okat d (snd p)) ps -> forall v pm sn w, depth v < S d ->
    rs (pats_loop rec E ps (v, pm, sn) w) <> OOF /\ dv (snd (fst (pats_loop rec E ps (v, pm, sn) w))) <= depth v.
  Proof.
    induction 1 as [|[[i src] c] ps [Hs Hc] H IH]; intros v pm sn w L; cbn [pats_loop]; [split; [discriminate|cbn; lia]|].
    destruct (shuffle w pm) as [ns w1]. cbn [snd] in *.
    destruct (pat_inner_ok d src c ns Hs Hc v pm sn w1 L) as [G1 G2].
    destruct (pat_inner rec E src c ns (v, pm, sn) w1) as [[rr [[v1 pm1] sn1]] w2]; cbn in G1, G2.
    destruct rr; [|split; [discriminate|exact G2]|split; [discriminate|exact G2]|congruence].
    edestruct IH as [G3 G4]; [|split; [exact G3|]]; unfold dv in *; cbn in *; lia.
  Qed.

  Lemma add_ok d c ns : small E c -> okat d c -> forall v w, depth v < S d ->
    rs (add_loop rec c ns v w) <> OOF /\ depth (snd (fst (add_loop rec c ns v w))) <= depth v.
  Proof.
    intros Hs Hc. induction ns as [|k ns IH]; intros v w L; cbn [add_loop]; [split; [discriminate|cbn; lia]|].
    destruct (get_prop (deref1 v) k) as [pv|] eqn:Gp; [|split; [discriminate|cbn; lia]].
    destruct pv as [|i x]; cbn [interface]; [split; [discriminate|cbn; lia]|].
    assert (Lx : depth x < depth v) by (eapply depth_get_prop; eauto).
    step c x w Hc. assert (L1 : depth (put_prop v k v1) <= depth v) by (eapply depth_put; eauto).
    destruct rr.
    - edestruct IH as [G1 G2]; [|split; [exact G1|]]; lia.
    - split; [discriminate|exact L1].
    - split; [discriminate|exact L1].
    - exfalso. apply R; auto. lia.
  Qed.

  Lemma deps_ok d o sn ns : (forall k, schema_dep o k <> CNil -> small E (schema_dep o k) /\ okat d (schema_dep o k)) ->
    forall v w, depth v < d -> rs (deps_loop rec o sn ns v w) <> OOF.
  Proof.
    intros HS. induction ns as [|k ns IH]; intros v w L; cbn [deps_loop]; [discriminate|].
    destruct (prop_deps o k) as [|p ps].
    - assert (GG : schema_dep o k <> CNil -> rs match rec (schema_dep o k) v w with
        | (Pass, v', w') => deps_loop rec o sn ns v' w'
        | x => x end <> OOF).
      { intros N. destruct (HS k N) as [Hs Hc]. step (schema_dep o k) v w Hc.
        destruct rr; try (apply R; lia). apply IH. lia. }
      destruct (schema_dep o k); try (apply GG; discriminate). apply IH; auto.
    - destruct (missing_dep sn (p :: ps)); [discriminate|]. apply IH; auto.
  Qed.

  Lemma obj_ok d o : small E (CObj o) ->
    (forall k c, In (k, c) (o_props o) -> okat d c /\ gd c <> DOOF) ->
    (forall k c, In (k, c) (o_pats o) -> okat d c) ->
    (o_add o <> CNil -> okat d (o_add o)) ->
    (forall k, schema_dep o k <> CNil -> okat (S d) (schema_dep o k)) ->
    forall v w, depth v < S d -> rs (obj_validate rec gd E o v w) <> OOF.
  Proof.
    intros So H1 H2 H3 H4 v w L. unfold obj_validate.
    destruct (get_names (deref1 v)) as [fields| |]; try discriminate.
    destruct (_ && _); [discriminate|]. destruct (_ && _); [discriminate|].
    destruct (shuffle w (o_props o)) as [ps w1] eqn:S1. apply shuffle_perm in S1.
    assert (F1 : Forall (fun p => small E (snd p) /\ okat d (snd p) /\ gd (snd p) <> DOOF /\ In p (o_props o)) ps).
    { apply Forall_forall. intros [k c] Hp. assert (Hin : In (k, c) (o_props o)) by (eapply Permutation_in; [apply Permutation_sym|]; eauto).
      cbn. split; [eapply small_child; [exact So|eapply child_prop; eauto]|]. destruct (H1 k c Hin). auto. }
    destruct (props_ok d o ps So F1 v fields [] w1 L) as [G1 G2].
    destruct (props_loop rec gd E o ps (v, fields, []) w1) as [[rr [[v2 pm2] sn2]] w2]; cbn in G1, G2.
    destruct rr; try discriminate; [|cbn; congruence].
    destruct (shuffle w2 (o_pats o)) as [pats w3] eqn:S2. apply shuffle_perm in S2.
    assert (F2 : Forall (fun p => small E (snd p) /\ okat d (snd p)) pats).
    { apply Forall_forall. intros [k c] Hp. assert (Hin : In (k, c) (o_pats o)) by (eapply Permutation_in; [apply Permutation_sym|]; eauto).
      cbn. split; [eapply small_child; [exact So|eapply child_pat; eauto]|]. eauto. }
    unfold dv in *; cbn in G2.
    destruct (pats_ok d pats F2 v2 pm2 sn2 w3 ltac:(lia)) as [G3 G4].
    destruct (pats_loop rec E pats (v2, pm2, sn2) w3) as [[rr [[v4 pm4] sn4]] w4]; unfold dv in *; cbn in G3, G4.
    destruct rr; try discriminate; [|cbn; congruence].
    assert (FD : forall v6 w6, depth v6 < S d -> rs (let '(ns, w7) := shuffle w6 sn4 in deps_loop rec o sn4 ns v6 w7) <> OOF).
    { intros v6 w6 L6. destruct (shuffle w6 sn4) as [ns w7]. apply (deps_ok (S d)); auto.
      intros k N. split; auto. eapply small_child; [exact So|now apply child_sdep]. }
    assert (FA : o_add o <> CNil -> pm4 <> [] ->
      rs (let '(ns, w5) := shuffle w4 pm4 in add_loop rec (o_add o) ns v4 w5) <> OOF /\
      depth (snd (fst (let '(ns, w5) := shuffle w4 pm4 in add_loop rec (o_add o) ns v4 w5))) <= depth v4).
    { intros N _. destruct (shuffle w4 pm4) as [ns w5].
      assert (Sa : small E (o_add o)) by (eapply small_child; [exact So|apply child_add]).
      apply (add_ok d (o_add o) ns Sa (H3 N) v4 w5). lia. }
    set (r5 := match pm4 with [] => _ | _ :: _ => _ end).
    assert (R5 : rs r5 <> OOF /\ depth (snd (fst r5)) <= depth v4).
    { unfold r5. destruct pm4 as [|p pm4]; [split; [discriminate|cbn; lia]|].
      destruct (o_add o); try (apply FA; discriminate). split; [discriminate|cbn; lia]. }
    clearbody r5. destruct r5 as [[rr v6] w6]. cbn in R5. destruct R5 as [R5 R6].
    destruct rr; try discriminate; [|cbn; congruence]. apply FD. lia.
  Qed.
End NoOOF.

(** ** Finite acyclic reference graphs are well-founded *)
Lemma calls_plus_trans E a b : calls_plus E a b -> forall c, calls_plus E b c -> calls_plus E a c.
Proof. induction 1; intros; eapply cp_more; eauto. Qed.

Lemma calls_wf E : finite_refs E -> guarded E -> well_founded (fun n' n => calls E n n').
Proof.
  intros [l Hl] HG.
  (* S: a list containing every registered name reachable from n *)
  assert (M : forall k n S, List.length S <= k -> (forall n', calls_plus E n n' -> e_refs E n' <> None -> In n' S) ->
    Acc (fun n' n => calls E n n') n).
  { induction k as [|k IH]; intros n S LS HS; constructor; intros n' Hc.
    - destruct (e_refs E n') eqn:Rn.
      + exfalso. assert (In n' S) by (apply HS; [now apply cp_one|congruence]). destruct S; cbn in *; [tauto|lia].
      + constructor. intros n2 (c & Hr & _). congruence.
    - destruct (e_refs E n') eqn:Rn.
      + assert (Hin : In n' S) by (apply HS; [now apply cp_one|congruence]).
        apply (IH n' (remove string_dec n' S)).
        * pose proof (remove_length_lt string_dec S n' Hin). lia.
        * intros n2 H2 R2. apply in_in_remove.
          -- intros ->. exact (HG n' H2).
          -- apply HS; auto. eapply cp_more; eauto.
      + constructor. intros n2 (c0 & Hr & _). congruence. }
  intros n. apply (M (List.length l) n l); auto.
Qed.

(** ** HasDefault/DefaultValue terminate *)
Lemma get_default_term E : well_founded (fun n' n => calls E n n') -> forall c, exists N, get_default N E c <> DOOF.
Proof.
  intros W.
  assert (R : forall n, exists N, get_default N E (CRef n) <> DOOF).
  { intros n. induction (W n) as [n _ IH].
    destruct (e_refs E n) as [c|] eqn:Rn; [|exists 1; cbn; rewrite Rn; discriminate].
    destruct c; try (exists 2; cbn; rewrite Rn; try destruct d; discriminate).
    destruct (IH name) as [N HN].
    - exists (CRef name). split; auto. constructor.
    - exists (S N). cbn [get_default]. rewrite Rn. exact HN. }
  intros c. destruct c; auto; exists 1; cbn; try destruct d; discriminate.
Qed.

(** ** The theorem *)
Lemma okat_mono E N M d c : N <= M -> okat (validate N E) d c -> okat (validate M E) d c.
Proof. intros L H v w Lv. rewrite (validate_mono E N M c v w L); auto. Qed.

Lemma okat_all E d cs : (forall c, In c cs -> exists N, okat (validate N E) d c) ->
  exists N, forall c, In c cs -> okat (validate N E) d c.
Proof.
  induction cs as [|c cs IH]; intros H; [exists 0; intros ? []|].
  destruct IH as [N HN]; [intros; apply H; now right|]. destruct (H c) as [M HM]; [now left|].
  exists (Nat.max N M). intros x [<-|Hx]; [apply (okat_mono E M)|apply (okat_mono E N)]; auto; lia.
Qed.

Lemma gd_all E (cs : list constr) : (forall c, exists N, get_default N E c <> DOOF) ->
  exists N, forall M c, N <= M -> In c cs -> get_default M E c <> DOOF.
Proof.
  intros H. induction cs as [|c cs IH]; [exists 0; intros ? ? ? []|].
  destruct IH as [N HN]. destruct (H c) as [K HK]. exists (Nat.max N K). intros M x L [<-|Hx].
  - rewrite (get_default_mono E K M); auto. lia.
  - apply HN; auto. lia.
Qed.

Lemma shallow_reach E c n : Shallow c n -> Reach E c (CRef n).
Proof.
  induction 1; try (constructor; fail).
  1-3: econstructor; [cbn; eassumption|assumption].
  - econstructor; [cbn; left; reflexivity|assumption].
  - econstructor; [|eassumption]. apply child_sdep. intros Q. rewrite Q in H. inversion H.
Qed.

Theorem validate_terminates_wf E : well_founded (fun n' n => calls E n n') ->
  forall d c, small E c -> exists N, okat (validate N E) d c.
Proof.
  intros W. pose proof (get_default_term E W) as GD.
  induction d as [|d IHd]; [intros; exists 0; intros v w L; lia|].
  (* lemma 1 *)
  assert (L1 : forall c, small E c -> (forall n, Shallow c n -> exists N, okat (validate N E) (S d) (CRef n)) ->
    exists N, okat (validate N E) (S d) c).
  { refine (constr_subs_ind _ _). intros c IHc Sc HS.
    assert (DN : forall n c v w r v' w', small E c -> validate n E c v w = (r, v', w') -> depth v' <= depth v)
      by (intros; eapply validate_depth; eauto).
    assert (SU : forall x, In x (subs c) -> small E x) by (intros x Hx; eapply small_child; [exact Sc|now apply subs_children]).
    assert (LST : forall l, (forall x, In x l -> In x (subs c)) -> (forall x n, In x l -> Shallow x n -> Shallow c n) ->
      exists N, Forall (okat (validate N E) (S d)) l /\ Forall (small E) l).
    { intros l Hl Hsh. destruct (okat_all E (S d) l) as [N HN].
      - intros x Hx. apply IHc; auto. intros n Hn. apply HS. eapply Hsh; eauto.
      - exists N. split; apply Forall_forall; auto. }
    destruct c; try (exists 1; intros v w _; discriminate).
    - exists 1; intros v w _; cbn. unfold null_validate. destruct v as [| | | | | |? ? []|? ? ? ? []|? ? []| | | |? [] [] ?]; discriminate.
    - exists 1; intros v w _; cbn. unfold bool_validate. destruct v; discriminate.
    - exists 1; intros v w _; cbn. unfold str_validate. destruct (deref1 v) as [|[] []]; try discriminate.
      unfold str_check. destruct (_ && _); [discriminate|]. destruct (_ && _); [discriminate|].
      unfold format_check.
      repeat match goal with |- context[if ?b then _ else _] => destruct b; try discriminate end;
      repeat match goal with |- context[match ?b with inl _ => _ | inr _ => _ end] => destruct b; try discriminate end;
      repeat match goal with |- context[match ?b with Some _ => _ | None => _ end] => destruct b; try discriminate end;
      repeat match goal with |- context[if ?b then _ else _] => destruct b; try discriminate end;
      (induction l as [|e l IHl]; cbn; [discriminate|]; destruct (ieq e _) as [[]|]; auto; discriminate).
    - exists 1; intros v w _; cbn. unfold num_validate. destruct (deref1 v) as [|[] []]; try discriminate. unfold num_check.
      repeat match goal with |- context[if ?b then _ else _] => destruct b; try discriminate end;
      (destruct (n_enum c) as [l|]; [|discriminate]; induction l as [|e l IHl]; cbn; [discriminate|]; destruct (ieq e _) as [[]|]; auto; discriminate).
    - exists 1; intros v w _; cbn. unfold int_validate.
      assert (X : forall f, num_validate c (gfloat f) <> OOF).
      { intros g. unfold num_validate. cbn. unfold num_check.
        repeat match goal with |- context[if ?b then _ else _] => destruct b; try discriminate end;
        (destruct (n_enum c) as [l|]; [|discriminate]; induction l as [|e l IHl]; cbn; [discriminate|]; destruct (ieq e _) as [[]|]; auto; discriminate). }
      destruct (deref1 v) as [|[] []]; try discriminate; auto. cbv zeta. destruct (negb _); [discriminate|auto].
    - (* array *)
      clear LST. assert (exists N, forall x, In x (children E (CArr a)) -> okat (validate N E) d x) as [N HN].
      { apply okat_all. intros x Hx. apply IHd. now apply SU. }
      exists (S N). intros v w L. cbn [validate]. apply (arr_ok E (validate N E)) with (d := d); auto.
      + apply DN.
      + intros _. apply HN, child_items.
      + intros _. apply HN, child_aadd.
      + apply Forall_forall. intros x Hx. now apply HN, child_pos.
    - clear LST. assert (exists N, forall x, In x (children E (CObj o)) -> okat (validate N E) d x) as [N HN].
      { apply okat_all. intros x Hx. apply IHd. now apply SU. }
      destruct (gd_all E (map snd (o_props o)) GD) as [K HK].
      destruct (okat_all E (S d) (map (schema_dep o) (keys (o_sdeps o)))) as [M HM].
      { intros x Hx. apply in_map_iff in Hx. destruct Hx as (k & <- & Hk).
        assert (Q : schema_dep o k = CNil \/ schema_dep o k <> CNil) by (destruct (schema_dep o k); auto; right; discriminate).
        destruct Q as [Q|Q].
        - rewrite Q. exists 1. intros v w _. discriminate.
        - assert (In (schema_dep o k) (subs (CObj o))) by (apply (child_sdep E); exact Q).
          apply IHc; auto. intros n Hn. apply HS. eapply sh_dep; eauto. }
      exists (S (Nat.max N (Nat.max K M))). intros v w L. cbn [validate].
      apply (obj_ok E) with (d := d); auto.
      + apply DN.
      + intros c0 d0 Hd. eapply get_default_sound; eauto.
      + intros k c0 Hk. split.
        * apply (okat_mono E N); [lia|]. apply HN. eapply child_prop; eauto.
        * apply HK; [lia|]. apply in_map_iff. exists (k, c0). auto.
      + intros k c0 Hk. apply (okat_mono E N); [lia|]. apply HN. eapply child_pat; eauto.
      + intros _. apply (okat_mono E N); [lia|]. apply HN. apply child_add.
      + intros k Nk. apply (okat_mono E M); [lia|]. apply HM. apply in_map.
        unfold schema_dep in Nk. destruct (sget k (o_sdeps o)) as [c0|] eqn:Sk; [|congruence].
        apply sget_in in Sk. unfold keys. apply in_map_iff. exists (k, c0). auto.
    - exists 1; intros v w _; cbn. clear. induction l as [|e l IHl]; cbn; [discriminate|]; destruct (ieq e _) as [[]|]; auto; discriminate.
    - destruct (LST l) as [N [HN HN2]]; auto; [intros; econstructor; eauto|].
      exists (S N). intros v w L. cbn [validate]. eapply (any_ok E); eauto.
    - destruct (LST l) as [N [HN HN2]]; auto; [intros; econstructor; eauto|].
      exists (S N). intros v w L. cbn [validate]. eapply (all_ok E); eauto.
    - destruct (LST l) as [N [HN HN2]]; auto; [intros; econstructor; eauto|].
      exists (S N). intros v w L. cbn [validate]. eapply (oneof_ok E); eauto.
    - destruct (LST [c]) as [N [HN HN2]]; auto.
      { intros x n [<-|[]] Hx. now constructor. }
      inversion HN; inversion HN2; subst.
      exists (S N). intros v w L. cbn [validate]. eapply (not_ok E); eauto.
    - apply HS. constructor. }
  assert (L2 : forall n, small E (CRef n) -> exists N, okat (validate N E) (S d) (CRef n)).
  { intros n. induction (W n) as [n _ IH]. intros Sn.
    destruct (e_refs E n) as [c|] eqn:Rn.
    - destruct (L1 c) as [N HN].
      + eapply small_child; [exact Sn|]. now apply child_ref.
      + intros n' Hn'. apply IH; [exists c; auto|].
        (* small E (CRef n'): reachable from c *)
        clear -Sn Rn Hn'.
        intros x (o & k & p & R & I & Dp). apply Sn. exists o, k, p. split; auto.
        eapply reach_step; [apply child_ref; exact Rn|]. eapply reach_trans; [apply shallow_reach; exact Hn'|exact R].
      + exists (S N). intros v w L. cbn [validate]. rewrite Rn. now apply HN.
    - exists 1. intros v w L. cbn [validate]. rewrite Rn. discriminate. }
  intros c Sc. apply L1; auto. intros n Hn. apply L2.
  intros x (o & k & p & R & I & Dp). apply Sc. exists o, k, p. split; auto.
  eapply reach_trans; [|exact R]. now apply shallow_reach.
Qed.

(** Validate terminates on every value and whatever the map iteration order, when the
    definitions are finitely many and no definition reaches itself without descending. *)
Theorem validate_terminates E c : finite_refs E -> guarded E -> small E c ->
  forall v, exists N, forall w, rs (validate N E c v w) <> OOF.
Proof.
  intros F G S v. destruct (validate_terminates_wf E (calls_wf E F G) (Datatypes.S (depth v)) c S) as [N HN].
  exists N. intros w. apply HN. lia.
Qed.
