(** The generator's output does not depend on map iteration orders (C49). *)
From Verif Require Import Base GoFloat GoValue Maybe Formats Constraint StructInfo Validate Reach ConstrInd Builder GoText GoLang GoEval Generator GenLex GenParse GenCode GenLike GenSpec GenFaith GenRound GenObj.
Open Scope string_scope.
Open Scope list_scope.

(** two runs with the same text, or the same error *)
Definition same_out {A} (a b : gres (A * orc)) : Prop :=
  match a, b with
  | GOk (x, _), GOk (y, _) => x = y
  | GErr e, GErr e' | GPanic e, GPanic e' => e = e'
  | _, _ => False
  end.
Definition steady {A} (m : gm A) : Prop := forall w w', same_out (m w) (m w').

(** every object's patterns have different sources (in the parts the generator looks at) *)
Fixpoint distinct_sources (c : constr) : Prop :=
  match c with
  | CArr a => distinct_sources (a_items a) /\ distinct_sources (a_add a) /\ allp distinct_sources (a_pos a)
  | CObj o =>
      NoDup (map (fun e => snd (fst e)) (o_pats o)) /\ distinct_sources (o_add o) /\
      allp (fun e => distinct_sources (snd e)) (o_props o) /\ allp (fun e => distinct_sources (snd e)) (o_pats o)
  | CAny l | CAll l | COneOf l => allp distinct_sources l
  | CNot x => distinct_sources x
  | _ => True
  end.

Lemma steady_ret {A} (x : A) : steady (gret x).
Proof. intros w w'. reflexivity. Qed.
Lemma steady_bind {A B} (m : gm A) (f : A -> gm B) : steady m -> (forall x, steady (f x)) -> steady (gbind m f).
Proof.
  intros H K w w'. unfold gbind. specialize (H w w'). destruct (m w) as [[x w1]|e|e], (m w') as [[x' w1']|e'|e']; cbn in H; try contradiction; subst; try reflexivity.
  apply K.
Qed.
Lemma steady_det {A} (m : gm A) x : det m x -> steady m.
Proof. intros H w w'. destruct (H w) as [u ->], (H w') as [u' ->]. reflexivity. Qed.
Lemma steady_names {A} (m : list (string * A)) : steady (sorted_names m).
Proof.
  intros w w'. unfold sorted_names. destruct (shuffle w (keys m)) as [p u] eqn:E. destruct (shuffle w' (keys m)) as [p' u'] eqn:E'.
  apply shuffle_perm in E. apply shuffle_perm in E'. cbn. apply sort_perm. transitivity (keys m); [now apply Permutation_sym|auto].
Qed.
Lemma steady_concat l : Forall steady l -> steady (gconcat l).
Proof. induction 1; cbn [gconcat]; [apply steady_ret|]. apply steady_bind; auto. intros x0. apply steady_bind; auto. intros. apply steady_ret. Qed.
Lemma steady_ignore m : steady m -> steady (ignore_err m).
Proof.
  intros H w w'. unfold ignore_err. specialize (H w w').
  destruct (m w) as [[x w1]|e|e], (m w') as [[x' w1']|e'|e']; cbn in *; try contradiction; subst; reflexivity.
Qed.
Lemma steady_post m : steady m -> steady (post m).
Proof. intros H. apply steady_bind; auto. intros. apply steady_ret. Qed.
Lemma steady_arg m : steady m -> steady (arg_line m).
Proof. intros H. apply steady_bind; auto. intros. apply steady_ret. Qed.

Lemma steady_enum G l : steady (enum_code G l).
Proof.
  induction l as [|v l IH]; [apply steady_ret|]. apply steady_bind; [|intros x; apply steady_bind; [auto|intros; apply steady_ret]].
  destruct v; try destruct k; intros w w'; reflexivity.
Qed.
Lemma steady_str G d c : steady (string_code G d c).
Proof.
  unfold string_code. apply steady_bind; [|intros; apply steady_bind; [|intros; apply steady_ret]].
  - destruct (s_enum c); [|apply steady_ret]. apply steady_bind; [apply steady_enum|intros; apply steady_ret].
  - destruct d as [[]|]; try apply steady_ret; try (intros w w'; reflexivity). destruct (String.eqb T "string"); intros w w'; reflexivity.
Qed.
Lemma steady_int d c : steady (integer_code d c).
Proof.
  unfold integer_code. destruct d as [d|]; [destruct d|]; try (intros w w'; reflexivity). destruct is32; [intros w w'; reflexivity|]. destruct (String.eqb T "float64"); intros w w'; reflexivity.
Qed.
Lemma steady_combo nm l : Forall steady l -> steady (combo_code nm l).
Proof.
  intros H. unfold combo_code. destruct l; [apply steady_ret|]. apply steady_bind; [|intros; apply steady_ret]. apply steady_concat.
  apply Forall_map. eapply Forall_impl; [|exact H]. cbn. intros m K. apply steady_bind; auto. intros. apply steady_ret.
Qed.
Lemma steady_arr a i d p : steady i -> steady d -> Forall steady p -> steady (array_code a i d p).
Proof.
  intros HI HD HP. unfold array_code. apply steady_bind; [|intros; apply steady_bind; [|intros; apply steady_bind; [|intros; apply steady_ret]]].
  - destruct (a_items a); try apply steady_ret; (apply steady_bind; [now apply steady_arg|intros; apply steady_ret]).
  - destruct (a_add a); try apply steady_ret; (apply steady_bind; [now apply steady_arg|intros; apply steady_ret]).
  - destruct p; [apply steady_ret|]. apply steady_bind; [|intros; apply steady_ret]. apply steady_concat. apply Forall_map.
    eapply Forall_impl; [|exact HP]. cbn. intros m K. apply steady_bind; [now apply steady_ignore|]. intros. apply steady_ret.
Qed.
Lemma steady_obj G o add props pats : steady add -> Forall (fun e => steady (snd e)) props ->
  Forall (fun e => steady (snd e)) pats -> NoDup (map (fun e : (nat * string) * gm string => snd (fst e)) pats) -> steady (object_code G o add props pats).
Proof.
  intros HA HP HT ND. unfold object_code. apply steady_bind; [|intros; apply steady_bind; [|intros; apply steady_bind; [|intros; apply steady_bind; [|intros; apply steady_bind; [|intros; apply steady_bind]]]]].
  - destruct (o_req o) as [|p m]; [apply steady_ret|]. apply steady_bind; [apply steady_names|intros; apply steady_ret].
  - destruct (o_add o); try apply steady_ret; (apply steady_bind; [now apply steady_arg|intros; apply steady_ret]).
  - apply steady_names.
  - apply steady_concat. apply Forall_map. apply Forall_forall. intros k _. apply steady_bind; [|intros; apply steady_ret].
    destruct (sget k props) as [m|] eqn:E; [|apply steady_ret]. apply steady_arg. apply sget_in in E. rewrite Forall_forall in HP. apply (HP _ E).
  - intros w w'. destruct (shuffle w pats) as [l u] eqn:E. destruct (shuffle w' pats) as [l' u'] eqn:E'.
    apply shuffle_perm in E. apply shuffle_perm in E'.
    assert (LL : Permutation l l') by (transitivity pats; [now apply Permutation_sym|auto]).
    set (src := fun e : (nat * string) * gm string => snd (fst e)) in *.
    assert (N1 : NoDup (map src l)) by (eapply Permutation_NoDup; [apply Permutation_map; exact E|auto]).
    assert (N2 : NoDup (map src l')) by (eapply Permutation_NoDup; [apply Permutation_map; exact E'|auto]).
    rewrite <- (sort_perm (map src l) (map src l')) by now apply Permutation_map.
    set (tbl := fold_left (fun m e => sset (snd (fst e)) (snd e) m) l []).
    set (tbl' := fold_left (fun m e => sset (snd (fst e)) (snd e) m) l' []).
    assert (T : forall k, sget k tbl = sget k tbl').
    { intros k. destruct (in_dec string_dec k (map src l)) as [I|NI].
      - apply in_map_iff in I as (e & <- & I). unfold tbl, tbl'.
        etransitivity; [apply (fold_get src snd l [] e N1 I)|]. symmetry. apply (fold_get src snd l' [] e N2). eapply Permutation_in; eauto.
      - unfold tbl, tbl'. etransitivity; [apply (fold_keep src snd l [] k NI)|]. symmetry. apply (fold_keep src snd l' [] k).
        intros I. apply NI. eapply Permutation_in; [apply Permutation_map, Permutation_sym, LL|exact I]. }
    assert (TS : forall k m, sget k tbl = Some m -> steady m).
    { intros k m S1. destruct (in_dec string_dec k (map src l)) as [I|NI].
      - apply in_map_iff in I as (e & <- & I). pose proof (fold_get src snd l [] e N1 I) as S2. fold tbl in S2.
        assert (S3 : Some (snd e) = Some m) by (rewrite <- S1; symmetry; exact S2). inversion S3; subst.
        rewrite Forall_forall in HT. apply HT. eapply Permutation_in; [apply Permutation_sym; exact E|exact I].
      - pose proof (fold_keep src snd l [] k NI) as S2. assert (S3 : None = Some m) by (rewrite <- S1; symmetry; exact S2). discriminate S3. }
    match goal with |- same_out (gconcat ?a u) (gconcat ?b u') => assert (X : a = b) end.
    { apply map_ext. intros k. now rewrite T. }
    rewrite <- X. match goal with |- same_out (?m u) (?m u') => assert (SM : steady m) end; [|apply SM].
    apply steady_concat. apply Forall_map. apply Forall_forall. intros k _. apply steady_bind; [|intros; apply steady_ret].
    destruct (sget k tbl) as [m|] eqn:ET; [|apply steady_ret]. apply steady_arg. eapply TS; eauto.
  - apply steady_names.
  - intros. apply steady_ret.
Qed.

Theorem emit_steady G cm c : distinct_sources c -> steady (emit G cm c).
Proof.
  induction c as [c IH] using constr_subs_ind. intros D.
  assert (L : forall l, (forall x, In x l -> In x (subs c)) -> allp distinct_sources l -> Forall steady (map (emit G cm) l)).
  { intros l I A. rewrite allp_in in A. apply Forall_map, Forall_forall. intros x IX. apply IH; auto. }
  destruct c as [| | |d|d s|d m|d m|a|o|l|l|l|l|x|nm]; cbn [emit]; apply steady_post; try apply steady_ret.
  - apply steady_str.
  - apply steady_int.
  - destruct D as (D1 & D2 & D3). apply steady_arr; [apply IH; cbn; auto|apply IH; cbn; auto|]. apply L; auto. intros x I. cbn. auto.
  - destruct D as (D1 & D2 & D3 & D4). rewrite allp_in in D3. rewrite allp_in in D4. apply steady_obj.
    + apply IH; cbn; auto.
    + apply Forall_map, Forall_forall. intros e I. cbn. apply IH; [|now apply D3]. cbn. right. apply in_or_app. right. apply in_or_app. left. now apply in_map.
    + apply Forall_map, Forall_forall. intros e I. cbn. apply IH; [|now apply D4]. cbn. right. apply in_or_app. left. now apply in_map.
    + rewrite map_map. exact D1.
  - apply steady_combo, L; auto.
  - apply steady_combo, L; auto.
  - apply steady_combo, L; auto.
  - unfold not_code. apply steady_bind; [apply IH; cbn; auto|intros; apply steady_ret].
Qed.

(** a whole file: also no validator's root is registered under two names *)
Definition one_same (vs : list validator) : Prop := forall v, In v vs -> forall r r', In r (v_same v) -> In r' (v_same v) ->
  In r (keys (merge_refs vs)) -> In r' (keys (merge_refs vs)) -> r = r'.

Lemma sort_v_in v l : In v (sort_v l) -> In v l.
Proof.
  induction l as [|u l IH]; [auto|]. cbn [sort_v fold_right]. fold (sort_v l). intros H.
  assert (X : forall m, In v (insert_v u m) -> v = u \/ In v m).
  { induction m as [|y m IHm]; cbn [insert_v]; [cbn; intuition|]. destruct (String.compare (v_name u) (v_name y)); cbn; intuition. }
  apply X in H as [->|H]; cbn; auto.
Qed.

Theorem process_steady G vs : one_same vs -> (forall v, In v vs -> distinct_sources (v_root v)) ->
  (forall n c, sget n (merge_refs vs) = Some c -> distinct_sources c) -> steady (process G vs).
Proof.
  intros OS DV DR. unfold process. apply steady_bind; [|intros s; destruct (parse_go s); intros w w'; reflexivity].
  unfold process_text. set (refs := merge_refs vs) in *.
  intros w0 w0'. match goal with |- same_out (?m w0) (?m w0') => assert (SM : steady m); [|apply SM] end.
  apply steady_bind; [apply steady_names|]. intros rn. cbv zeta. apply steady_bind; [|intros rc; apply steady_bind; [|intros; apply steady_ret]].
  - destruct refs as [|p rs] eqn:E; [apply steady_ret|]. rewrite <- E in *. apply steady_bind; [|intros; apply steady_ret].
    apply steady_concat, Forall_map, Forall_forall. intros e _. apply steady_bind; [|intros; apply steady_ret].
    destruct (sget (fst e) refs) eqn:S1; [|apply steady_ret]. apply emit_steady. eapply DR; eauto.
  - apply steady_concat, Forall_map, Forall_forall. intros v I. apply sort_v_in in I. apply steady_bind; [|intros; apply steady_ret].
    unfold validator_code. apply steady_post. intros w w'.
    assert (V : distinct_sources (v_root v) /\ forall r r', In r (v_same v) -> In r' (v_same v) -> In r (keys refs) -> In r' (keys refs) -> r = r').
    { unfold name_all in I. apply in_map_iff in I as ([i u] & <- & I). apply in_combine_r in I. cbn [fst snd]. split.
      - unfold named. specialize (DV u I). destruct (v_name u); exact DV.
      - unfold named. specialize (OS u I). destruct (v_name u); exact OS. }
    destruct V as [V1 V2].
    destruct (shuffle w (keys refs)) as [o1 w1] eqn:E1. destruct (shuffle w' (keys refs)) as [o2 w2] eqn:E2.
    apply shuffle_perm in E1. apply shuffle_perm in E2.
    assert (FF : find (fun r => mem r (v_same v)) o1 = find (fun r => mem r (v_same v)) o2).
    { destruct (find (fun r => mem r (v_same v)) o1) as [r|] eqn:F1; destruct (find (fun r => mem r (v_same v)) o2) as [r'|] eqn:F2; auto.
      - apply find_some in F1 as [I1 M1]. apply find_some in F2 as [I2 M2]. apply mem_In in M1. apply mem_In in M2. f_equal. apply V2; auto.
        + eapply Permutation_in; [apply Permutation_sym; exact E1|auto].
        + eapply Permutation_in; [apply Permutation_sym; exact E2|auto].
      - apply find_some in F1 as [I1 M1]. assert (I2 : In r o2) by (eapply Permutation_in; [exact E2|]; eapply Permutation_in; [apply Permutation_sym; exact E1|auto]).
        pose proof (find_none _ _ F2 r I2) as K. cbn in K. congruence.
      - apply find_some in F2 as [I1 M1]. assert (I2 : In r' o1) by (eapply Permutation_in; [exact E1|]; eapply Permutation_in; [apply Permutation_sym; exact E2|auto]).
        pose proof (find_none _ _ F1 r' I2) as K. cbn in K. congruence. }
    rewrite FF. destruct (find _ o2); [reflexivity|].
    match goal with |- same_out (?m w1) (?m w2) => assert (SM : steady m); [|apply SM] end.
    apply steady_bind; [now apply emit_steady|intros; apply steady_ret].
Qed.
