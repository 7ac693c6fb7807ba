(** From a schema to generated code to verdicts (C65): the builder, the generator and the run of
    the generated code taken together. *)
From Verif Require Import Base GoFloat FloatSpec FloatProofs GoValue Maybe Formats HostSpec Constraint StructInfo Validate Fuel Reach Terminate ConstrInd Local
  Builder BuildSpec BuildProofs BuildRefs BuildErr Spec SpecSound SpecMain Scalars DocSpec Height SchemaSpec SchemaForm SchemaRegular SchemaMeans SchemaMain
  GoText GoLang GoEval Generator GenLex GenParse GenCode GenLike GenSpec GenFaith GenRound GenObj GenMain GenProcess GenTheorems.
Open Scope Z_scope.
Local Ltac splits := repeat match goal with |- _ /\ _ => split end.

(** ** Schemas whose validators survive the generator.  Each restriction excludes an aspect that
    is dropped or cannot be written (GenLoss.v, GenCases.v). *)
Definition int_opt (o : option Z) : Prop := forall z, o = Some z -> in_int z = true.
Record writable (c : scfg) : Prop := {
  wr_not : sc_not c = SNil;
  wr_enum : types_of c = [] -> sc_enum c = [];
  wr_string : In TString (types_of c) ->
    (sc_default c = GNil \/ exists x, sc_default c = gstr x /\ no_percent x) /\
    int_opt (sc_minLen c) /\ int_opt (sc_maxLen c) /\ no_percent (sc_format c) /\
    (forall rx, sc_pattern c = Some rx -> no_percent rx) /\
    (forall e, In e (sc_enum c) -> exists x, e = gstr x /\ no_percent x);
  (* six decimals *)
  wr_number : In TNumber (types_of c) ->
    (sc_default c = GNil \/ exists f, sc_default c = gfloat f /\ printed f = Some f) /\
    sc_enum c = [] /\ sc_mult c = None /\
    (forall f, sc_min c = Some f \/ sc_max c = Some f -> printed f = Some f);
  (* bounds that are int64 numbers *)
  wr_integer : In TInteger (types_of c) ->
    sc_default c = GNil /\ sc_enum c = [] /\ sc_mult c = None /\
    (forall f, sc_min c = Some f \/ sc_max c = Some f -> f64_of_Z (f64_to_int64 f) = f);
  wr_array : In TArray (types_of c) ->
    int_opt (sc_minItems c) /\ int_opt (sc_maxItems c) /\
    (forall l, sc_items c = Some (true, l) -> sc_addItems c <> None);
  wr_object : In TObject (types_of c) ->
    (forall z, sc_minProps c = Some z -> z <= 0) /\ sc_maxProps c = None /\ sc_depSchemas c = [] /\
    (forall k, In k (keys (sc_props c)) -> no_percent k) /\
    (forall p x, In (p, x) (sc_pats c) -> no_percent (snd p)) /\ NoDup (map (fun e => snd (fst e)) (sc_pats c)) /\
    (forall k, In k (sc_required c) -> no_percent k) /\
    (forall k l, In (k, l) (sc_depNames c) -> no_percent k /\ forall d, In d l -> no_percent d)
}.
Definition codable (D : resolver) (s : schema) : Prop := forall c, Sub D s s (Sch c) ->
  (sc_ref c <> ""%string -> no_percent (sc_ref c)) /\ (sc_ref c = ""%string -> writable c).

Lemma reduce_P (P : constr -> Prop) f l : f = CAll \/ f = CAny \/ f = COneOf ->
  (forall y, In y l -> P y) -> (List.length l <> 1%nat -> P (f l)) -> P (reduce (f l)).
Proof.
  intros F A B. destruct l as [|a [|b l]]; destruct F as [->|[->| ->]]; cbn; try (apply B; discriminate); apply A; now left.
Qed.
Lemma req_sorted l : forall m, ssorted m -> ssorted (fold_left (fun m k => sset k tt m) l m).
Proof. induction l; cbn; auto using sset_sorted. Qed.
Lemma default_nil c : sc_default c = GNil -> default_of c = None.
Proof. unfold default_of. now intros ->. Qed.

Section Codable.
  Context (D : resolver) (s : schema) (hm : bool).
  Hypothesis HC : codable D s.
  Hypothesis HG : forall x, Sub D s s x -> BuildSpec.Good x.
  Hypothesis HS : forall x, Sub D s s x -> BuildSpec.Sorted x.
  Hypothesis HM : forall c, Sub D s s (Sch c) -> sc_ref c <> ""%string -> hm = true.

  Notation ok c := (emittable hm c /\ faithful c).

  Lemma ok_string c : writable c -> In TString (types_of c) -> ok (build_string c).
  Proof.
    intros W I. destruct (wr_string c W I) as (Dd & A & B & Fm & Rx & En).
    assert (S0 : str_ok (match build_string c with CStr _ x => x | _ => new_str end) /\
                 match s_enum (match build_string c with CStr _ x => x | _ => new_str end) with Some l => allp kept_item l | None => True end).
    { unfold build_string. split.
      - unfold str_ok. splits.
        + destruct (sc_enum c), (String.eqb (sc_format c) ""), (sc_pattern c), (sc_minLen c), (sc_maxLen c) eqn:Q; cbn; auto.
        + destruct (sc_enum c), (String.eqb (sc_format c) ""), (sc_pattern c), (sc_minLen c) eqn:Q, (sc_maxLen c); cbn; auto.
        + destruct (sc_enum c), (String.eqb (sc_format c) "") eqn:Q, (sc_pattern c), (sc_minLen c), (sc_maxLen c); cbn; auto;
            apply String.eqb_eq in Q; rewrite Q in Fm; exact Fm.
        + destruct (sc_enum c), (String.eqb (sc_format c) ""), (sc_pattern c) eqn:Q, (sc_minLen c), (sc_maxLen c); cbn; auto.
        + assert (X : sc_enum c <> [] -> sc_enum c <> [] /\ allp item_ok (sc_enum c)).
          { intros N. split; auto. apply allp_in. intros e He. destruct (En e He) as (x & -> & P). exact P. }
          destruct (sc_enum c) as [|e l] eqn:Q, (String.eqb (sc_format c) ""), (sc_pattern c), (sc_minLen c), (sc_maxLen c); cbn -[allp]; auto; apply X; discriminate.
      - assert (X : allp kept_item (sc_enum c)).
        { apply allp_in. intros e He. destruct (En e He) as (x & -> & P). reflexivity. }
        destruct (sc_enum c) as [|e l] eqn:Q, (String.eqb (sc_format c) ""), (sc_pattern c), (sc_minLen c), (sc_maxLen c); cbn -[allp]; auto. }
    destruct S0 as [S1 S2]. unfold build_string in *. cbn [emittable faithful]. splits; auto.
    destruct Dd as [Q|(x & Q & P)]; unfold default_of; rewrite Q; cbn; auto.
  Qed.

  Lemma ok_numeric rd c : sc_mult c = None -> (forall f, sc_min c = Some f \/ sc_max c = Some f -> rd f = f) ->
    kept_num rd (build_numeric c).
  Proof.
    intros M K. unfold build_numeric, kept_num. rewrite M. cbn [set_opt].
    destruct (sc_min c) as [f|], (sc_max c) as [g|], (sc_xmin c), (sc_xmax c); cbn; splits; intros; try discriminate; auto; left; auto.
  Qed.
  Lemma ok_number c : writable c -> In TNumber (types_of c) -> ok (build_number c).
  Proof.
    intros W I. destruct (wr_number c W I) as (Dd & En & M & K).
    assert (K' : forall f, sc_min c = Some f \/ sc_max c = Some f -> reread f = f).
    { intros f H. unfold reread. now rewrite (K f H). }
    pose proof (ok_numeric reread c M K') as KN.
    unfold build_number. rewrite En. cbn [emittable faithful id]. splits; auto.
    - destruct Dd as [Q|(x & Q & P)]; unfold default_of; rewrite Q; cbn; auto. rewrite P. discriminate.
    - unfold num_ok, build_numeric. rewrite M. cbn [set_opt].
      destruct (sc_min c) as [f|], (sc_max c) as [g|], (sc_xmin c), (sc_xmax c); cbn; splits; intros; try discriminate; rewrite K; auto; discriminate.
    - destruct Dd as [Q|(x & Q & P)]; unfold default_of; rewrite Q; cbn; auto. splits; auto. unfold reread. now rewrite P.
  Qed.
  Lemma ok_integer c : writable c -> In TInteger (types_of c) -> ok (build_integer c).
  Proof.
    intros W I. destruct (wr_integer c W I) as (Dd & En & M & K). unfold build_integer. rewrite En. cbn [emittable faithful id].
    rewrite (default_nil c Dd). splits; auto. apply ok_numeric; auto.
  Qed.
  Lemma ok_boolean c : ok (build_boolean c).
  Proof.
    unfold build_boolean. cbn [emittable faithful]. destruct (sc_default c) as [|T b| | | | | | | | | | |]; cbn; auto.
    destruct (String.eqb_spec T "bool") as [->|N]; [cbn; auto|].
    destruct T as [|[[] [] [] [] [] [] [] []] T]; cbn; auto.
    repeat (destruct T as [|[[] [] [] [] [] [] [] []] T]; cbn; auto).
  Qed.

  Lemma in_int_bound o : int_opt o -> in_int (bound o) = true.
  Proof. intros H. destruct o as [z|]; [now apply H|reflexivity]. Qed.
  (** what is shown of children: [SNil] stands for "nothing there" *)
  Definition kid_ok (x : schema) : Prop := ok (bc x).

  Lemma ok_array_one c : writable c -> In TArray (types_of c) -> sc_items c <> Some (false, []) ->
    (forall x, In x (array_kids c) -> kid_ok x /\ x <> SNil) -> (forall x, In x (array_kids c) -> bc x <> CNil) -> ok (bc_one c TArray).
  Proof.
    intros W I Ne K N. destruct (wr_array c W I) as (A & B & T). unfold array_kids in *.
    cbn [bc_one bc_array emittable faithful a_items a_pos a_add a_min a_max a_uniq].
    destruct (sc_items c) as [[[|] l]|] eqn:Q; cbn [map hd allp emittable faithful].
    - assert (PL : forall x, In x l -> kid_ok x) by (intros x Hx; apply K; apply in_app_iff; auto).
      assert (AD : forall x, sc_addItems c = Some (Sch x) -> kid_ok (Sch x)).
      { intros x Hx. rewrite Hx in K. apply K. apply in_app_iff. right. now left. }
      splits; auto using in_int_bound.
      + destruct (sc_addItems c) as [[|x]|]; cbn [emittable]; auto. right. now apply AD.
      + apply allp_in. intros y Hy. apply in_map_iff in Hy as (x & <- & Hx). now apply PL.
      + destruct (sc_addItems c) as [[|x]|]; cbn [faithful]; auto. now apply AD.
      + apply allp_in. intros y Hy. apply in_map_iff in Hy as (x & <- & Hx). now apply PL.
      + left. specialize (T l eq_refl). destruct (sc_addItems c) as [[|x]|]; try congruence. apply N. apply in_app_iff. right. now left.
    - destruct l as [|x l]; [congruence|]. cbn [map hd]. destruct (K x) as [[K1 K2] _]; [now left|].
      splits; auto using in_int_bound; left; discriminate.
    - splits; auto using in_int_bound; left; discriminate.
  Qed.

  Lemma ok_object_one c : writable c -> In TObject (types_of c) -> BuildSpec.Sorted (Sch c) ->
    (forall x, In x (object_kids c) -> kid_ok x) -> ok (bc_one c TObject).
  Proof.
    intros W I So K. destruct (wr_object c W I) as (A & B & Ds & Np & Nt & Nd & Nr & Ndp). inversion So as [|? S1 S2 S3 S4 _]; subst.
    unfold object_kids in K.
    assert (KP : forall k x, In (k, x) (sc_props c) -> kid_ok x).
    { intros k x H. apply K. apply in_app_iff. left. apply in_map_iff. exists (k, x). auto. }
    assert (KT : forall k x, In (k, x) (sc_pats c) -> kid_ok x).
    { intros k x H. apply K. rewrite !in_app_iff. right. left. apply in_map_iff. exists (k, x). auto. }
    assert (KA : forall x, sc_addProps c = Some (Sch x) -> kid_ok (Sch x)).
    { intros x H. apply K. rewrite !in_app_iff, H. right. right. left. now left. }
    cbn [bc_one bc_object emittable faithful o_add o_props o_pats o_req o_propdeps o_min o_max]. rewrite B, Ds. cbn [map bound]. splits.
    - destruct (sc_addProps c) as [[|x]|]; cbn [emittable]; auto. right. now apply KA.
    - apply map_sorted. exact S1.
    - apply allp_in. intros y Hy. apply in_map_iff in Hy as ([k x] & <- & Hx). cbn [fst snd]. split; [|now apply (KP k)].
      apply Np. apply in_map_iff. exists (k, x). auto.
    - rewrite map_map. exact Nd.
    - apply allp_in. intros y Hy. apply in_map_iff in Hy as ([k x] & <- & Hx). cbn [fst snd]. split; [now apply (Nt k x)|now apply (KT k)].
    - apply req_sorted. constructor.
    - apply allp_in. intros k Hk. apply Nr. apply sget_some_keys, (required_in (sc_required c) k []) in Hk. destruct Hk as [Hk|[]]; exact Hk.
    - exact S3.
    - apply allp_in. intros [k l] Hk. destruct (Ndp k l Hk) as [P1 P2]. cbn [fst snd]. split; auto. apply allp_in. exact P2.
    - destruct (sc_addProps c) as [[|x]|]; cbn [faithful]; auto. now apply KA.
    - apply allp_in. intros y Hy. apply in_map_iff in Hy as ([k x] & <- & Hx). now apply (KP k).
    - apply allp_in. intros y Hy. apply in_map_iff in Hy as ([k x] & <- & Hx). now apply (KT k).
    - destruct (sc_minProps c) as [z|]; cbn; [auto|lia].
    - lia.
    - intros k. reflexivity.
  Qed.

  Lemma ok_one c t : Sub D s s (Sch c) -> sc_ref c = ""%string -> In t (types_of c) ->
    (forall x, Kid c x -> kid_ok x) -> ok (bc_one c t).
  Proof.
    intros Hs R I K. destruct (HC c Hs) as [_ W]. specialize (W R). pose proof (HG _ Hs) as G.
    assert (N : forall x, Kid c x -> bc x <> CNil).
    { intros x Kx. apply bc_not_nil. apply HG. eapply sub_kid; eauto. }
    destruct t; try (cbn; split; exact Logic.I).
    - now apply ok_integer.
    - now apply ok_string.
    - apply ok_object_one; auto. intros x Hx. apply K. now apply kid_object.
    - apply ok_array_one; auto.
      + intros Q. destruct G as [_ G]. apply G. now apply ni_items.
      + intros x Hx. split; [apply K; now apply kid_array|]. intros ->. apply (N SNil); [now apply kid_array|reflexivity].
      + intros x Hx. apply N. now apply kid_array.
    - apply ok_boolean.
    - now apply ok_number.
  Qed.

  Lemma ok_list f l : f = CAll \/ f = CAny \/ f = COneOf -> l <> [] -> (forall y, In y l -> ok y) -> ok (reduce (f l)).
  Proof.
    intros F N K. apply (reduce_P (fun y => ok y)); auto. intros _.
    assert (A1 : allp (emittable hm) l) by (apply allp_in; intros y Hy; now apply K).
    assert (A2 : allp faithful l) by (apply allp_in; intros y Hy; now apply K).
    destruct F as [->|[->| ->]]; cbn [emittable faithful]; auto.
  Qed.

  Theorem ok_bc x : Sub D s s x -> ok (bc x).
  Proof.
    induction x as [|c IH] using schema_subs_ind; intros Hs.
    { destruct (HG _ Hs) as [_ G]. exfalso. apply G. constructor. }
    destruct (HC c Hs) as [WR W].
    destruct (String.eqb_spec (sc_ref c) "") as [R|R].
    - specialize (W R).
      assert (K : forall x, Kid c x -> kid_ok x).
      { intros x Kx. apply IH; [now apply Kid_subs|eapply sub_kid; eauto]. }
      rewrite bc_step by assumption.
      assert (C : forall y, In y (bc_comb c) -> ok y).
      { intros y Hy. unfold bc_comb in Hy. rewrite (wr_not c W) in Hy.
        assert (KC : forall x, In x (comb_kids c) -> kid_ok x) by (intros x Hx; apply K; now apply kid_comb).
        unfold comb_kids in KC. rewrite (wr_not c W) in KC.
        assert (M : forall f l, f = CAll \/ f = CAny \/ f = COneOf -> l <> [] -> (forall x, In x l -> kid_ok x) -> ok (reduce (f (map bc l)))).
        { intros f l F N Q. apply ok_list; auto; [destruct l; [congruence|discriminate]|]. intros z Hz. apply in_map_iff in Hz as (x & <- & Hx). now apply Q. }
        destruct (sc_allOf c) as [|a la]; [destruct (sc_anyOf c) as [|b lb]; [destruct (sc_oneOf c) as [|d ld]; [destruct Hy|]|]|];
          destruct Hy as [<-|[]]; apply M; auto; discriminate. }
      assert (T : forall y, In y (bc_types c) -> ok y).
      { intros y Hy. unfold bc_types in Hy. destruct (types_of c) as [|t0 ts] eqn:Q.
        - rewrite (wr_enum c W Q) in Hy. destruct Hy.
        - destruct Hy as [<-|[]]. rewrite <- Q. apply ok_list; auto; [rewrite Q; discriminate|].
          intros z Hz. apply in_map_iff in Hz as (u & <- & Hu). now apply ok_one. }
      destruct (bc_comb c ++ bc_types c) as [|y0 l0] eqn:Q; [cbn; split; exact Logic.I|]. rewrite <- Q.
      apply ok_list; auto; [rewrite Q; discriminate|]. intros y Hy. apply in_app_iff in Hy as [Hy|Hy]; auto.
    - cbn [bc]. pose proof R as R'. apply String.eqb_neq in R'. rewrite R'. cbn [negb emittable faithful]. split; [|exact Logic.I].
      split; [eapply HM; eauto|auto].
  Qed.
End Codable.

(** ** What a built schema becomes *)
Section Compiled.
  Context (E : env) (D : resolver) (s : schema) (bytes : bool) (n : nat) (w : orc) (c : constr) (rf : refs) (log : list string).
  Hypothesis sorted0 : BuildSpec.Sorted s.
  Hypothesis sortedD : forall m s', BuildSpec.lookup D m = Some s' -> BuildSpec.Sorted s'.
  Hypothesis B : build_with n D s w = Built c rf log.
  Hypothesis HP : all_plain E D s bytes s.
  Hypothesis HC : codable D s.

  Lemma compiled_parts : (forall hm, (rf <> [] -> hm = true) -> emittable hm c) /\ faithful c /\
    (forall m x, sget m rf = Some x -> emittable true x /\ faithful x) /\ ssorted rf.
  Proof.
    destruct (built_facts D s n w c rf log sorted0 sortedD B) as (Q & HD & HK & HG & HS).
    assert (SR : ssorted rf).
    { pose proof (build_outcome n D s w sorted0 sortedD) as O. rewrite B in O. tauto. }
    assert (HM : forall c0, Sub D s s (Sch c0) -> sc_ref c0 <> ""%string -> rf <> []).
    { intros c0 H0 R0. destruct (HK c0 H0 R0) as [x Hx]. destruct rf; [discriminate|discriminate]. }
    assert (HB : forall hm x, (rf <> [] -> hm = true) -> Sub D s s x -> emittable hm (bc x) /\ faithful (bc x)).
    { intros hm x Hm Hx. apply (ok_bc D s hm HC HG HS); auto. intros c0 H0 R0. apply Hm. eapply HM; eauto. }
    assert (HX : forall m x, sget m rf = Some x -> exists s', Sub D s s s' /\ x = bc s').
    { intros m x Hx. pose proof (build_outcome n D s w sorted0 sortedD) as O. rewrite B in O.
      destruct O as (_ & _ & _ & _ & HR & HDe). destruct (HDe m x Hx) as (s' & Ds & _ & ->). exists s'. split; [|reflexivity].
      assert (RF : Referred D s m) by (apply HR, sget_some_keys; eauto).
      assert (U : forall y, Sub D s s y -> forall k, Used y k -> exists c0, Sub D s s (Sch c0) /\ sc_ref c0 = k /\ k <> ""%string).
      { intros y Hy k Uk. induction Uk as [c0 R0|c0 z k R0 K0 Uk IH]; [exists c0; auto|]. apply IH. eapply sub_kid; eauto. }
      assert (V : forall k, Referred D s k -> exists c0, Sub D s s (Sch c0) /\ sc_ref c0 = k /\ k <> ""%string).
      { intros k Rk. induction Rk as [k Uk|k s1 j Rk IH D1 Uj]; [eapply U; eauto; constructor|].
        destruct IH as (c0 & S0 & <- & N0). eapply (U s1); eauto. eapply sub_def; eauto. }
      destruct (V m RF) as (c0 & S0 & <- & N0). eapply sub_def; eauto. }
    splits.
    - intros hm Hm. rewrite Q. apply HB; auto. constructor.
    - rewrite Q. apply (HB true); auto. constructor.
    - intros m x Hx. destruct (HX m x Hx) as (s' & S' & ->). apply (HB true); auto.
    - exact SR.
  Qed.

  (** a validator with the outcomes of the one built gives the verdicts of the schema *)
  Definition speaks_for (f : string -> option constr) (name : string) (root : constr) : Prop :=
    (forall x addr k r x', SchemaSpec.json x -> (bytes = true -> SchemaSpec.one_byte x) ->
       outcomes E f name addr root k x r x' -> r <> OOF ->
       (r = Pass /\ Valid E D s s x /\ ~ Invalid E D s s x) \/
       ((exists m, r = Fail m) /\ Invalid E D s s x /\ ~ Valid E D s s x)) /\
    (steady D s -> scalar_defaults D s -> forall x addr, SchemaSpec.json x -> (bytes = true -> SchemaSpec.one_byte x) ->
       exists k, forall r x', outcomes E f name addr root k x r x' -> r <> OOF).
  Lemma compiled_speaks f name root :
    (forall addr addr' k x r x', outcomes E (fun m => sget m rf) name addr c k x r x' <-> outcomes E f name addr' root k x r x') ->
    speaks_for f name root.
  Proof.
    intros O. split.
    - intros x addr k r x' Jx Bx H N. apply (O "0xc000010000"%string) in H. destruct H as (w0 & w1 & H).
      unfold jsval_validate in H. destruct (validate k (set_refs E (fun m => sget m rf)) c x w0) as [[r0 x0] w2] eqn:V.
      assert (RU : r0 <> OOF -> Runs (with_refs E rf) c x w0 (r0, x0, w2)) by (intros N0; exists k; split; auto; exact V).
      pose proof (fun N0 => built_means E D s bytes n w c rf log sorted0 sortedD B HP x w0 r0 x0 w2 Jx Bx (RU N0)) as M.
      destruct r0; inversion H; subst; try congruence.
      + destruct M as [M|([m M] & _)]; [discriminate|left; exact M|discriminate].
      + destruct M as [(M & _)|(_ & M)]; [discriminate|discriminate|]. right. split; [destruct name; eauto|exact M].
      + destruct M as [(M & _)|([m M] & _)]; discriminate.
    - intros ST SD x addr Jx Bx.
      destruct (built_facts D s n w c rf log sorted0 sortedD B) as (Q & HD & HK & HG & HS).
      assert (TM : exists N, forall o, rs (validate N (with_refs E rf) c x o) <> OOF).
      { apply validate_terminates.
        - exists (keys rf). intros m H. apply sget_some_keys. change (sget m rf <> None) in H. destruct (sget m rf); [eauto|congruence].
        - intros m H. apply (round_calls E D s n w c rf log sorted0 sortedD B) in H. now apply (ST m).
        - intros d (ob & k & p & Rp & I & Dp). rewrite Q in Rp. apply (form_reach E D s rf HD s) in Rp; [|apply fo_bc; constructor].
          assert (Fp : Form D s s p) by (eapply (form_child E D s rf HD); [exact Rp|eapply child_prop; eauto]).
          destruct (form_default E D s rf HD s p d Dp Fp) as (c' & Hs & Rc & <- & _). now apply SD. }
      destruct TM as [N HN]. exists N. intros r x' H. apply (O "0xc000010000"%string) in H. destruct H as (w0 & w1 & H).
      specialize (HN w0). unfold jsval_validate in H. change (set_refs E (fun m => sget m rf)) with (with_refs E rf) in H.
      destruct (validate N (with_refs E rf) c x w0) as [[r0 x0] w2]. cbn in HN. destruct r0; inversion H; subst; congruence.
  Qed.
End Compiled.

(** ** Several validators in one file *)
(** no two of them mean different constraints by one reference name *)
Definition consistent (vs : list validator) : Prop := forall v v' m x x', In v vs -> In v' vs ->
  sget m (v_refs v) = Some x -> sget m (v_refs v') = Some x' -> x = x'.
(** [v_same]: the references whose constraint is the very object that is the root *)
Definition same_roots (vs : list validator) : Prop := forall v r c, In v vs -> In r (v_same v) -> sget r (merge_refs vs) = Some c -> c = v_root v.

Lemma merge_one (l m : list (string * constr)) k :
  sget k (fold_left (fun m e => match sget (fst e) m with Some _ => m | None => sset (fst e) (snd e) m end) l m)
  = match sget k m with Some c => Some c | None => sget k l end.
Proof.
  revert m. induction l as [|[a c] l IH]; intros m; cbn [fold_left sget]; [now destruct (sget k m)|]. rewrite IH. cbn [fst snd].
  destruct (sget a m) as [d|] eqn:S2.
  - destruct (sget k m) as [d'|] eqn:S3; auto. destruct (String.eqb k a) eqn:Q; auto. apply String.eqb_eq in Q. subst. congruence.
  - destruct (String.eqb k a) eqn:Q.
    + apply String.eqb_eq in Q. subst. rewrite sget_sset_same, S2. reflexivity.
    + apply String.eqb_neq in Q. rewrite sget_sset_other by auto. reflexivity.
Qed.
Lemma merge_from vs k x : sget k (merge_refs vs) = Some x -> exists v, In v vs /\ sget k (v_refs v) = Some x.
Proof.
  unfold merge_refs. assert (X : forall l m, sget k (fold_left (fun m v => fold_left (fun m e => match sget (fst e) m with Some _ => m | None => sset (fst e) (snd e) m end) (v_refs v) m) l m) = Some x ->
    sget k m = Some x \/ exists v, In v l /\ sget k (v_refs v) = Some x).
  { induction l as [|v l IH]; intros m H; cbn in H; auto. apply IH in H as [H|(u & I & H)].
    - rewrite merge_one in H. destruct (sget k m); auto. right. exists v. split; [now left|exact H].
    - right. exists u. split; [now right|exact H]. }
  intros H. apply X in H as [H|H]; [discriminate|exact H].
Qed.
Lemma merge_has vs k v x : In v vs -> sget k (v_refs v) = Some x -> exists y, sget k (merge_refs vs) = Some y.
Proof.
  unfold merge_refs. assert (K : forall l m y, sget k m = Some y -> sget k (fold_left (fun m v => fold_left (fun m e => match sget (fst e) m with Some _ => m | None => sset (fst e) (snd e) m end) (v_refs v) m) l m) = Some y).
  { induction l as [|u l IH]; intros m y H; cbn; auto. apply IH. rewrite merge_one, H. reflexivity. }
  assert (X : forall l m, In v l -> sget k (v_refs v) = Some x ->
    exists y, sget k (fold_left (fun m v => fold_left (fun m e => match sget (fst e) m with Some _ => m | None => sset (fst e) (snd e) m end) (v_refs v) m) l m) = Some y).
  { induction l as [|u l IH]; intros m I H; [destruct I|]. destruct I as [->|I]; [|now apply IH].
    cbn [fold_left]. destruct (sget k m) as [y|] eqn:S1; eexists; apply K; rewrite merge_one, S1; [reflexivity|exact H]. }
  intros I H. now apply X.
Qed.
Lemma merge_consistent vs v k x : consistent vs -> In v vs -> sget k (v_refs v) = Some x -> sget k (merge_refs vs) = Some x.
Proof.
  intros C I H. destruct (merge_has vs k v x I H) as [y M]. destruct (merge_from vs k y M) as (u & Iu & Hu). rewrite M. f_equal. exact (C u v k y x Iu I Hu H).
Qed.

(** Validators built from codable schemas, given different names, and meaning the same by the
    references they share: generating code for all of them in one file succeeds, the code runs,
    and each validator in it gives the verdicts of its own schema. *)
Theorem schemas_to_code E G bytes (items : list (resolver * schema * validator)) :
  let vs := map snd items in
  (forall D s v, In (D, s, v) items -> BuildSpec.Sorted s /\ (forall m s', BuildSpec.lookup D m = Some s' -> BuildSpec.Sorted s') /\
     (exists n w log, build_with n D s w = Built (v_root v) (v_refs v) log) /\ all_plain E D s bytes s /\ codable D s) ->
  names_ok vs -> same_roots vs -> consistent vs ->
  forall wg, exists code wg' st, process G vs wg = GOk (code, wg') /\ run_go code = Some st /\
    forall i D s v, nth_error items i = Some (D, s, v) -> exists j,
      sget (v_name (Generator.named i v)) (e_vars st) = Some (VJ j) /\ j_name j = v_name (Generator.named i v) /\
      speaks_for E D s bytes (run_refs st) (j_name j) (j_root j).
Proof.
  intros vs HI NO SR CN wg.
  assert (IN : forall v, In v vs -> exists D s, In (D, s, v) items).
  { intros v H. apply in_map_iff in H as ([[D s] u] & <- & H). eauto. }
  assert (PT : forall v, In v vs -> (forall hm, (v_refs v <> [] -> hm = true) -> emittable hm (v_root v)) /\ faithful (v_root v) /\
    (forall m x, sget m (v_refs v) = Some x -> emittable true x /\ faithful x) /\ ssorted (v_refs v)).
  { intros v H. destruct (IN v H) as (D & s & I). destruct (HI D s v I) as (S0 & SD & (n & w & log & B) & HP & HC).
    exact (compiled_parts D s n w _ _ log S0 SD B HC). }
  destruct (generated_code_equivalent E G vs NO) with (w := wg) as (code & wg' & st & P & R & K).
  - split.
    + intros v H. split; [|eauto]. apply (PT v H). intros NE. unfold has_refs.
      destruct (v_refs v) as [|[k x] l] eqn:Q; [congruence|]. destruct (merge_has vs k v x H) as [y Y]; [rewrite Q; cbn; now rewrite String.eqb_refl|].
      destruct (merge_refs vs); [discriminate|reflexivity].
    + intros m x H. destruct (merge_from vs m x H) as (v & I & Hx). now apply (PT v I) in Hx.
  - intros v H. now apply (PT v H).
  - intros m x H. destruct (merge_from vs m x H) as (v & I & Hx). now apply (PT v I) in Hx.
  - exists code, wg', st. splits; auto. intros i D s v H.
    assert (Hv : nth_error vs i = Some v) by (unfold vs; now rewrite nth_error_map, H).
    pose proof (nth_error_In _ _ H) as I. destruct (HI D s v I) as (S0 & SD & (n & w & log & B) & HP & HC).
    destruct (K i v Hv) as (j & J1 & J2 & _ & O).
    + intros m Rm. pose proof (built_registered n D s w _ _ log E S0 SD B (v_root v) m (or_introl eq_refl) Rm) as Im.
      apply sget_some_keys in Im as [x Gx]. unfold own_refs. rewrite Gx. symmetry. eapply merge_consistent; eauto. apply in_map_iff. exists (D, s, v). auto.
    + exists j. splits; auto. eapply compiled_speaks; eauto. rewrite J2 in *. exact O.
Qed.

(** ** A file with one unnamed validator *)
Definition unnamed (c : constr) (rf : refs) (same : list string) : validator :=
  {| v_name := ""; v_root := c; v_refs := rf; v_same := same |}.
Lemma unnamed_names c rf same : names_ok [unnamed c rf same].
Proof.
  split; [cbn; repeat constructor; intros []|]. intros n [<-|[]]. split; [reflexivity|]. split; [reflexivity|].
  intros _. split; [discriminate|]. intros i _. unfold ref_var. cbn. discriminate.
Qed.
(** Generating code succeeds; the code runs; its validator V0 gives, on decoded documents, the
    verdict of the schema, whatever the iteration orders of the build, the generation and
    the validation. *)
Theorem schema_to_code E G D s bytes n w c rf log same :
  BuildSpec.Sorted s -> (forall m s', BuildSpec.lookup D m = Some s' -> BuildSpec.Sorted s') ->
  build_with n D s w = Built c rf log -> all_plain E D s bytes s -> codable D s ->
  (forall r x, In r same -> sget r rf = Some x -> x = c) ->
  forall wg, exists code wg' st j,
    process G [unnamed c rf same] wg = GOk (code, wg') /\ run_go code = Some st /\
    sget "V0" (e_vars st) = Some (VJ j) /\ j_name j = "V0"%string /\
    (forall x addr k r x', SchemaSpec.json x -> (bytes = true -> SchemaSpec.one_byte x) ->
       outcomes E (run_refs st) (j_name j) addr (j_root j) k x r x' -> r <> OOF ->
       (r = Pass /\ Valid E D s s x /\ ~ Invalid E D s s x) \/
       ((exists m, r = Fail m) /\ Invalid E D s s x /\ ~ Valid E D s s x)) /\
    (steady D s -> scalar_defaults D s -> forall x addr, SchemaSpec.json x -> (bytes = true -> SchemaSpec.one_byte x) ->
       exists k, forall r x', outcomes E (run_refs st) (j_name j) addr (j_root j) k x r x' -> r <> OOF).
Proof.
  intros S0 SD B HP HC HQ wg.
  destruct (schemas_to_code E G bytes [(D, s, unnamed c rf same)]) with (wg := wg) as (code & wg' & st & P & R & K).
  - intros D1 s1 v1 [Q|[]]. injection Q as <- <- <-. splits; auto. exists n, w, log. exact B.
  - apply unnamed_names.
  - intros v r x [<-|[]] I M. cbn [map snd] in M. rewrite merge_single in M by (eapply compiled_parts; eauto). now apply (HQ r).
  - intros v v' m x x' [<-|[]] [<-|[]] H1 H2. congruence.
  - destruct (K 0%nat D s _ eq_refl) as (j & J1 & J2 & J3 & J4). exists code, wg', st, j. splits; auto.
Qed.
