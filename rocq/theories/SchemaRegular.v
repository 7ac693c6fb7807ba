(** Constraints built from plain schemas are regular: node by node (C43). *)
From Verif Require Import Base GoFloat FloatSpec FloatProofs GoValue Maybe Formats HostSpec Constraint StructInfo Validate Reach Builder BuildSpec BuildProofs BuildRefs BuildErr Spec SpecSound Scalars DocSpec Height SchemaSpec SchemaForm.
Open Scope Z_scope.

(** ** The configurations built, field by field *)
Definition str_of (c : scfg) : strcfg := match build_string c with CStr _ s => s | _ => new_str end.
Lemma str_of_eq c : bc_one c TString = CStr (default_of c) (str_of c). Proof. reflexivity. Qed.
Lemma str_of_fields c :
  s_min (str_of c) = match sc_minLen c with Some n => n | None => 0 end /\
  s_max (str_of c) = match sc_maxLen c with Some n => n | None => -1 end /\
  s_rx (str_of c) = sc_pattern c /\ s_fmt (str_of c) = sc_format c /\
  s_enum (str_of c) = match sc_enum c with [] => None | l => Some l end.
Proof.
  unfold str_of, build_string.
  destruct (sc_enum c), (String.eqb_spec (sc_format c) "") as [F|F], (sc_pattern c), (sc_minLen c), (sc_maxLen c); cbn; rewrite ?F; auto.
Qed.

Definition num_of (c : scfg) : numcfg := build_numeric c.
Lemma num_of_fields c :
  n_amin (num_of c) = initialized (sc_min c) /\ n_amax (num_of c) = initialized (sc_max c) /\ n_amul (num_of c) = initialized (sc_mult c) /\
  n_min (num_of c) = match sc_min c with Some f => f | None => fzero end /\
  n_max (num_of c) = match sc_max c with Some f => f | None => fzero end /\
  n_mul (num_of c) = match sc_mult c with Some f => f | None => fzero end /\
  n_xmin (num_of c) = match sc_min c, sc_xmin c with Some _, Some b => b | _, _ => false end /\
  n_xmax (num_of c) = match sc_max c, sc_xmax c with Some _, Some b => b | _, _ => false end /\
  n_enum (num_of c) = None.
Proof.
  unfold num_of, build_numeric. destruct (sc_mult c), (sc_max c), (sc_xmax c), (sc_min c), (sc_xmin c); cbn; splits; reflexivity.
Qed.
Definition int_of (c : scfg) : numcfg := match sc_enum c with [] => num_of c | l => num_enum l (num_of c) end.
Lemma int_of_eq c : bc_one c TInteger = CInt (default_of c) (int_of c).
Proof. cbn. unfold build_integer, int_of, num_of. destruct (sc_enum c); reflexivity. Qed.
Lemma num_of_eq c : sc_enum c = [] -> bc_one c TNumber = CNum (default_of c) (num_of c).
Proof. intros H. cbn. unfold build_number. rewrite H. reflexivity. Qed.

Lemma json_doc v : json v -> doc v.
Proof. induction 1; constructor; auto. Qed.

Lemma required_in l k : forall m, (exists x, sget k (fold_left (fun m k => sset k tt m) l m) = Some x) <-> In k l \/ In k (keys m).
Proof.
  induction l as [|a l IH]; intros m; cbn [fold_left].
  - rewrite sget_some_keys. cbn. tauto.
  - rewrite IH, sset_keys. cbn. intuition.
Qed.

Section Regular.
  Context (E0 : env) (D : resolver) (root : schema) (rf : refs) (bytes : bool).
  Notation E := (with_refs E0 rf).
  Notation Sub := (Sub D root).
  Notation clean := (clean D root).
  Notation Form := (Form D root).
  Hypothesis HD : forall m x, sget m rf = Some x -> exists s', Def D root m s' /\ Good s' /\ x = bc s'.
  Hypothesis HG : forall x, Sub root x -> Good x.
  Hypothesis HS : forall x, Sub root x -> Sorted x.
  Hypothesis HP : all_plain E0 D root bytes root.

  Section Node.
    Context (c : scfg).
    Hypothesis Hs : Sub root (Sch c).
    Hypothesis R : sc_ref c = ""%string.
    Let P : plain E0 D root bytes c := HP c Hs R.

    Lemma kid_sub x : Kid c x -> Sub root x.
    Proof. intros K. eapply sub_kid; eauto. Qed.
    Lemma kid_nn x : Kid c x -> bc x <> CNil.
    Proof. intros K. apply bc_not_nil, HG, kid_sub, K. Qed.
    Lemma clean_kid x : clean x -> pure E (bc x).
    Proof. intros C. apply (clean_pure E0 D root rf HD x); auto. apply fo_bc. constructor. Qed.

    Lemma str_regular : node_regular E (bc_one c TString).
    Proof.
      rewrite str_of_eq. cbn [node_regular]. destruct (str_of_fields c) as (_ & _ & _ & F & EN). split.
      - rewrite F. apply (pl_format _ _ _ _ _ P).
      - intros l Hl. rewrite EN in Hl. destruct (sc_enum c) eqn:Q; [discriminate|]. injection Hl as <-. rewrite <- Q.
        apply Forall_forall. intros e He. destruct (pl_enum _ _ _ _ _ P e He) as (J & N1 & N2).
        destruct J; cbn; auto; [now apply (N1 l)|now apply (N2 m)].
    Qed.
    Lemma num_fields_ok : valid64 (n_min (num_of c)) = true /\ valid64 (n_max (num_of c)) = true /\ valid64 (n_mul (num_of c)) = true.
    Proof.
      destruct (num_of_fields c) as (_ & _ & _ & -> & -> & -> & _). splits.
      - destruct (sc_min c) eqn:Q; auto. now apply (pl_min _ _ _ _ _ P).
      - destruct (sc_max c) eqn:Q; auto. now apply (pl_max _ _ _ _ _ P).
      - destruct (sc_mult c) eqn:Q; auto. now apply (pl_mult _ _ _ _ _ P).
    Qed.
    Lemma int_regular : node_regular E (bc_one c TInteger).
    Proof.
      rewrite int_of_eq. cbn [node_regular]. destruct num_fields_ok as (H1 & H2 & H3). unfold int_of.
      destruct (num_of_fields c) as (_ & _ & _ & _ & _ & _ & _ & _ & EN).
      destruct (sc_enum c) as [|e0 l0] eqn:Q.
      - unfold numcfg_ok. splits; auto; rewrite EN; discriminate.
      - unfold numcfg_ok. cbn [n_min n_max n_mul n_enum num_enum]. splits; auto. intros l HL. injection HL as <-. split.
        + apply scalar_comparable. apply Forall_forall. intros e He. rewrite <- Q in He. destruct (pl_enum _ _ _ _ _ P e He) as (J & N1 & N2).
          destruct J; cbn; auto; [now apply (N1 l)|now apply (N2 m)].
        + intros T b g H0. rewrite <- Q in H0. destruct (pl_enum _ _ _ _ _ P _ H0) as (J & _). inversion J; subst; auto.
    Qed.
    Lemma num_regular : In TNumber (types_of c) -> node_regular E (bc_one c TNumber).
    Proof.
      intros T. assert (EN : sc_enum c = []).
      { destruct (sc_enum c) as [|e l] eqn:Q; auto. assert (NE : sc_enum c <> []) by congruence.
        destruct (pl_enum_type _ _ _ _ _ P NE _ T); discriminate. }
      rewrite num_of_eq by assumption. cbn [node_regular]. destruct num_fields_ok as (H1 & H2 & H3).
      destruct (num_of_fields c) as (_ & _ & _ & _ & _ & _ & _ & _ & F). unfold numcfg_ok. splits; auto; rewrite F; discriminate.
    Qed.

    Lemma text_texty x : text_schema x -> texty (bc x).
    Proof.
      intros (c' & -> & R' & T & N & A1 & A2 & A3). rewrite bc_step by assumption.
      unfold bc_comb, bc_types, types_of. rewrite N, A1, A2, A3, T. cbn. exact I.
    Qed.

    Lemma arr_regular : In TArray (types_of c) -> node_regular E (bc_one c TArray).
    Proof.
      intros T. cbn [bc_one bc_array node_regular a_items a_add a_pos a_uniq].
      pose proof (pl_tuple _ _ _ _ _ P) as PT. pose proof (pl_unique _ _ _ _ _ P) as PU.
      assert (K : forall x, In x (array_kids c) -> bc x <> CNil) by (intros; now apply kid_nn, kid_array).
      unfold array_kids in K. splits.
      - destruct (sc_items c) as [[[|] l]|]; try tauto. intros H. apply in_map_iff in H as (x & H & Hx). apply (K x); auto. rewrite in_app_iff. auto.
      - destruct (sc_items c) as [[[|] l]|]; try tauto.
      - destruct (sc_items c) as [[[|] l]|]; try tauto. intros _. destruct (PT l eq_refl) as [_ [->| ->]]; auto.
      - destruct (sc_unique c) as [[|]|]; try discriminate. intros _. destruct (PU eq_refl) as (x & l & -> & Hx). cbn. now apply text_texty.
    Qed.

    (** *** objects: what applies to a member *)
    Notation o := (match bc_one c TObject with CObj o => o | _ => new_obj end).
    Lemma obj_props k : sget k (o_props o) = match sget k (sc_props c) with Some s => Some (bc s) | None => None end.
    Proof. cbn. induction (sc_props c) as [|[k' s] l IH]; cbn; auto. destruct (String.eqb k k'); auto. Qed.
    Lemma obj_keys : keys (o_props o) = keys (sc_props c).
    Proof. cbn. unfold keys. rewrite map_map. reflexivity. Qed.
    Lemma obj_pats p y : In (p, y) (o_pats o) <-> exists s, In (p, s) (sc_pats c) /\ y = bc s.
    Proof.
      cbn. rewrite in_map_iff. split.
      - intros ([p' s] & H & I). cbn in H. injection H as <- <-. eauto.
      - intros (s & I & ->). exists (p, s). auto.
    Qed.
    Lemma obj_named k : covered E o k <-> named E0 c k.
    Proof.
      unfold covered, named, matches. rewrite obj_keys. split; (intros [H|H]; [now left|right]).
      - destruct H as (y & p & I & Q). apply obj_pats in I as (s & I & _). eauto.
      - destruct H as (p & s & I & Q). exists (bc s), p. split; auto. apply obj_pats. eauto.
    Qed.
    Lemma obj_applies k y : applies E o k y <->
      (exists s, y = bc s /\ For E0 c k s) \/
      (~ named E0 c k /\ ((sc_addProps c = Some SNil /\ y = CEmpty) \/ exists s, sc_addProps c = Some s /\ s <> SNil /\ y = bc s /\ y <> CNil)).
    Proof.
      unfold applies. rewrite obj_props, obj_named. unfold For, matches. split.
      - intros [H|[(p & I & Q)|(N & H & NN)]].
        + left. destruct (sget k (sc_props c)) as [s|]; [|discriminate]. injection H as <-. eauto.
        + left. apply obj_pats in I as (s & I & ->). eauto 6.
        + right. split; auto. cbn in H. destruct (sc_addProps c) as [[|x]|]; try congruence; auto. right. exists (Sch x).
          splits; auto. discriminate.
      - intros [(s & -> & [H|(p & I & Q)])|[N H]].
        + left. now rewrite H.
        + right. left. exists p. split; auto. apply obj_pats. eauto.
        + right. right. cbn. destruct H as [[-> ->]|(s & -> & NS & -> & NN)]; splits; auto; try discriminate.
          destruct s; [congruence|reflexivity].
    Qed.
    Lemma obj_required k : is_required o k = true <-> In k (sc_required c).
    Proof.
      unfold is_required. cbn. pose proof (required_in (sc_required c) k []) as H. cbn in H.
      destruct (sget k (fold_left _ _ _)) as [x|].
      - split; auto. intros _. assert (In k (sc_required c) \/ False) as [?|[]] by (apply H; eauto). auto.
      - split; [discriminate|]. intros Hk. destruct H as [_ H]. destruct H as [x H]; [auto|discriminate].
    Qed.
    Lemma obj_sdep k : schema_dep o k = match sget k (sc_depSchemas c) with Some s => bc s | None => CNil end.
    Proof.
      unfold schema_dep. cbn. induction (sc_depSchemas c) as [|[k' s] l IH]; cbn; auto. destruct (String.eqb k k'); auto.
    Qed.
    Lemma obj_kid s : In TObject (types_of c) -> In s (object_kids c) -> Kid c s.
    Proof. now apply kid_object. Qed.
    Lemma props_kid k s : In TObject (types_of c) -> sget k (sc_props c) = Some s -> Kid c s.
    Proof. intros T H. apply kid_object; auto. unfold object_kids. rewrite in_app_iff. left. apply sget_in in H. apply in_map_iff. exists (k, s). auto. Qed.
    Lemma pats_kid p s : In TObject (types_of c) -> In (p, s) (sc_pats c) -> Kid c s.
    Proof. intros T H. apply kid_object; auto. unfold object_kids. rewrite !in_app_iff. right. left. apply in_map_iff. exists (p, s). auto. Qed.
    Lemma add_kid s : In TObject (types_of c) -> sc_addProps c = Some s -> s <> SNil -> Kid c s.
    Proof. intros T H N. apply kid_object; auto. unfold object_kids. rewrite !in_app_iff, H. right. right. left. destruct s; [congruence|now left]. Qed.
    Lemma dep_kid k s : In TObject (types_of c) -> sget k (sc_depSchemas c) = Some s -> Kid c s.
    Proof. intros T H. apply kid_object; auto. unfold object_kids. rewrite !in_app_iff. right. right. right. apply sget_in in H. apply in_map_iff. exists (k, s). auto. Qed.

    Lemma obj_regular : In TObject (types_of c) -> node_regular E (bc_one c TObject).
    Proof.
      intros T. change (bc_one c TObject) with (CObj o).
      assert (So : Sorted (Sch c)) by (apply HS; auto). inversion So as [|? S1 S2 S3 S4 _]; subst.
      assert (KP : forall k x, In (k, x) (o_props o) -> exists s, x = bc s /\ Kid c s).
      { intros k x I. cbn in I. apply in_map_iff in I as ([k' s] & H & I). cbn in H. injection H as <- <-. exists s. split; auto.
        apply (props_kid k'); auto. apply nodup_sget; auto. now apply ssorted_nodup. }
      assert (PU : (forall x, Kid c x -> clean x) -> pure E (CObj o)).
      { intros K d (o' & k & p & RR & I & Dp).
        inversion RR as [? Q|? y ? Iy Ry]; subst.
        - destruct (KP _ _ I) as (s & -> & Ks).
          destruct (form_default E0 D root rf HD s (bc s) d Dp) as (c' & Hc' & Rc' & Hd & N); [apply fo_bc; constructor|].
          apply N. rewrite <- Hd. now apply (K s Ks).
        - assert (Fy : exists s, clean s /\ Form s y).
          { cbn [children o_add o_pats o_props o_sdeps] in Iy. cbn in Iy.
            destruct Iy as [<-|Iy].
            - destruct (sc_addProps c) as [[|x]|] eqn:QA; [exists (Sch c)|exists (Sch x)|exists (Sch c)].
              + exfalso. inversion Ry; subst; match goal with H : In _ (children _ _) |- _ => destruct H end.
              + split; [|apply fo_bc; constructor]. apply K. now apply add_kid.
              + exfalso. inversion Ry; subst; match goal with H : In _ (children _ _) |- _ => destruct H end.
            - rewrite !map_map in Iy. cbn [snd] in Iy. rewrite !in_app_iff, !in_map_iff in Iy.
              destruct Iy as [([q s] & <- & I')|[([q s] & <- & I')|([q s] & <- & I')]]; exists s; (split; [|apply fo_bc; constructor]); apply K.
              + eapply pats_kid; eauto.
              + apply (props_kid q); auto. apply nodup_sget; auto. now apply ssorted_nodup.
              + apply (dep_kid q); auto. apply nodup_sget; auto. now apply ssorted_nodup. }
          destruct Fy as (s & Cs & Fy). apply (clean_pure E0 D root rf HD s y Cs Fy d).
          exists o', k, p. auto. }
      cbn [node_regular]. splits.
      - cbn. apply map_sorted. exact S1.
      - intros k x I. destruct (KP k x I) as (s & -> & Ks). now apply kid_nn.
      - intros p x I. apply obj_pats in I as (s & I & ->). apply kid_nn. eapply pats_kid; eauto.
      - intros k x d I Dx. destruct (KP k x I) as (s & -> & Ks).
        destruct (form_default E0 D root rf HD s (bc s) d Dx) as (c' & Hc' & Rc' & Hd & N); [apply fo_bc; constructor|].
        apply json_doc. rewrite <- Hd. apply (pl_default E0 D root bytes). apply HP; auto. eapply Sub_trans; [|exact Hc']. now apply kid_sub.
      - intros k H. rewrite obj_required in H. rewrite obj_keys. now apply (pl_required _ _ _ _ _ P).
      - intros k c1 c2. rewrite !obj_applies. unfold For.
        assert (FN : forall s, For E0 c k s -> named E0 c k).
        { intros s [H|(p & I & Q)]; [left; apply sget_some_keys; eauto|right; eauto]. }
        intros [(s1 & -> & F1)|[N1 H1]] [(s2 & -> & F2)|[N2 H2]].
        + f_equal. eapply (pl_for _ _ _ _ _ P); eauto.
        + exfalso. eauto.
        + exfalso. eauto.
        + destruct H1 as [[A1 ->]|(s1 & A1 & NS1 & -> & _)], H2 as [[A2 ->]|(s2 & A2 & NS2 & -> & _)]; congruence.
      - intros k d Hd. rewrite !obj_named. unfold prop_deps in Hd. cbn in Hd. destruct (sget k (sc_depNames c)) as [ds|] eqn:G; [|destruct Hd].
        eapply (pl_depNames _ _ _ _ _ P); eauto.
      - intros k. rewrite obj_sdep, obj_named. destruct (sget k (sc_depSchemas c)) as [s|] eqn:G; [|congruence]. intros _.
        destruct (pl_depSchemas _ _ _ _ _ P k s G) as (N & DN & K). splits; auto.
        unfold prop_deps. cbn. destruct (sget k (sc_depNames c)) as [ds|] eqn:G'; auto.
    Qed.

    Lemma one_regular t : In t (types_of c) -> node_regular E (bc_one c t).
    Proof.
      intros T. destruct t; try exact I.
      - apply int_regular.
      - apply str_regular.
      - now apply obj_regular.
      - now apply arr_regular.
      - now apply num_regular.
    Qed.

    Lemma any_regular l : (forall y, In y l -> y <> CNil) -> ((2 <= List.length l)%nat -> forall y, In y l -> pure E y) ->
      (forall y, In y l -> node_regular E y) -> node_regular E (reduce (CAny l)).
    Proof.
      intros N Pu H. destruct l as [|a [|b l]]; cbn [reduce]; [|apply H; now left|]; cbn [node_regular]; (split; [intros Q; now apply (N CNil)|]).
      - intros x [].
      - apply Pu. cbn. lia.
    Qed.
    Lemma oneof_regular l : (forall y, In y l -> y <> CNil) -> ((2 <= List.length l)%nat -> forall y, In y l -> pure E y) ->
      (forall y, In y l -> node_regular E y) -> node_regular E (reduce (COneOf l)).
    Proof.
      intros N Pu H. destruct l as [|a [|b l]]; cbn [reduce]; [|apply H; now left|]; cbn [node_regular]; (split; [intros Q; now apply (N CNil)|]).
      - intros x [].
      - apply Pu. cbn. lia.
    Qed.
    Lemma all_regular l : (forall y, In y l -> y <> CNil) -> (forall l1 y l2, l = l1 ++ y :: l2 -> l2 <> [] -> pure E y) ->
      (forall y, In y l -> node_regular E y) -> node_regular E (reduce (CAll l)).
    Proof.
      intros N Pu H. destruct l as [|a [|b l]]; cbn [reduce]; [|apply H; now left|]; cbn [node_regular]; (split; [intros Q; now apply (N CNil)|]); auto.
    Qed.

    Lemma one_pure t : In t (types_of c) -> (forall x, Kid c x -> clean x) -> pure E (bc_one c t).
    Proof.
      intros T K d (o' & k & p & RR & I & Dp).
      assert (RC : bc_one c t = CObj o' \/ exists y, In y (children E (bc_one c t)) /\ Reach E y (CObj o')) by (inversion RR; subst; eauto).
      destruct RC as [Q|(y & Iy & Ry)].
      - (* the object itself *)
        assert (Q' : t = TObject) by (destruct t; try discriminate; reflexivity). subst t.
        assert (So : Sorted (Sch c)) by (apply HS; auto). inversion So as [|? S1 _ _ _ _]; subst.
        cbn in Q. injection Q as <-. cbn in I. apply in_map_iff in I as ([k' s] & H & I). cbn in H. injection H as <- <-.
        assert (Ks : Kid c s) by (apply (props_kid k'); auto; apply nodup_sget; auto; now apply ssorted_nodup).
        destruct (form_default E0 D root rf HD s (bc s) d Dp) as (c' & Hc' & Rc' & Hd & N); [apply fo_bc; constructor|].
        apply N. rewrite <- Hd. now apply (K s Ks).
      - assert (Fy : y = CNil \/ y = CEmpty \/ exists s, Kid c s /\ y = bc s).
        { assert (So : Sorted (Sch c)) by (apply HS; auto). inversion So as [|? S1 S2 S3 S4 _]; subst.
          destruct t; try (destruct Iy; fail).
          - cbn in Iy. destruct Iy as [<-|Iy].
            + destruct (sc_addProps c) as [[|x]|] eqn:QA; auto. right. right. exists (Sch x). split; auto. apply add_kid; auto. discriminate.
            + rewrite !map_map in Iy. cbn [snd] in Iy. rewrite !in_app_iff, !in_map_iff in Iy. right. right.
              destruct Iy as [([q s] & <- & I')|[([q s] & <- & I')|([q s] & <- & I')]]; exists s; (split; [|reflexivity]).
              * eapply pats_kid; eauto.
              * apply (props_kid q); auto. apply nodup_sget; auto. now apply ssorted_nodup.
              * apply (dep_kid q); auto. apply nodup_sget; auto. now apply ssorted_nodup.
          - assert (KA : forall x, In x (array_kids c) -> Kid c x) by (intros; now apply kid_array).
            unfold array_kids in KA. cbn in Iy. destruct (sc_items c) as [[[|] l]|].
            + destruct Iy as [<-|[<-|Iy]]; auto.
              * destruct (sc_addItems c) as [[|x]|]; auto. right. right. exists (Sch x). split; auto. apply KA. rewrite in_app_iff. right. now left.
              * apply in_map_iff in Iy as (x & <- & Hx). right. right. exists x. split; auto. apply KA. rewrite in_app_iff. now left.
            + destruct Iy as [<-|[<-|[]]]; auto. destruct l as [|x l]; auto. right. right. exists x. split; auto. apply KA. now left.
            + destruct Iy as [<-|[<-|[]]]; auto. }
        destruct Fy as [->|[->|(s & Ks & ->)]]; try (exfalso; inversion Ry; subst; match goal with H : In _ (children _ _) |- _ => destruct H end).
        apply (clean_kid s (K s Ks) d). exists o', k, p. auto.
    Qed.

    Lemma types_regular y : In y (bc_types c) -> node_regular E y.
    Proof.
      unfold bc_types. destruct (types_of c) as [|t l] eqn:T.
      - destruct (sc_enum c) as [|e l] eqn:Q; [intros []|intros [<-|[]]]. cbn. rewrite <- Q. apply Forall_forall. intros x Hx.
        destruct (pl_enum _ _ _ _ _ P x Hx) as (J & N1 & N2). destruct J; cbn; auto; [now apply (N1 l0)|now apply (N2 m)].
      - intros [<-|[]]. rewrite <- T. apply any_regular.
        + intros y Hy. apply in_map_iff in Hy as (u & <- & _). apply bc_one_not_nil.
        + rewrite map_length. intros L y Hy. apply in_map_iff in Hy as (u & <- & Hu). apply one_pure; auto. now apply (pl_types _ _ _ _ _ P).
        + intros y Hy. apply in_map_iff in Hy as (u & <- & Hu). now apply one_regular.
    Qed.

    Lemma comb_pure y : In y (bc_comb c) -> pure E y.
    Proof.
      intros Hy. pose proof (pl_comb _ _ _ _ _ P) as PC.
      assert (M : forall l, (forall x, In x l -> clean x) -> forall z, In z (map bc l) -> pure E z).
      { intros l Hl z Hz. apply in_map_iff in Hz as (x & <- & Hx). now apply clean_kid, Hl. }
      assert (A : forall z, (forall w, In w (children E z) -> pure E w) -> (forall o, z <> CObj o) -> pure E z).
      { intros z Hz Ho d (o' & k & p & RR & I & Dp). inversion RR as [? Q|? w ? Iw Rw]; subst; [now apply (Ho o')|].
        apply (Hz w Iw d). exists o', k, p. auto. }
      unfold bc_comb in Hy. unfold comb_kids in PC.
      destruct (sc_not c) as [|n].
      - destruct (sc_allOf c) as [|a la]; [destruct (sc_anyOf c) as [|a la]; [destruct (sc_oneOf c) as [|a la]; [destruct Hy|]|]|]; destruct Hy as [<-|[]];
          (destruct la as [|b la]; [apply (M [a] PC); now left|]; apply A; [|discriminate]; intros w Hw; apply (M _ PC); exact Hw).
      - destruct Hy as [<-|[]]. apply A; [|discriminate]. intros w [<-|[]]. apply clean_kid, PC. now left.
    Qed.
    Lemma comb_regular y : (forall x, In x (comb_kids c) -> node_regular E (bc x)) -> In y (bc_comb c) -> node_regular E y.
    Proof.
      intros IH Hy. pose proof (pl_comb _ _ _ _ _ P) as PC.
      assert (NN : forall x, In x (comb_kids c) -> bc x <> CNil) by (intros; now apply kid_nn, kid_comb).
      assert (M : forall l, (forall x, In x l -> clean x) -> forall z, In z (map bc l) -> pure E z).
      { intros l Hl z Hz. apply in_map_iff in Hz as (x & <- & Hx). now apply clean_kid, Hl. }
      assert (M1 : forall l, (forall x, In x l -> bc x <> CNil) -> forall z, In z (map bc l) -> z <> CNil).
      { intros l Hl z Hz. apply in_map_iff in Hz as (x & <- & Hx). auto. }
      assert (M2 : forall l, (forall x, In x l -> node_regular E (bc x)) -> forall z, In z (map bc l) -> node_regular E z).
      { intros l Hl z Hz. apply in_map_iff in Hz as (x & <- & Hx). auto. }
      unfold bc_comb in Hy. unfold comb_kids in *.
      destruct (sc_not c) as [|n].
      - destruct (sc_allOf c) as [|a la]; [destruct (sc_anyOf c) as [|a la]; [destruct (sc_oneOf c) as [|a la]; [destruct Hy|]|]|]; destruct Hy as [<-|[]].
        + apply oneof_regular; [apply M1, NN|intros _; apply M, PC|apply M2, IH].
        + apply any_regular; [apply M1, NN|intros _; apply M, PC|apply M2, IH].
        + apply all_regular; [apply M1, NN| |apply M2, IH]. intros l1 z l2 Q _. apply (M _ PC). rewrite Q. apply in_or_app. right. now left.
      - destruct Hy as [<-|[]]. cbn [node_regular]. apply clean_kid, PC. now left.
    Qed.
  End Node.

  Lemma bc_regular x : Sub root x -> x <> SNil -> node_regular E (bc x).
  Proof.
    induction x as [|c IH] using schema_subs_ind; intros Hs N; [congruence|].
    destruct (String.eqb_spec (sc_ref c) "") as [R|R].
    - rewrite bc_step by assumption.
      assert (KG : forall x, In x (comb_kids c) -> x <> SNil).
      { intros x Hx ->. destruct (HG SNil) as [_ G]; [eapply sub_kid; eauto; now apply kid_comb|]. apply G. constructor. }
      apply all_regular.
      + intros y Hy. apply in_app_iff in Hy as [Hy|Hy]; [|now apply bc_types_not_nil in Hy].
        apply (bc_comb_kid _ _ Hy). intros x Hx. now apply (kid_nn c Hs R), kid_comb.
      + intros l1 y l2 Q NE. assert (L : (List.length (bc_types c) <= 1)%nat).
        { unfold bc_types. destruct (types_of c); [destruct (sc_enum c)|]; cbn; lia. }
        apply (comb_pure c Hs R).
        assert (I : In y (bc_comb c ++ bc_types c)) by (rewrite Q; apply in_or_app; right; now left).
        destruct (bc_types c) as [|t [|u ts]] eqn:BT; [rewrite app_nil_r in I; exact I| |cbn in L; lia].
        assert (exists l2', l2 = l2' ++ [t]) as [l2' ->].
        { destruct (exists_last NE) as (l2' & z & ->). exists l2'. rewrite app_comm_cons, app_assoc in Q. apply app_inj_tail in Q as [_ <-]. reflexivity. }
        rewrite app_comm_cons, app_assoc in Q. apply app_inj_tail in Q as [-> _]. apply in_or_app. right. now left.
      + intros y Hy. apply in_app_iff in Hy as [Hy|Hy]; [|now apply (types_regular c Hs R)].
        apply (comb_regular c Hs R); auto. intros x Hx. apply IH; auto.
        * apply Kid_subs. now apply kid_comb.
        * eapply sub_kid; eauto. now apply kid_comb.
    - cbn [bc]. pose proof R as R'. apply String.eqb_neq in R'. rewrite R'. cbn.
      intros Q. destruct (HD _ _ Q) as (s' & _ & G & B). now apply (bc_not_nil s').
  Qed.

  Theorem form_regular y : Form root y -> y = CNil \/ node_regular E y.
  Proof.
    intros F. destruct F as [[|c] Hx|c y Hs R P| |]; auto.
    - right. apply bc_regular; auto. discriminate.
    - right. destruct P; [|now apply (types_regular c Hs R)|now apply one_regular].
      apply (comb_regular c Hs R); auto. intros x Hx. apply bc_regular; [eapply sub_kid; eauto; now apply kid_comb|].
      intros ->. destruct (HG SNil) as [_ G]; [eapply sub_kid; eauto; now apply kid_comb|]. apply G. constructor.
    - right. exact I.
  Qed.
  Theorem built_regular x : Sub root x -> regular E (bc x).
  Proof.
    intros Hx. split; [now apply bc_not_nil, HG|]. intros z Rz. apply form_regular.
    eapply form_reach; eauto. now apply fo_bc.
  Qed.
End Regular.
