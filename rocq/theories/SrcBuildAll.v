(** builder/builder.go:156-289 buildFromSchema, run from its source. *)
From Verif Require Import Base GoFloat GoValue Maybe Formats Constraint StructInfo Validate Builder SrcSyntax SrcText SrcTextB SrcProg SrcAccess SrcStore SrcProgB SrcStepB SrcSetters SrcSetObj SrcRep SrcBuildS SrcGuess SrcLoop SrcBuildA SrcBuildO SchemaForm.
Open Scope string_scope.
Open Scope list_scope.
Open Scope nat_scope.

Section All.
  Variable D : bv -> resolver.
  Variable tn : nat -> string.
  Notation P := (prog D tn).
  Variables (V sv : bv) (cc r : nat).
  Notation ctx_ok := (ctx_ok V sv cc r).
  Notation builds := (builds D tn V sv cc r).
  Notation combo_at := (combo_at V cc r).

  (** ** A constraint made and filled for one type *)
  (** the constructor [new], then the function [f] *)
  Definition slot (k : nat) (new f : string) (c : scfg) (m : bm constr) (h : list bv) (R : Builder.names) (w : orc) : Prop :=
    forall e0, exists a h1, bcall P k new [] (st e0 h w) = BOk [BPtr a []] (st e0 h1 w) /\ forall e,
      let o := bcall P k f [BPtr cc []; BPtr a []; BSch c] (st e h1 w) in
      match m R w with
      | GOk (x, R', w') => exists h', o = BOk [BNil] (st e h' w') /\ rep V (List.length h) (List.length h') h' (BPtr a []) x /\ ctx_ok h' R' /\ grown r h h'
      | GErr m => exists m' h' w', o = BOk [BMsg m'] (st e h' w') /\ said m' m
      | GPanic _ => exists m', o = BPn m'
      end.
  Lemma grown_new h h' a R : a = List.length h -> ctx_ok h R -> List.length h < List.length h' -> (forall x, x < List.length h -> cell x h' = cell x h) -> ctx_ok h' R /\ grown r h h'.
  Proof.
    intros -> HC H1 H2. destruct (ctx_lt _ _ _ _ _ _ HC) as (L1 & L2 & _). split; [eapply ctx_keep; [exact HC|now apply H2|now apply H2]|].
    split; [lia|]. intros x Hx _. now apply H2.
  Qed.
  (** the constraints without parts *)
  Lemma grown_slot h x a h' R : a = List.length h -> grown a (h ++ [x]) h' -> ctx_ok h R -> ctx_ok h' R /\ grown r h h' /\ a < List.length h'.
  Proof.
    intros Ea [G1 G2] HC. rewrite app_length in G1. cbn [List.length] in G1.
    assert (Hk : forall y, y < List.length h -> cell y h' = cell y h).
    { intros y Hy. rewrite G2 by (try rewrite app_length; cbn [List.length]; lia). now apply cell_old. }
    destruct (grown_new h h' a R Ea HC ltac:(lia) Hk) as [H1 H2]. split; [exact H1|]. split; [exact H2|lia].
  Qed.
  Lemma slot_string k c h R w : ctx_ok h R -> typed TString c -> slot (S (S (S k))) "String" "buildStringConstraint" c (Builder.ret (build_string c)) h R w.
  Proof.
    intros HC Ht e0. exists (List.length h), (h ++ [str_struct None new_str BNil]). split; [apply src_str_new|]. intro e. unfold Builder.ret. cbv zeta.
    destruct (src_buildString D tn e w k (BPtr cc []) c (List.length h) _ (cell_new h _) Ht) as (d & cfg & h' & en & -> & Hgo & G & Hc & He).
    destruct (grown_slot _ _ _ _ _ eq_refl G HC) as (H1 & H2 & H3). exists h'. split; [exact Hgo|]. split; [|auto].
    econstructor; [|exact Hc|]; [lia|]. eapply erep_keep; [exact He|rewrite app_length; lia|lia|reflexivity].
  Qed.
  Lemma slot_number k c h R w : ctx_ok h R -> typed TNumber c -> slot (S (S (S k))) "Number" "buildNumberConstraint" c (Builder.ret (build_number c)) h R w.
  Proof.
    intros HC Ht e0. exists (List.length h), (h ++ [num_struct None new_num BNil]). split; [apply src_num_new|]. intro e. unfold Builder.ret. cbv zeta.
    destruct (src_buildNumber D tn e w k (BPtr cc []) c (List.length h) _ (cell_new h _) Ht) as (d & cfg & h' & en & -> & Hgo & G & Hc & He).
    destruct (grown_slot _ _ _ _ _ eq_refl G HC) as (H1 & H2 & H3). exists h'. split; [exact Hgo|]. split; [|auto].
    econstructor; [|exact Hc|]; [lia|]. eapply erep_keep; [exact He|rewrite app_length; lia|lia|reflexivity].
  Qed.
  Lemma slot_integer k c h R w : ctx_ok h R -> typed TInteger c -> slot (S (S (S k))) "Integer" "buildIntegerConstraint" c (Builder.ret (build_integer c)) h R w.
  Proof.
    intros HC Ht e0. exists (List.length h), (h ++ [int_struct None new_num BNil]). split; [apply src_int_new|]. intro e. unfold Builder.ret. cbv zeta.
    destruct (src_buildInteger D tn e w k (BPtr cc []) c (List.length h) _ (cell_new h _) Ht) as (d & cfg & h' & en & -> & Hgo & G & Hc & He).
    destruct (grown_slot _ _ _ _ _ eq_refl G HC) as (H1 & H2 & H3). exists h'. split; [exact Hgo|]. split; [|auto].
    econstructor; [|exact Hc|]; [lia|]. eapply erep_keep; [exact He|rewrite app_length; lia|lia|reflexivity].
  Qed.
  Lemma slot_boolean k c h R w : ctx_ok h R -> slot (S (S (S k))) "Boolean" "buildBooleanConstraint" c (Builder.ret (build_boolean c)) h R w.
  Proof.
    intros HC e0. exists (List.length h), (h ++ [bool_struct None]). split; [apply src_bool_new|]. intro e. unfold Builder.ret. cbv zeta.
    destruct (src_buildBoolean D tn e w k (BPtr cc []) c (List.length h) _ (cell_new h _)) as (d & h' & -> & Hgo & G & Hc).
    destruct (grown_slot _ _ _ _ _ eq_refl G HC) as (H1 & H2 & H3). exists h'. split; [exact Hgo|]. split; [|auto].
    econstructor; [|exact Hc]. lia.
  Qed.
  Lemma slot_array k c h R w : ctx_ok h R ->
    (forall t l x, sc_items c = Some (t, l) -> In x l -> builds (S (S k)) x) -> (forall x, sc_addItems c = Some x -> builds (S (S k)) x) ->
    slot (S (S (S k))) "Array" "buildArrayConstraint" c
      (build_array c (match sc_items c with Some (_, l) => map build l | None => [] end) (match sc_addItems c with Some x => build x | None => Builder.ret CNil end)) h R w.
  Proof.
    intros HC H1 H2 e0. exists (List.length h), (h ++ [arr_struct new_arr BNil BNil empty_struct]). split; [apply src_arr_new|]. intro e. cbv zeta.
    destruct (ctx_lt _ _ _ _ _ _ HC) as (L1 & L2 & _).
    assert (HC' : ctx_ok (h ++ [arr_struct new_arr BNil BNil empty_struct]) R) by (eapply ctx_keep; [exact HC|now apply cell_old|now apply cell_old]).
    pose proof (src_buildArray D tn V sv cc r k c (List.length h) _ R w e HC' (cell_new h _) ltac:(rewrite app_length; cbn [List.length]; lia) H1 H2) as H. unfold fills in H. cbv zeta in H.
    destruct (build_array _ _ _ R w) as [[[x R'] w']|m|m]; [|exact H|exact H].
    destruct H as (h' & Hgo & Hr & HC2 & HL & HK). exists h'. split; [exact Hgo|]. split; [exact Hr|]. split; [exact HC2|].
    rewrite app_length in HL. cbn [List.length] in HL. split; [lia|]. intros y Hy Hn. rewrite HK by assumption. now apply cell_old.
  Qed.
  Lemma slot_object k c h R w : ctx_ok h R ->
    (forall n x, In (n, x) (sc_props c) -> builds (S (S (S k))) x) -> (forall n x, In (n, x) (sc_pats c) -> builds (S (S (S k))) x) ->
    (forall x, sc_addProps c = Some x -> builds (S (S (S k))) x) -> (forall n x, In (n, x) (sc_depSchemas c) -> builds (S (S (S k))) x) ->
    slot (S (S (S (S k)))) "Object" "buildObjectConstraint" c
      (build_object c (map (fun e => (fst e, build (snd e))) (sc_props c)) (map (fun e => (fst e, build (snd e))) (sc_pats c))
         (match sc_addProps c with Some x => build x | None => Builder.ret CNil end) (map (fun e => (fst e, build (snd e))) (sc_depSchemas c))) h R w.
  Proof.
    intros HC H1 H2 H3 H4 e0. destruct (ctx_lt _ _ _ _ _ _ HC) as (L1 & L2 & _).
    destruct (src_obj_new D tn e0 h w (S k)) as (h1 & m & Hnew & Hl & Hk & Hc & Hm & ->).
    exists (List.length h + 5), h1. split; [exact Hnew|]. intro e. cbv zeta.
    assert (HC' : ctx_ok h1 R) by (eapply ctx_keep; [exact HC|now apply Hk|now apply Hk]).
    assert (Ho : obj_at V (List.length h) new_obj h1).
    { exists BNil, [], [], [], []. split; [exact Hc|]. rewrite !Hm by lia. repeat (split; [constructor|]). constructor. }
    pose proof (src_buildObject D tn V sv cc r k c (List.length h) h1 R w e HC' Ho L1 L2 H1 H2 H3 H4) as H. unfold fills in H. cbv zeta in H.
    destruct (build_object _ _ _ _ _ R w) as [[[x R'] w']|m|m]; [|exact H|exact H].
    destruct H as (h' & Hgo & Hr & HC2 & HL & HK). exists h'. split; [exact Hgo|]. split; [exact Hr|]. split; [exact HC2|].
    split; [lia|]. intros y Hy Hn. rewrite HK by assumption. now apply Hk.
  Qed.

  (** ** Combinations *)
  Lemma combo_added e w k T a h0 h cs lo v c R : a = List.length h0 -> combo T -> combo_at T h0 h cs -> ctx_ok h R -> rep V lo (List.length h) h v c -> S a <= lo ->
    exists h', bcall P (S (S (S k))) (T +++ ".Add") [BPtr a []; v] (st e h w) = BOk [BPtr a []] (st e h' w) /\
      combo_at T h0 h' (cs ++ [c]) /\ ctx_ok h' R /\ List.length h' = List.length h /\ (forall x, x <> a -> cell x h' = cell x h).
  Proof. intros ->. now apply combo_add. Qed.
  Lemma combo_cell T h0 h cs a : a = List.length h0 -> combo_at T h0 h cs -> exists v, cell a h = Some (combo_struct T v).
  Proof. intros -> (v & vl & H & _). now exists v. Qed.
  Lemma combo_grown T h0 h cs : combo_at T h0 h cs -> grown r h0 h /\ List.length h0 < List.length h.
  Proof. intros (v & vl & H1 & _ & _ & _ & _ & H6). apply cell_lt in H1. split; [split; [lia|]|exact H1]. intros x Hx Hn. now apply H6. Qed.

  (** ** The model in the parts of the source *)
  Definition comb_of (c : scfg) : bm (list constr) :=
    match sc_not c with
    | Sch _ => Builder.bind (build (sc_not c)) (fun x => Builder.ret [CNot x])
    | SNil =>
        match sc_allOf c with
        | _ :: _ => Builder.bind (seqM (map build (sc_allOf c))) (fun l => Builder.ret [reduce (CAll l)])
        | [] =>
            match sc_anyOf c with
            | _ :: _ => Builder.bind (seqM (map build (sc_anyOf c))) (fun l => Builder.ret [reduce (CAny l)])
            | [] =>
                match sc_oneOf c with
                | _ :: _ => Builder.bind (seqM (map build (sc_oneOf c))) (fun l => Builder.ret [reduce (COneOf l)])
                | [] => Builder.ret []
                end
            end
        end
    end.
  Definition type_of (c : scfg) (t : ptype) : bm constr :=
    match t with
    | TString => Builder.ret (build_string c)
    | TNumber => Builder.ret (build_number c)
    | TInteger => Builder.ret (build_integer c)
    | TBoolean => Builder.ret (build_boolean c)
    | TArray => build_array c (match sc_items c with Some (_, l) => map build l | None => [] end) (match sc_addItems c with Some x => build x | None => Builder.ret CNil end)
    | TObject => build_object c (map (fun e => (fst e, build (snd e))) (sc_props c)) (map (fun e => (fst e, build (snd e))) (sc_pats c))
         (match sc_addProps c with Some x => build x | None => Builder.ret CNil end) (map (fun e => (fst e, build (snd e))) (sc_depSchemas c))
    | TNull => Builder.ret CNull
    | TOther _ => Builder.bad "unknown type: "
    end.
  Definition types_of (c : scfg) : list ptype := sort_t (match sc_type c with [] => guess c | l => l end).
  Definition typ_of (c : scfg) : bm (list constr) :=
    match types_of c with
    | [] => Builder.ret (match sc_enum c with [] => [] | l => [CEnum l] end)
    | _ :: _ => Builder.bind (seqM (map (type_of c) (types_of c))) (fun l => Builder.ret [reduce (CAny l)])
    end.
  Lemma build_eq c : build (Sch c) =
    (if negb (String.eqb (sc_ref c) "") then fun R w => GOk (CRef (sc_ref c), sset (sc_ref c) tt R, w)
     else Builder.bind (comb_of c) (fun cs => Builder.bind (typ_of c) (fun ts => Builder.ret (reduce (CAll (cs ++ ts)))))).
  Proof. reflexivity. Qed.

  Definition ct_state (h : list bv) (E : list bscope) (cs : list constr) (R : Builder.names) (s : bst) : Prop :=
    exists h1, s = st E h1 (bord s) /\ combo_at "AllConstraint" h h1 cs /\ ctx_ok h1 R.
  Definition under (P : schema -> Prop) (c : scfg) : Prop :=
    P (sc_not c) /\ (forall x, In x (sc_allOf c) -> P x) /\ (forall x, In x (sc_anyOf c) -> P x) /\ (forall x, In x (sc_oneOf c) -> P x).
  Definition inside (P : schema -> Prop) (c : scfg) : Prop :=
    (forall t l x, sc_items c = Some (t, l) -> In x l -> P x) /\ (forall x, sc_addItems c = Some x -> P x) /\
    (forall n x, In (n, x) (sc_props c) -> P x) /\ (forall n x, In (n, x) (sc_pats c) -> P x) /\
    (forall x, sc_addProps c = Some x -> P x) /\ (forall n x, In (n, x) (sc_depSchemas c) -> P x).
  (** builder/reference.go *)
  Lemma src_buildReference ctx c a v r0 e h w k : cell a h = Some (ref_struct v r0) -> String.eqb (sc_ref c) "" = false ->
    bcall P (S (S (S (S k)))) "buildReferenceConstraint" [ctx; BPtr a []; BSch c] (st e h w) = BOk [BNil] (st e (put a (ref_struct v (sc_ref c)) h) w).
  Proof.
    intros Ha Hr. assert (Es : same (sc_ref c) "" = false) by exact Hr. open_b. stepsb. erewrite src_refersTo by exact Ha. stepsb. reflexivity.
  Qed.
  Lemma src_buildRef k c : String.eqb (sc_ref c) "" = false -> builds (S (S (S (S (S k))))) (Sch c).
  Proof.
    intros Er e h R w HC. rewrite build_eq, Er. cbn [negb]. cbv zeta. destruct (ctx_lt _ _ _ _ _ _ HC) as (L1 & L2 & L3).
    assert (Es : same (sc_ref c) "" = false) by exact Er. pose proof HC as [HC1 HC2]. open_b. stepsb. rewrite src_ref_new.
    pose proof (cell_new h (ref_struct V "")) as Ha. remember (List.length h) as a eqn:Ea.
    assert (Ha' : cell a (put a (ref_struct V (sc_ref c)) (h ++ [ref_struct V ""])) = Some (ref_struct V (sc_ref c))) by (apply cell_put; rewrite app_length; cbn [List.length]; lia).
    assert (Hk : forall x, x < a -> cell x (put a (ref_struct V (sc_ref c)) (h ++ [ref_struct V ""])) = cell x h) by (intros; rewrite cell_other by lia; apply cell_old; lia).
    remember (h ++ [ref_struct V ""]) as h1 eqn:Eh1. stepsb.
    erewrite src_buildReference by eassumption. remember (put a (ref_struct V (sc_ref c)) h1) as h2 eqn:Eh2.
    assert (Hl : List.length h2 = S a) by (subst h2 h1; rewrite put_length, app_length; cbn [List.length]; lia).
    clear Ha Eh1 Eh2. rewrite <- Hk in HC1, HC2 by lia.
    stepsb. exists (BPtr a []). eexists. split; [reflexivity|].
    rewrite put_length, ref_put. split; [|split; [split|split]].
    - econstructor; [|rewrite cell_other by lia; exact Ha']. lia.
    - rewrite cell_other by exact L3. exact HC1.
    - apply cell_put. lia.
    - rewrite put_length. lia.
    - intros x Hx Hn. rewrite cell_other by exact Hn. apply Hk. lia.
  Qed.
  Lemma is_all : combo "AllConstraint". Proof. right. left. reflexivity. Qed.
  Lemma is_any : combo "AnyConstraint". Proof. left. reflexivity. Qed.
  Lemma is_oneOf : combo "OneOfConstraint". Proof. right. right. reflexivity. Qed.
  (** the call of Add that is about to run, on the combination at hand *)
  Ltac add_to T HT Ea HA HC Hrep :=
    lazymatch goal with |- context [bcall P (S (S (S ?k))) _ [BPtr ?a []; ?v] (st ?E ?h1 ?w)] =>
      lazymatch type of Hrep with rep _ ?lo _ _ _ _ =>
      let Hle := fresh "Hle" in assert (Hle : S a <= lo) by (try rewrite app_length; cbn [List.length]; lia);
      let Hgo := fresh "Hgo" in
      destruct (combo_added E w k T a _ h1 _ _ v _ _ Ea HT HA HC Hrep Hle) as (h9 & Hgo & HA9 & HC9 & Hl9 & Hk9);
      cbn [String.append] in Hgo; rewrite Hgo; clear Hgo Hle
      end
    end.
  Ltac round_starts := match goal with |- context [b_bind ?bx ?def ?k ?v ?a1 ?b1 (bpush ?s1)] => let t := evalb (b_bind bx def k v a1 b1 (bpush s1)) in change (b_bind bx def k v a1 b1 (bpush s1)) with t end.
  Lemma combo_reduced e w k T a h0 h cs : a = List.length h0 -> combo T -> combo_at T h0 h cs ->
    exists v, bcall P (S (S (S k))) (T +++ ".Reduce") [BPtr a []] (st e h w) = BOk [v] (st e h w) /\ rep V a (List.length h) h v (reduce (mk T cs)).
  Proof. intros ->. now apply combo_reduce. Qed.
  Ltac reduced T HT Ea HA :=
    lazymatch goal with |- context [bcall P (S (S (S ?k))) _ [BPtr ?a []] (st ?E ?h1 ?w)] =>
      let Hgo := fresh "Hgo" in
      destruct (combo_reduced E w k T a _ h1 _ Ea HT HA) as (vr & Hgo & Hrepr); cbn [String.append] in Hgo; rewrite Hgo; clear Hgo;
      unfold mk in Hrepr; cbn [String.eqb Ascii.eqb Bool.eqb] in Hrepr
    end.
  (** after the loop *)
  Ltac combined T HT Ea Eb HA Hloop :=
    unfold Builder.bind, Builder.ret;
    lazymatch type of Hloop with outcome _ _ (?m ?R ?w) _ =>
      destruct (m R w) as [[[ys R5] w5]|m5|m5]; unfold outcome in *;
      [ destruct Hloop as (s5 & Hs5 & Hw5 & h5 & Es5 & HB5 & HC5); rewrite Hs5, Es5, Hw5; clear s5 Hs5 Hw5 Es5;
        pose proof (combo_keep _ _ _ _ _ _ _ _ HA (proj1 (combo_grown _ _ _ _ HB5))) as HA5;
        destruct (combo_cell _ _ _ _ _ Ea HA5) as (va5 & Ha5); destruct (combo_cell _ _ _ _ _ Eb HB5) as (vb5 & Hb5);
        lazymatch type of Ea with ?a = _ => lazymatch type of Eb with ?b = _ => assert (Hab5 : S a <= b) by (destruct (combo_grown _ _ _ _ HA) as [_ ?]; lia) end end;
        stepsb; reduced T HT Eb HB5; stepsb;
        lazymatch goal with Hr : rep V _ _ h5 _ _ |- _ => add_to "AllConstraint" is_all Ea HA5 HC5 Hr end; stepsb
      | destruct Hloop as (m5' & s5 & Hs5 & Hm5); rewrite Hs5; stepsb; do 2 eexists; split; [reflexivity|exact Hm5]
      | destruct Hloop as (m5' & Hs5); rewrite Hs5; stepsb; eexists; reflexivity ]
    end.
  (** a combination made, filled by a loop over schemas, reduced and added to the outer one *)
  Ltac combination T HT newlem lst Hch h h1 R Ea HA HC :=
    stepsb; rewrite newlem; 
    pose proof (combo_new V sv cc r T h1 R HC) as HB;
    pose proof (combo_keep _ _ _ _ _ _ (h1 ++ [combo_struct T BNil]) _ HA (grown_app _ _ _)) as HA1;
    assert (HCi : ctx_ok (h1 ++ [combo_struct T BNil]) R) by (destruct (ctx_lt _ _ _ _ _ _ HC) as (? & ? & _); eapply ctx_keep; [exact HC|now apply cell_old|now apply cell_old]);
    clear HC; generalize dependent (h1 ++ [combo_struct T BNil]); intros h2 HB HA1 HCi; 
    remember (List.length h1) as b eqn:Eb; destruct (combo_cell _ _ _ _ _ Eb HB) as (vb & Hb); destruct (combo_cell _ _ _ _ _ Ea HA1) as (va1 & Ha1);
    stepsb;
    lazymatch goal with |- context [brounds ?bx ?body ?def ?k ?v (b_indexed 0 (map of_schema _)) (st ?E h2 ?w)] =>
      let Inv := constr:(fun (d : list constr) (R : Builder.names) (s : bst) => exists h3, s = st E h3 (bord s) /\ combo_at T h1 h3 d /\ ctx_ok h3 R) in
      assert (Hloop : outcome (fun m => [BNil; BMsg m]) (brounds bx body def k v (b_indexed 0 (map of_schema lst)) (st E h2 w)) (seqM (map build lst) R w) Inv);
    [ let He := fresh in pose proof (ents_indexed lst 0) as He; cbn in He; rewrite He; clear He;
      refine (loop_gen _ _ _ _ _ _ build (fun n x => (BInt (Z.of_nat n), of_schema x)) Inv (List.length lst) lst [] R _ eq_refl _ _);
      [ clear HB HA1 HCi Hb Ha1; intros x d R0 s0 Hin _ (h0 & Es0 & HB & HCi); rewrite Es0; clear Es0; generalize (bord s0); intro w0; clear s0; cbn [fst snd]; 
        pose proof (Hch x Hin) as Hx; round_starts; unfold outcome; cbv beta; cbn [bord]; clear h2;
        assert (Hlt : S b <= List.length h0) by (destruct (combo_grown _ _ _ _ HB) as [_ ?]; lia);
        rename h1 into hb; stepsb; use_build Hx HCi;
        [ lazymatch goal with G : grown r h0 ?h5, Hr : rep V (List.length h0) _ ?h5 _ _, HCn : ctx_ok ?h5 _ |- _ =>
            pose proof (combo_keep _ _ _ _ _ _ _ _ HB G) as HB1; destruct (combo_cell _ _ _ _ _ Eb HB1) as (vb1 & Hb1); stepsb; 
            add_to T HT Eb HB1 HCn Hr end; stepsb; eexists; split; [reflexivity|]; split; [reflexivity|]; eexists; split; [reflexivity|split; eassumption]
        | stepsb; do 2 eexists; split; [reflexivity|assumption]
        | stepsb; eexists; reflexivity ]
      | exists h2; auto ]
    | ]
    end.

  Lemma b_types_map l : b_types (map BTp l) = Some l.
  Proof. unfold b_types. induction l as [|t l IH]; cbn [map fold_right]; [reflexivity|]. now rewrite IH. Qed.
  Lemma sort_value l F h w : b_sort "sts" (st [("sts", Vl (types_value l)) :: F] h w) = BOk [] (st [("sts", Vl (types_value (sort_t l))) :: F] h w).
  Proof.
    destruct l as [|t l]; [reflexivity|].
    assert (Hn : types_value (sort_t (t :: l)) = BList (map BTp (sort_t (t :: l)))).
    { pose proof (Permutation_length (sort_t_perm (t :: l))) as H. destruct (sort_t (t :: l)); [discriminate H|reflexivity]. }
    rewrite Hn. unfold b_sort. change (types_value (t :: l)) with (BList (map BTp (t :: l))).
    match goal with |- context [var_value ?x ?s] => change (var_value x s) with (Some (BList (map BTp (t :: l)))) end.
    cbn [slice_items]. rewrite b_types_map. reflexivity.
  Qed.
  Lemma types_typed c t : In t (types_of c) -> typed t c.
  Proof.
    unfold types_of, typed. intro H. apply (Permutation_in _ (Permutation_sym (sort_t_perm _))) in H. destruct (sc_type c); [now left|now right].
  Qed.
  Lemma ents_of {X} (g : X -> bv) l : forall n, b_indexed (Z.of_nat n) (map g l) = ents (fun n x => (BInt (Z.of_nat n), g x)) n l.
  Proof. induction l as [|x l IH]; intro n; cbn; [reflexivity|]. rewrite <- IH. do 2 f_equal. lia. Qed.

  (** one type: its constraint made and filled, then added *)
  Ltac type_made Hslot :=
    unfold Builder.ret; stepsb;
    lazymatch goal with |- context [bcall P _ _ [] (st ?E ?h0 ?w0)] =>
      let av := fresh "av" in let hv := fresh "hv" in let Hnew := fresh "Hnew" in
      destruct (Hslot E) as (av & hv & Hnew & Hf); clear Hslot; rename Hf into Hslot; rewrite Hnew; clear Hnew end;
    stepsb;
    lazymatch goal with |- context [bcall P _ _ [BPtr cc []; BPtr _ []; BSch _] (st ?E _ _)] => specialize (Hslot E) end;
    cbv zeta in Hslot; unfold Builder.ret in Hslot; cbv beta iota in Hslot.
  Ltac type_added Eb HB Hslot :=
    destruct Hslot as (h4 & Hf & Hr4 & HC4 & G4); rewrite Hf; clear Hf;
    pose proof (combo_keep _ _ _ _ _ _ _ _ HB G4) as HB4; clear HB;
    destruct (combo_cell _ _ _ _ _ Eb HB4) as (vb4 & Hb4); stepsb;
    add_to "AnyConstraint" is_any Eb HB4 HC4 Hr4; stepsb;
    eexists; split; [reflexivity|]; split; [reflexivity|]; eexists; split; [reflexivity|split; eassumption].
  Ltac type_err Hslot := destruct Hslot as (m2' & h4 & w4 & Hf & Hm2); rewrite Hf; clear Hf; stepsb; do 2 eexists; split; [reflexivity|exact Hm2].
  Ltac type_pn Hslot := destruct Hslot as (m2' & Hf); rewrite Hf; clear Hf; stepsb; eexists; reflexivity.
  Lemma src_buildFrom k c : under (builds (S (S (S (S k))))) c -> inside (builds (S (S (S k)))) c -> builds (S (S (S (S (S k))))) (Sch c).
  Proof.
    intros (Hnot & Hall & Hany & Hone) (Hi & Hai & Hp & Hq & Hap & Hd).
    destruct (String.eqb (sc_ref c) "") eqn:Er; [|now apply src_buildRef].
    intros e h R w HC. rewrite build_eq, Er. cbn [negb]. cbv zeta. destruct (ctx_lt _ _ _ _ _ _ HC) as (L1 & L2 & L3).
    assert (Es : same (sc_ref c) "" = true) by exact Er.
    open_b. rewrite brun_cons.
    match goal with |- context [bexec ?cx ?call ?bx ?n ?x ?s0] => assert (H0 : bexec cx call bx n x s0 = BNx s0) by (stepsb; reflexivity); rewrite H0; clear H0; cbn [bends] end.
    rewrite brun_cons.
    pose proof (combo_new V sv cc r "AllConstraint" h R HC) as HA.
    assert (HC1 : ctx_ok (h ++ [combo_struct "AllConstraint" BNil]) R) by (eapply ctx_keep; [exact HC|now apply cell_old|now apply cell_old]).
    match goal with |- context [bexec ?cx ?call ?bx ?n ?x (st [?F] h w)] => assert (H0 : bexec cx call bx n x (st [F] h w) = BNx (st [("ct", Vl (BPtr (List.length h) [])) :: F] (h ++ [combo_struct "AllConstraint" BNil]) w))
      by (stepsb; rewrite src_all; stepsb; reflexivity); rewrite H0; clear H0; cbn [bends] end.
    clear HC. generalize dependent (h ++ [combo_struct "AllConstraint" BNil]). intros h1 HA HC.
    remember (List.length h) as a eqn:Ea. destruct (combo_cell _ _ _ _ _ Ea HA) as (va & Ha).
    rewrite brun_cons.
    match goal with |- context [bexec ?cx ?call ?bx ?n ?x (st ?E h1 w)] =>
      assert (Hcomb : outcome (fun m => [BNil; BMsg m]) (bexec cx call bx n x (st E h1 w)) (comb_of c R w) (ct_state h E)) end.
    { unfold comb_of. destruct (sc_not c) as [|cn] eqn:En.
      - assert (El : forall l, (0 <? Z.of_nat (List.length (map of_schema l)))%Z = match l with [] => false | _ => true end) by (intros []; reflexivity).
        pose proof (El (sc_allOf c)) as E1. destruct (sc_allOf c) as [|s1 l1] eqn:E1'; [|rewrite <- E1' in Hall, E1 |- *; clear E1' s1 l1].
        2:{ combination "AllConstraint" is_all src_all (sc_allOf c) Hall h h1 R Ea HA HC. combined "AllConstraint" is_all Ea Eb HA Hloop. eexists. split; [reflexivity|]. split; [reflexivity|]. exists h9. auto. }
        pose proof (El (sc_anyOf c)) as E2. destruct (sc_anyOf c) as [|s1 l1] eqn:E2'; [|rewrite <- E2' in Hany, E2 |- *; clear E2' s1 l1].
        2:{ combination "AnyConstraint" is_any src_any (sc_anyOf c) Hany h h1 R Ea HA HC. combined "AnyConstraint" is_any Ea Eb HA Hloop. eexists. split; [reflexivity|]. split; [reflexivity|]. exists h9. auto. }
        pose proof (El (sc_oneOf c)) as E3. destruct (sc_oneOf c) as [|s1 l1] eqn:E3'; [|rewrite <- E3' in Hone, E3 |- *; clear E3' s1 l1].
        2:{ combination "OneOfConstraint" is_oneOf src_oneOf (sc_oneOf c) Hone h h1 R Ea HA HC. combined "OneOfConstraint" is_oneOf Ea Eb HA Hloop. eexists. split; [reflexivity|]. split; [reflexivity|]. exists h9. auto. }
        stepsb. eexists. split; [reflexivity|]. split; [reflexivity|]. exists h1. auto.
      - unfold Builder.bind, Builder.ret, outcome. stepsb. change (BSch cn) with (of_schema (Sch cn)). rename h1 into h0. use_build Hnot HC.
        + pose proof (combo_keep _ _ _ _ _ _ _ _ HA G1) as HA1. destruct (combo_cell _ _ _ _ _ Ea HA1) as (va1 & Ha1). stepsb. rewrite src_not.
          assert (HA2 : combo_at "AllConstraint" h (h1 ++ [not_struct v1]) []) by (eapply combo_keep; [exact HA1|apply grown_app]).
          assert (HC2 : ctx_ok (h1 ++ [not_struct v1]) R1) by (destruct (ctx_lt _ _ _ _ _ _ HC1) as (? & ? & _); eapply ctx_keep; [exact HC1|now apply cell_old|now apply cell_old]).
          assert (Hrep2 : rep V (S a) (List.length (h1 ++ [not_struct v1])) (h1 ++ [not_struct v1]) (BPtr (List.length h1) []) (CNot y1)).
          { destruct (combo_grown _ _ _ _ HA) as [_ ?]. destruct G1 as [G1 _]. rewrite app_length. cbn [List.length].
            econstructor; [|apply cell_new|]; [lia|]. eapply rep_keep; [exact Hrep1|lia|lia|intros; apply cell_old; lia]. }
          clear Ha1 Hrep1 G1 HC1 HA1. destruct (combo_cell _ _ _ _ _ Ea HA2) as (va2 & Ha2). generalize dependent (h1 ++ [not_struct v1]). intros h2 HA2 HC2 Hrep2 Ha2.
          generalize dependent (List.length h1). intros b Hrep2. stepsb.
          add_to "AllConstraint" is_all Ea HA2 HC2 Hrep2. stepsb. eexists. split; [reflexivity|]. split; [reflexivity|]. exists h9. auto.
        + stepsb. do 2 eexists. split; [reflexivity|assumption].
        + stepsb. eexists. reflexivity. }
    clear Hnot Hall Hany Hone HA HC Ha. unfold Builder.bind at 1. destruct (comb_of c R w) as [[[cs R1] w1]|m|m]; unfold outcome in Hcomb.
    2:{ destruct Hcomb as (m' & s & Hs & Hm). rewrite Hs. stepsb. exists m', (heap s), (bord s). split; [reflexivity|exact Hm]. }
    2:{ destruct Hcomb as (m' & Hs). rewrite Hs. stepsb. eexists. reflexivity. }
    destruct Hcomb as (s & Hs & Hw & h2 & Es2 & HA & HC). rewrite Hs, Es2, Hw. clear s Hs Hw Es2 h1. cbn [bends].
    rewrite brun_cons.
    match goal with |- context [bexec ?cx ?call ?bx ?n ?x (st [?F] h2 w1)] => assert (H0 : bexec cx call bx n x (st [F] h2 w1) = BNx (st [("sts", Vl BNil) :: F] h2 w1))
      by (stepsb; reflexivity); rewrite H0; clear H0; cbn [bends] end.
    rewrite brun_cons.
    match goal with |- context [bexec ?cx ?call ?bx ?n ?x (st [(_, _) :: ?F] h2 w1)] =>
      assert (H0 : bexec cx call bx n x (st [("sts", Vl BNil) :: F] h2 w1) = BNx (st [("sts", Vl (types_value (match sc_type c with [] => guess c | l => l end))) :: F] h2 w1)) end.
    { assert (E1 : (0 <? Z.of_nat (List.length (map BTp (sc_type c))))%Z = match sc_type c with [] => false | _ => true end) by (destruct (sc_type c); reflexivity).
      destruct (sc_type c) as [|t l] eqn:E1'.
      - stepsb. rewrite src_guess. stepsb. reflexivity.
      - rewrite <- E1' in E1. rewrite <- E1'. assert (E3 : types_value (sc_type c) = BList (map BTp (sc_type c))) by (rewrite E1'; reflexivity). clear E1' t l. rewrite E3. clear E3.
        stepsb. rewrite repeat_length, Nat2Z.id, Nat.min_id, firstn_all, skipn_all2, app_nil_r by (rewrite repeat_length; lia). reflexivity. }
    rewrite H0; clear H0; cbn [bends].
    rewrite brun_cons.
    match goal with |- context [bexec ?cx ?call ?bx ?n ?x (st [(_, _) :: ?F] h2 w1)] =>
      assert (H0 : bexec cx call bx n x (st [("sts", Vl (types_value (match sc_type c with [] => guess c | l => l end))) :: F] h2 w1) = BNx (st [("sts", Vl (types_value (types_of c))) :: F] h2 w1)) end.
    { unfold types_of. generalize (match sc_type c with [] => guess c | l => l end). intro l. stepsb.
      match goal with |- context [b_sort "sts" (st [?A :: ?F] ?h ?w)] => change (b_sort "sts" (st [A :: F] h w)) with (b_sort "sts" (st [("sts", Vl (types_value l)) :: F] h w)) end.
      rewrite sort_value. reflexivity. }
    rewrite H0; clear H0; cbn [bends].
    rewrite brun_cons.
    destruct (combo_cell _ _ _ _ _ Ea HA) as (va2 & Ha2).
    match goal with |- context [bexec ?cx ?call ?bx ?n ?x (st ?E h2 w1)] =>
      assert (Htyp : outcome (fun m => [BNil; BMsg m]) (bexec cx call bx n x (st E h2 w1)) (typ_of c R1 w1) (fun ts R s => ct_state h E (cs ++ ts) R s)) end.
    { unfold typ_of. destruct (types_of c) as [|t0 l0] eqn:Et.
      - cbn [types_value]. destruct (sc_enum c) as [|g0 l0] eqn:Een; unfold Builder.ret, outcome.
        + stepsb. eexists. split; [reflexivity|]. split; [reflexivity|]. exists h2. rewrite app_nil_r. auto.
        + stepsb. change (BIf g0 :: map BIf l0) with (map BIf (g0 :: l0)). rewrite src_enum_new.
          assert (HA2 : combo_at "AllConstraint" h (h2 ++ [enum_struct (BList (map BIf (g0 :: l0)))]) cs) by (eapply combo_keep; [exact HA|apply grown_app]).
          assert (HC2 : ctx_ok (h2 ++ [enum_struct (BList (map BIf (g0 :: l0)))]) R1) by (destruct (ctx_lt _ _ _ _ _ _ HC) as (? & ? & _); eapply ctx_keep; [exact HC|now apply cell_old|now apply cell_old]).
          assert (Hrep2 : rep V (S a) (List.length (h2 ++ [enum_struct (BList (map BIf (g0 :: l0)))])) (h2 ++ [enum_struct (BList (map BIf (g0 :: l0)))]) (BPtr (List.length h2) []) (CEnum (g0 :: l0))).
          { destruct (combo_grown _ _ _ _ HA) as [_ ?]. rewrite app_length. cbn [List.length]. econstructor; [|apply cell_new|reflexivity]. lia. }
          clear Ha2. destruct (combo_cell _ _ _ _ _ Ea HA2) as (va4 & Ha2). generalize dependent (h2 ++ [enum_struct (BList (map BIf (g0 :: l0)))]). intros h3 HA2 HC2 Hrep2 Ha2.
          generalize dependent (List.length h2). intros b Hrep2. stepsb.
          add_to "AllConstraint" is_all Ea HA2 HC2 Hrep2. stepsb. eexists. split; [reflexivity|]. split; [reflexivity|]. exists h9. auto.
      - assert (Ev : types_value (types_of c) = BList (map BTp (types_of c))) by (rewrite Et; reflexivity).
        assert (El : (0 <? Z.of_nat (List.length (map BTp (types_of c))))%Z = true) by (rewrite Et; reflexivity).
        rewrite <- Et, Ev. clear Et t0 l0 Ev. pose proof (types_typed c) as Hty. generalize dependent (types_of c). intros tys El Hty.
        rename h2 into h1. stepsb. rewrite src_any.
        pose proof (combo_new V sv cc r "AnyConstraint" h1 R1 HC) as HB.
        pose proof (combo_keep _ _ _ _ _ _ (h1 ++ [combo_struct "AnyConstraint" BNil]) _ HA (grown_app _ _ _)) as HA1.
        assert (HCi : ctx_ok (h1 ++ [combo_struct "AnyConstraint" BNil]) R1) by (destruct (ctx_lt _ _ _ _ _ _ HC) as (? & ? & _); eapply ctx_keep; [exact HC|now apply cell_old|now apply cell_old]).
        clear HC Ha2. generalize dependent (h1 ++ [combo_struct "AnyConstraint" BNil]). intros h2 HB HA1 HCi.
        remember (List.length h1) as b eqn:Eb. destruct (combo_cell _ _ _ _ _ Eb HB) as (vb & Hb). destruct (combo_cell _ _ _ _ _ Ea HA1) as (va1 & Ha1).
        stepsb.
        match goal with |- context [brounds ?bx ?body ?def ?kk ?v _ (st ?E h2 ?w)] =>
          assert (Hloop : outcome (fun m => [BNil; BMsg m]) (brounds bx body def kk v (b_indexed 0 (map BTp tys)) (st E h2 w)) (seqM (map (type_of c) tys) R1 w)
            (fun (d : list constr) (R : Builder.names) (s : bst) => exists h3, s = st E h3 (bord s) /\ combo_at "AnyConstraint" h1 h3 d /\ ctx_ok h3 R)) end.
        { pose proof (ents_of BTp tys 0) as He. cbn in He. rewrite He. clear He.
          match goal with |- outcome _ _ _ ?Inv =>
            refine (loop_gen _ _ _ _ _ _ (type_of c) (fun n x => (BInt (Z.of_nat n), BTp x)) Inv (List.length tys) tys [] R1 _ eq_refl _ _) end; [|exists h2; auto].
          clear HB HA1 HCi Hb Ha1 HA. intros t d R0 s0 Hin _ (h0 & Es0 & HB & HC). rewrite Es0. clear Es0. generalize (bord s0). intro w0. clear s0. cbn [fst snd].
          round_starts. unfold outcome. cbv beta. cbn [bord]. clear h2. specialize (Hty _ Hin).
          assert (Hlt : S b <= List.length h0) by (destruct (combo_grown _ _ _ _ HB) as [_ ?]; lia).
          destruct t; cbn [type_of].
          - assert (Hr4 : rep V (List.length h0) (List.length h0) h0 null_struct CNull) by constructor. rename HB into HB4. unfold Builder.ret.
            destruct (combo_cell _ _ _ _ _ Eb HB4) as (vb4 & Hb4). stepsb. add_to "AnyConstraint" is_any Eb HB4 HC Hr4. stepsb.
            eexists. split; [reflexivity|]. split; [reflexivity|]. exists h9. auto.
          - pose proof (slot_integer (S k) c h0 R0 w0 HC Hty) as Hslot. type_made Hslot. type_added Eb HB Hslot.
          - pose proof (slot_string (S k) c h0 R0 w0 HC Hty) as Hslot. type_made Hslot. type_added Eb HB Hslot.
          - pose proof (slot_object k c h0 R0 w0 HC Hp Hq Hap Hd) as Hslot. type_made Hslot.
            match goal with |- context [build_object ?a ?b ?c ?d ?e R0 w0] => destruct (build_object a b c d e R0 w0) as [[[y R2] w2]|m2|m2] end; [type_added Eb HB Hslot|type_err Hslot|type_pn Hslot].
          - pose proof (slot_array (S k) c h0 R0 w0 HC Hi Hai) as Hslot. type_made Hslot.
            match goal with |- context [build_array ?a ?b ?c R0 w0] => destruct (build_array a b c R0 w0) as [[[y R2] w2]|m2|m2] end; [type_added Eb HB Hslot|type_err Hslot|type_pn Hslot].
          - pose proof (slot_boolean (S k) c h0 R0 w0 HC) as Hslot. type_made Hslot. type_added Eb HB Hslot.
          - pose proof (slot_number (S k) c h0 R0 w0 HC Hty) as Hslot. type_made Hslot. type_added Eb HB Hslot.
          - unfold Builder.bad. stepsb. do 2 eexists. split; [reflexivity|]. right. split; [reflexivity|eexists; reflexivity]. }
        combined "AnyConstraint" is_any Ea Eb HA Hloop. eexists. split; [reflexivity|]. split; [reflexivity|]. exists h9. auto. }
    clear HA HC Hi Hai Hp Hq Hap Hd Ha2. unfold Builder.bind at 1. destruct (typ_of c R1 w1) as [[[ts R2] w2]|m|m]; unfold outcome in Htyp.
    2:{ destruct Htyp as (m' & s & Hs & Hm). rewrite Hs. stepsb. exists m', (heap s), (bord s). split; [reflexivity|exact Hm]. }
    2:{ destruct Htyp as (m' & Hs). rewrite Hs. stepsb. eexists. reflexivity. }
    destruct Htyp as (s & Hs & Hw & h3 & Es2 & HA & HC). rewrite Hs, Es2, Hw. clear s Hs Hw Es2 h2. cbn [bends]. unfold Builder.ret.
    destruct (combo_cell _ _ _ _ _ Ea HA) as (va3 & Ha3).
    stepsb. reduced "AllConstraint" is_all Ea HA. stepsb. exists vr, h3. split; [reflexivity|]. split; [exact Hrepr|]. split; [exact HC|].
    exact (proj1 (combo_grown _ _ _ _ HA)).
  Qed.
End All.
