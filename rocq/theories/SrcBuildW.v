(** builder/builder.go:33-108, Build and BuildWithCtx, run from their source. *)
From Verif Require Import Base GoFloat GoValue Maybe Formats Constraint StructInfo Validate Builder SrcSyntax SrcText SrcTextB SrcProg SrcAccess SrcStore SrcProgB SrcStepB SrcSetters SrcSetObj SrcRep SrcBuildS SrcGuess SrcLoop SrcBuildA SrcBuildO SrcBuildAll SrcBuilt SchemaForm.
Open Scope string_scope.
Open Scope list_scope.
Open Scope nat_scope.

Section With.
  Variable D : bv -> resolver.
  Variable tn : nat -> string.
  Notation P := (prog D tn).

  (** the validator at [va]: its root and the constraints registered *)
  Definition validator (h : list bv) (va : nat) (c : constr) (rf : refs) : Prop :=
    exists cm root, cell va h = Some (val_struct (BPtr cm []) "" root) /\
      (exists lo hi, rep (BPtr va []) lo hi h root c) /\
      (cell cm h = Some (map_struct BNil) /\ rf = [] \/
       exists m l, cell cm h = Some (map_struct (BMap m)) /\ cell m h = Some (BMapI l) /\
         Forall2 (fun e p => fst e = BStr (fst p) /\ exists lo hi, rep (BPtr va []) lo hi h (snd e) (snd p)) l rf).
  Definition built_ok (o : bev (list bv)) (e : list bscope) (x : bres) : Prop :=
    match x with
    | Built c rf _ => exists va h w, o = BOk [BPtr va []; BNil] (st e h w) /\ validator h va c rf
    | BErr m => exists m' h w, o = BOk [BNil; BMsg m'] (st e h w) /\ said m' m
    | BPanic _ => exists m', o = BPn m'
    | BOOF => True
    end.

  Lemma ref_get x R : match kget (BStr x) (ref_map R) with Some _ => true | None => false end = match sget x R with Some _ => true | None => false end.
  Proof.
    unfold ref_map. induction R as [|[y u] R IH]; cbn [map kget sget fst]; [reflexivity|]. cbn [kcmp]. rewrite scompare_eqb.
    destruct (String.eqb x y); [reflexivity|exact IH].
  Qed.
  Lemma ref_del x R : kdel (BStr x) (ref_map R) = ref_map (sdel x R).
  Proof.
    unfold ref_map, sdel. induction R as [|[y u] R IH]; cbn [map kdel filter fst]; [reflexivity|]. cbn [kcmp]. rewrite scompare_eqb, IH.
    destruct (String.eqb x y); reflexivity.
  Qed.
  Lemma binary_nil j t s : b_isnil j = Some t -> b_binary "==" j BNil s = BOk [BBool t] s.
  Proof. intro H. unfold b_binary, b_binop, b_eq. destruct j; cbn in H |- *; try discriminate H; injection H as <-; reflexivity. Qed.
  Definition with_rest : list stmt := Eval vm_compute in match funcs_b "Builder.BuildWithCtx" with Some g => skipn (List.length (fn_body g) - 3) (fn_body g) | None => [] end.
  Definition with_finish : list stmt := Eval vm_compute in match funcs_b "Builder.BuildWithCtx" with Some g => skipn (List.length (fn_body g) - 2) (fn_body g) | None => [] end.
  Definition with_body : list stmt := Eval vm_compute in
    match with_rest with SIf _ _ a _ :: _ => match find (fun x => match x with SRange _ _ _ _ _ _ => true | _ => false end) a with Some (SRange _ _ _ _ _ b) => b | _ => [] end | _ => [] end.
  Section Tail.
    Variables (b j j' : bv) (c : scfg) (y : constr) (cc r va cm : nat).
    Hypothesis Hj : as_iface j = j.
    Hypothesis Hnil : b_isnil j = Some true /\ j' = BSch c \/ b_isnil j = Some false /\ j' = j.
    Hypothesis Hva : va <> cm.
    Hypothesis Hcc : cc <> va /\ cc <> cm /\ r <> va /\ r <> cm.
    Notation refs_ok := (refs_ok (BSch c) y cc r va cm).
    Notation val_ok := (val_ok y cc r va cm).
    Notation in_env := (in_env (BSch c) y cc r va cm).
    Definition with_frame (j v1 : bv) : bscope :=
      [("c", Vl v1); ("ctx", Bx cc); ("b", Vl b); ("s", Vl (BSch c)); ("jsctx", Vl j); ("v", Vl (BPtr va [])); ("err", Vl BNil)].
    Lemma src_with_finish k jj v1 h w rf log e : val_ok v1 BNil h rf ->
      built_ok (b_called e (brun (bexec P (bcall P (S (S (S k)))) ["ctx"; "ctx"] (S (S (S k)))) with_finish (st [with_frame jj v1] h w))) e (Built y rf log).
    Proof.
      intros (Hv & HV). pose proof (cell_lt _ _ _ Hv) as Lv. unfold with_finish, with_frame. stepsb. erewrite src_setRoot by exact Hv. stepsb.
      assert (Hk : forall x, x <> va -> cell x (put va (val_struct (BPtr cm []) "" v1) h) = cell x h) by (intros; now apply cell_other).
      assert (Hk' : forall bad x, In va bad -> x < List.length h -> ~ In x bad -> cell x (put va (val_struct (BPtr cm []) "" v1) h) = cell x h) by (intros bad x H1 _ H2; apply Hk; intros ->; now apply H2).
      assert (Hl : List.length h <= List.length (put va (val_struct (BPtr cm []) "" v1) h)) by (rewrite put_length; lia).
      exists va. do 2 eexists. split; [reflexivity|]. exists cm, v1. split; [now apply cell_put|].
      destruct HV as [(H1 & -> & Ho)|(m & l & H1 & H2 & H3 & H4 & Ho)].
      - assert (Hin : In va (specials cc r va cm)) by (left; reflexivity). split.
        + destruct (own_keep va _ h _ _ _ Ho (fun x => Hk' _ x Hin) Hl) as (lo & hi & _ & _ & Hr). eauto.
        + left. split; [rewrite Hk by congruence; exact H1|reflexivity].
      - assert (Hin : In va (m :: specials cc r va cm)) by (right; left; reflexivity). split.
        + destruct (own_keep va _ h _ _ _ Ho (fun x => Hk' _ x Hin) Hl) as (lo & hi & _ & _ & Hr). eauto.
        + right. exists m, l. split; [rewrite Hk by congruence; exact H1|]. split; [rewrite Hk; [exact H3|intros ->; apply H2; left; reflexivity]|].
          pose proof (regs_keep va _ _ _ _ _ H4 (fun x => Hk' _ x Hin) Hl) as H5. clear - H5.
          induction H5 as [|q p l rf [E (lo & hi & _ & _ & Hr)] _ IH]; constructor; [|exact IH]. split; [exact E|]. eauto.
    Qed.
    Definition with_result (n : nat) (rf : refs) (R1 : Builder.names) (w1 : orc) : bres :=
      match R1 with
      | [] => Built y rf []
      | _ :: _ =>
          match range_refs n (compile n (D j')) (keys R1) [] {| c_refs := rf; c_R := R1; c_w := w1; c_log := [] |} with
          | COk s => Built y (c_refs s) (c_log s)
          | CErr m => BErr m
          | CPanic m => BPanic m
          | COOF => BOOF
          end
      end.
    Lemma src_with_rest n rf R1 w1 : with_result n rf R1 w1 <> BOOF -> exists K, forall k, K <= k -> forall e v1 h,
      ctx_ok (BPtr va []) (BSch c) cc r h R1 -> val_ok v1 BNil h rf ->
      built_ok (b_called e (brun (bexec P (bcall P k) ["ctx"; "ctx"] k) with_rest (st [with_frame j v1] h w1))) e (with_result n rf R1 w1).
    Proof.
      intro Hn. destruct R1 as [|q R1'] eqn:ER.
      - exists 3. intros k Hk e v1 h HC HV. do 3 (destruct k as [|k]; [lia|]). pose proof HC as [Hc1 Hc2].
        pose proof (src_with_finish k j v1 h w1 rf [] e HV) as H0. cbn [with_result]. unfold with_rest. rewrite brun_cons. unfold with_frame at 1. stepsb. exact H0.
      - unfold with_result in *. rewrite <- ER in *.
        set (c1 := {| c_refs := rf; c_R := R1; c_w := w1; c_log := [] |}) in *.
        assert (Hj' : as_iface j' = j') by (destruct Hnil as [[_ ->]|[_ ->]]; [reflexivity|exact Hj]).
        assert (Hlen : (0 <? Z.of_nat (List.length (ref_map R1)))%Z = true) by (rewrite ER; reflexivity).
        clear ER q R1'. set (F1 := fun v1 => [[("r", Vl BResolver)]; []; with_frame j' v1]).
        set (Inv := fun (rv : bv) c s => in_env rv (F1 rv) c s).
        assert (Hloop : exists K, forall k F, K <= k -> K <= F -> forall p s, Inv p c1 s ->
          cres_ok (fun m => [BNil; BMsg m]) _ Inv p (blive ["ctx"; "ctx"] F (brun (bexec P (bcall P k) ["ctx"; "ctx"] k) with_body) true (Some "ref") r (map BStr (keys R1)) [] s) (range_refs n (compile n (D j')) (keys R1) [] c1)).
        { apply (live ["ctx"; "ctx"] (fun k => brun (bexec P (bcall P k) ["ctx"; "ctx"] k) with_body) "ref" r (fun m => [BNil; BMsg m]) (compile n (D j')) _ Inv).
          - intros p c0 s (h & -> & _). reflexivity.
          - intros p c0 s H. eapply in_env_keys, H.
          - intros p c0 s w (h & -> & Hh). exists h. split; [reflexivity|exact Hh].
          - intros z c0 Hz. destruct (src_compile D tn (BSch c) j' y cc r va cm Hj' Hva Hcc n z c0 Hz) as [K HK]. exists K. intros k Hk rv s (h & -> & Hh).
            unfold bround, with_body, F1, with_frame. remember (c_w c0) as w0 eqn:Ew0.
            round_starts. stepsb.
            lazymatch goal with |- context [bcall P k "compileReferences" _ (st ?E h w0)] => pose proof (HK k Hk rv E h w0 eq_refl Hh) as H0 end.
            destruct (compile n (D j') z c0) as [c2|m2|m2|]; cbn [comp_ok cres_ok] in *.
            + destruct H0 as (h2 & -> & Hh2). remember (c_w c2) as w2 eqn:Ew2. stepsb. eexists. split; [reflexivity|]. exists h2. rewrite <- Ew2. split; [reflexivity|exact Hh2].
            + destruct H0 as (m' & h2 & w2 & -> & Hm). stepsb. do 2 eexists. split; [reflexivity|exact Hm].
            + destruct H0 as (m' & ->). stepsb. eexists. reflexivity.
            + exact I.
          - intro E. rewrite E in Hn. now elim Hn. }
        destruct Hloop as [K HK]. exists (K + 3). intros k Hk e v1 h HC HV. do 3 (destruct k as [|k]; [lia|]). pose proof HC as [Hc1 Hc2].
        clear Hn. remember (ref_map R1) as lr eqn:Elr. unfold with_rest. rewrite brun_cons. unfold with_frame at 1. destruct Hnil as [[Hn1 Hn2]|[Hn1 Hn2]].
        1: stepsb; rewrite (binary_nil _ _ _ Hn1); stepsb. 2: stepsb; rewrite (binary_nil _ _ _ Hn1); stepsb.
        all: match goal with |- context [b_range P ?call ["ctx"; "ctx"] ?F ?k0 ?v0 ?d ?b (BMap r) ?s] =>
          change (b_range P call ["ctx"; "ctx"] F k0 v0 d b (BMap r) s) with (blive ["ctx"; "ctx"] F (brun (bexec P call ["ctx"; "ctx"] F) with_body) d k0 r (cell_keys r s) [] s);
          assert (Hin : in_env v1 (F1 v1) c1 s) by (exists h; split; [unfold F1; rewrite Hn2; reflexivity|]; split; [exact HC|exact HV]);
          pose proof (HK F F ltac:(lia) ltac:(lia) v1 s Hin) as H0; rewrite (in_env_keys _ _ _ _ _ _ _ _ _ _ Hin); change (keys (c_R c1)) with (keys R1)
        end.
        all: destruct (range_refs n (compile n (D j')) (keys R1) [] c1) as [c2|m2|m2|]; cbn [cres_ok] in *;
          [ destruct H0 as (s2 & -> & h3 & -> & Hh3); remember (c_w c2) as w2 eqn:Ew2;
            pose proof (src_with_finish k j' v1 h3 w2 (c_refs c2) (c_log c2) e (proj2 Hh3)) as H1; revert H1;
            unfold F1, with_frame, with_finish; stepsb; intro H1; exact H1
          | destruct H0 as (m' & s2 & -> & Hm); stepsb; exists m', (heap s2), (bord s2); split; [reflexivity|exact Hm]
          | destruct H0 as (m' & ->); stepsb; eexists; reflexivity
          | exact I ].
    Qed.
  End Tail.
  (** what the four cells made first are *)
  Lemma src_buildWith b j j' n s w h : as_iface j = j -> (b_isnil j = Some true /\ j' = of_schema s \/ b_isnil j = Some false /\ j' = j) ->
    build_with n (D j') s w <> BOOF -> exists K, forall k, K <= k -> forall e,
    built_ok (bcall P k "Builder.BuildWithCtx" [b; of_schema s; j] (st e h w)) e (build_with n (D j') s w).
  Proof.
    intros Hj Hnil Hn. destruct s as [|c].
    { exists 4. intros k Hk e. do 4 (destruct k as [|k]; [lia|]). open_b. cbn [of_schema]. stepsb. exists "nil schema", h, w. split; [reflexivity|now left]. }
    unfold build_with in *.
    remember (h ++ [map_struct BNil]) as ha eqn:Eha. remember (List.length h) as cm eqn:Ecm. remember (List.length ha) as va eqn:Eva.
    remember (ha ++ [val_struct (BPtr cm []) "" BNil]) as hb eqn:Ehb. remember (List.length hb) as r eqn:Er. remember (hb ++ [BMapI []]) as hc eqn:Ehc.
    remember (List.length hc) as cc eqn:Ecc. remember (hc ++ [ctx_struct (BPtr va []) (BSch c) r]) as h0 eqn:Eh0.
    assert (Hl : va = S cm /\ r = S va /\ cc = S r /\ List.length h0 = S cc) by (subst; rewrite ?app_length; cbn [List.length]; lia).
    destruct Hl as (L1 & L2 & L3 & L4).
    assert (Hva : va <> cm) by lia. assert (Hcc : cc <> va /\ cc <> cm /\ r <> va /\ r <> cm) by lia.
    assert (Hm0 : cell cm h0 = Some (map_struct BNil)) by (rewrite Eh0, Ehc, Ehb, Eha; rewrite !cell_old by (rewrite ?app_length; cbn [List.length]; lia); rewrite Ecm; apply cell_new).
    assert (Hv0 : cell va h0 = Some (val_struct (BPtr cm []) "" BNil)) by (rewrite Eh0, Ehc, Ehb; rewrite !cell_old by (rewrite ?app_length; cbn [List.length]; lia); rewrite Eva; apply cell_new).
    assert (HC0 : ctx_ok (BPtr va []) (BSch c) cc r h0 []).
    { split; [rewrite Eh0, Ecc; apply cell_new|]. rewrite Eh0, Ehc. rewrite cell_old by (rewrite app_length; cbn [List.length]; lia). rewrite Er. apply cell_new. }
    assert (Hbuild : forall k, 2 * height (Sch c) + 7 <= k -> builds D tn (BPtr va []) (BSch c) cc r k (Sch c))
      by (intros k Hk; replace k with (2 * height (Sch c) + 4 + (k - (2 * height (Sch c) + 4))) by lia; now apply src_build).
    Ltac starting j Hj Hbuild HC0 Eb Ecm Eha Eva Ehb Er Ehc Ecc Eh0 :=
      lazymatch type of Hbuild with forall k, _ -> builds ?D ?tn ?V ?sv ?cc ?r k ?x =>
      lazymatch goal with Hk : _ <= S (S (S (S ?k))) |- _ =>
        let HB := fresh in
        assert (HB : builds D tn V sv cc r (S (S (S k))) x) by (apply Hbuild; lia); clear Hbuild; cbn [of_schema] in HB |- *;
        open_b;
        repeat match goal with |- context [("jsctx", Vl ?t)] => lazymatch t with j => fail | _ => change t with (as_iface j); rewrite Hj end end;
        stepsb; rewrite src_new; rewrite <- ?Ecm, <- ?Eha, <- ?Eva, <- ?Ehb;
        stepsb; rewrite <- ?Er, <- ?Ehc, <- ?Ecc;
        lazymatch goal with |- context [?hc ++ [BStruct ?T ?l]] => change (hc ++ [BStruct T l]) with (hc ++ [ctx_struct V sv r]) end; rewrite <- Eh0;
        lazymatch goal with |- context [bcall _ _ "buildFromSchema" _ (st ?E ?h0 ?w)] => let H := fresh "Hbuilt" in pose proof (HB E h0 [] w HC0) as H; clear HB; cbv zeta in H; rewrite Eb in H; cbn [of_schema] in H end
      end end.
    destruct (build (Sch c) [] w) as [[[y R] w1]|m|m] eqn:Eb.
    - pose proof (ref_get "#" R) as Hhash. cbn [of_schema] in Hnil.
      destruct (sget "#" R) as [u|]; (destruct (kget (BStr "#") (ref_map R)) as [u'|] eqn:Eg; try discriminate Hhash); clear Hhash.
      + assert (Hn' : with_result j' y n [("#", y)] (sdel "#" R) w1 <> BOOF) by exact Hn.
        destruct (src_with_rest b j j' c y cc r va cm Hj Hnil Hva Hcc n _ _ w1 Hn') as [K HK].
        exists (Nat.max (K + 4) (2 * height (Sch c) + 8)). intros k Hk e. do 4 (destruct k as [|k]; [lia|]).
        starting j Hj Hbuild HC0 Eb Ecm Eha Eva Ehb Er Ehc Ecc Eh0. destruct Hbuilt as (v1 & h1 & -> & Hr1 & HC1 & HG1).
        assert (Hv1 : cell va h1 = Some (val_struct (BPtr cm []) "" BNil)) by (destruct HG1 as [_ G]; rewrite G by lia; exact Hv0).
        assert (Hm1 : cell cm h1 = Some (map_struct BNil)) by (destruct HG1 as [_ G]; rewrite G by lia; exact Hm0).
        assert (Ho1 : own va (specials cc r va cm) h1 v1 y) by (exists (List.length h0), (List.length h1); split; [lia|]; split; [intros x Hx; cbn in Hx; intuition lia|exact Hr1]).
        pose proof HC1 as [Hc1 Hc2]. remember (ref_map R) as lr eqn:Elr. pose proof (cell_lt _ _ _ Hc1) as Lc. pose proof (cell_lt _ _ _ Hc2) as Lr. pose proof (cell_lt _ _ _ Hv1) as Lv. pose proof (cell_lt _ _ _ Hm1) as Lm.
        stepsb. erewrite src_setReference_first by exact Hm1.
        assert (Hk2 : forall x, x < List.length h1 -> x <> cm -> cell x (put cm (map_struct (BMap (List.length h1))) (h1 ++ [BMapI [(BStr "#", v1)]])) = cell x h1) by (intros x Hx Hne; rewrite cell_other by exact Hne; now apply cell_old).
        assert (Hm2 : cell cm (put cm (map_struct (BMap (List.length h1))) (h1 ++ [BMapI [(BStr "#", v1)]])) = Some (map_struct (BMap (List.length h1)))) by (apply cell_put; rewrite app_length; cbn [List.length]; lia).
        assert (Hq2 : cell (List.length h1) (put cm (map_struct (BMap (List.length h1))) (h1 ++ [BMapI [(BStr "#", v1)]])) = Some (BMapI [(BStr "#", v1)])) by (rewrite cell_other by lia; apply cell_new).
        assert (Hl2 : List.length (put cm (map_struct (BMap (List.length h1))) (h1 ++ [BMapI [(BStr "#", v1)]])) = S (List.length h1)) by (rewrite put_length, app_length; cbn [List.length]; lia).
        remember (put cm (map_struct (BMap (List.length h1))) (h1 ++ [BMapI [(BStr "#", v1)]])) as h2 eqn:Eh2. clear Eh2.
        rewrite <- Hk2 in Hc1, Hc2, Hv1 by lia. clear Hm1.
        assert (HC3 : ctx_ok (BPtr va []) (BSch c) cc r (put r (BMapI (kdel (BStr "#") lr)) h2) (sdel "#" R)).
        { split; [rewrite cell_other by lia; exact Hc1|]. rewrite Elr, ref_del. apply cell_put. lia. }
        assert (Ho2 : own va (List.length h1 :: specials cc r va cm) (put r (BMapI (kdel (BStr "#") lr)) h2) v1 y).
        { apply own_keep with (h := h1); [now apply own_more| |rewrite put_length; lia].
          intros x Hx Hni. rewrite cell_other by (intros ->; apply Hni; cbn; tauto). apply Hk2; [exact Hx|]. intros ->. apply Hni. cbn. tauto. }
        assert (HV : val_ok y cc r va cm v1 BNil (put r (BMapI (kdel (BStr "#") lr)) h2) [("#", y)]).
        { split; [rewrite cell_other by lia; exact Hv1|]. right. exists (List.length h1), [(BStr "#", v1)].
          split; [rewrite cell_other by lia; exact Hm2|]. split; [cbn; intuition lia|]. split; [rewrite cell_other by lia; exact Hq2|].
          split; [constructor; [split; [reflexivity|exact Ho2]|constructor]|exact Ho2]. }
        pose proof (HK (S (S (S k))) ltac:(lia) e v1 _ HC3 HV) as H1. revert H1. change (with_result j' y n [("#", y)] (sdel "#" R) w1) with (match sdel "#" R with
          | [] => Built y [("#", y)] []
          | _ :: _ => match range_refs n (compile n (D j')) (keys (sdel "#" R)) [] {| c_refs := [("#", y)]; c_R := sdel "#" R; c_w := w1; c_log := [] |} with
              | COk s => Built y (c_refs s) (c_log s) | CErr m => BErr m | CPanic m => BPanic m | COOF => BOOF end end).
        generalize (match sdel "#" R with
          | [] => Built y [("#", y)] []
          | _ :: _ => match range_refs n (compile n (D j')) (keys (sdel "#" R)) [] {| c_refs := [("#", y)]; c_R := sdel "#" R; c_w := w1; c_log := [] |} with
              | COk s => Built y (c_refs s) (c_log s) | CErr m => BErr m | CPanic m => BPanic m | COOF => BOOF end end). intro res.
        clear HC3 HV Ho2. unfold with_rest, with_frame. stepsb. intro H1. exact H1.
      + assert (Hn' : with_result j' y n [] R w1 <> BOOF) by exact Hn.
        destruct (src_with_rest b j j' c y cc r va cm Hj Hnil Hva Hcc n _ _ w1 Hn') as [K HK].
        exists (Nat.max (K + 4) (2 * height (Sch c) + 8)). intros k Hk e. do 4 (destruct k as [|k]; [lia|]).
        starting j Hj Hbuild HC0 Eb Ecm Eha Eva Ehb Er Ehc Ecc Eh0. destruct Hbuilt as (v1 & h1 & -> & Hr1 & HC1 & HG1).
        assert (Hv1 : cell va h1 = Some (val_struct (BPtr cm []) "" BNil)) by (destruct HG1 as [_ G]; rewrite G by lia; exact Hv0).
        assert (Hm1 : cell cm h1 = Some (map_struct BNil)) by (destruct HG1 as [_ G]; rewrite G by lia; exact Hm0).
        assert (Ho1 : own va (specials cc r va cm) h1 v1 y) by (exists (List.length h0), (List.length h1); split; [lia|]; split; [intros x Hx; cbn in Hx; intuition lia|exact Hr1]).
        assert (HV : val_ok y cc r va cm v1 BNil h1 []) by (split; [exact Hv1|left; auto]).
        pose proof (HK (S (S (S k))) ltac:(lia) e v1 h1 HC1 HV) as H1. revert H1. change (with_result j' y n [] R w1) with (match R with
          | [] => Built y [] []
          | _ :: _ => match range_refs n (compile n (D j')) (keys R) [] {| c_refs := []; c_R := R; c_w := w1; c_log := [] |} with
              | COk s => Built y (c_refs s) (c_log s) | CErr m => BErr m | CPanic m => BPanic m | COOF => BOOF end end).
        generalize (match R with
          | [] => Built y [] []
          | _ :: _ => match range_refs n (compile n (D j')) (keys R) [] {| c_refs := []; c_R := R; c_w := w1; c_log := [] |} with
              | COk s => Built y (c_refs s) (c_log s) | CErr m => BErr m | CPanic m => BPanic m | COOF => BOOF end end). intro res.
        pose proof HC1 as [Hc1 Hc2]. remember (ref_map R) as lr eqn:Elr. unfold with_rest, with_frame. stepsb. intro H1. exact H1.
    - exists (2 * height (Sch c) + 8). intros k Hk e. do 4 (destruct k as [|k]; [lia|]).
      starting j Hj Hbuild HC0 Eb Ecm Eha Eva Ehb Er Ehc Ecc Eh0. destruct Hbuilt as (m' & h1 & w1 & -> & Hm). stepsb. exists m', h1, w1. split; [reflexivity|exact Hm].
    - exists (2 * height (Sch c) + 8). intros k Hk e. do 4 (destruct k as [|k]; [lia|]).
      starting j Hj Hbuild HC0 Eb Ecm Eha Eva Ehb Er Ehc Ecc Eh0. destruct Hbuilt as (m' & ->). stepsb. eexists. reflexivity.
  Qed.

  Lemma with_nil k b c s : bcall P (S k) "Builder.BuildWithCtx" [b; BSch c; BNil] s = bcall P (S k) "Builder.BuildWithCtx" [b; BSch c; BIf GNil] s.
  Proof. open_b. symmetry. open_b. reflexivity. Qed.

  (** builder/builder.go:34-51 *)
  Lemma src_buildSchema a n s w h : cell a h = Some (BStruct "Builder" []) -> build_schema n (D (of_schema s)) s w <> BOOF -> exists K, forall k, K <= k -> forall e,
    built_ok (bcall P k "Builder.Build" [BPtr a []; of_schema s] (st e h w)) e (build_schema n (D (of_schema s)) s w).
  Proof.
    unfold build_schema. intros Ha Hn. destruct s as [|c].
    { exists 4. intros k Hk e. do 4 (destruct k as [|k]; [lia|]). cbn [of_schema]. open_b. stepsb. exists "nil schema", h, w. split; [reflexivity|now left]. }
    destruct (src_buildWith (BPtr a []) (BIf GNil) (of_schema (Sch c)) n (Sch c) w h eq_refl (or_introl (conj eq_refl eq_refl)) Hn) as [K HK].
    exists (S (S K)). intros k Hk e. do 2 (destruct k as [|k]; [lia|]). cbn [of_schema] in HK |- *. open_b.
    pose proof (HK (S k) ltac:(lia)) as H0. clear HK.
    stepsb. rewrite with_nil.
    match goal with |- context [st ?e1 h w] => specialize (H0 e1) end. unfold built_ok in *.
    destruct (build_with n (D (BSch c)) (Sch c) w) as [y rf log|m|m|].
    - destruct H0 as (va & h' & w' & -> & Hv). stepsb. eauto.
    - destruct H0 as (m' & h' & w' & -> & Hv). stepsb. eauto 6.
    - destruct H0 as (m' & ->). stepsb. eauto.
    - exact I.
  Qed.
End With.
