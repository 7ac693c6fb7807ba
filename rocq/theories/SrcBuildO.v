(** builder/object.go, run from its source. *)
From Verif Require Import Base GoFloat GoValue Maybe Formats Constraint StructInfo Validate Builder SrcSyntax SrcText SrcTextB SrcProg SrcAccess SrcStore SrcProgB SrcStepB SrcSetters SrcSetObj SrcRep SrcBuildS SrcLoop.
Open Scope string_scope.
Open Scope list_scope.
Open Scope nat_scope.

(** the five maps of an object made at [lo]; it is itself at [lo + 5] *)
Definition maps (lo : nat) : omaps := {| om_pats := lo; om_props := lo + 1; om_deps := lo + 2; om_req := lo + 3; om_sdeps := lo + 4 |}.
Definition dep_ent (e : bv * bv) (p : string * list string) : Prop := fst e = BStr (fst p) /\ slice_items (snd e) = Some (map BStr (snd p)).

Section Obj.
  Variable D : bv -> resolver.
  Variable tn : nat -> string.
  Notation P := (prog D tn).
  Variable V : bv.
  Definition obj_at (lo : nat) (o : objcfg) (h : list bv) : Prop :=
    exists va l1 l2 l3 l5,
      cell (lo + 5) h = Some (obj_struct (o_min o) (o_max o) va (maps lo)) /\ rep V (lo + 6) (List.length h) h va (o_add o) /\
      cell lo h = Some (BMapI l1) /\ rreps V (lo + 6) (List.length h) h l1 (o_pats o) /\
      cell (lo + 1) h = Some (BMapI l2) /\ sreps V (lo + 6) (List.length h) h l2 (o_props o) /\
      cell (lo + 2) h = Some (BMapI l3) /\ Forall2 dep_ent l3 (o_propdeps o) /\
      cell (lo + 3) h = Some (BMapI (map (fun p => (BStr (fst p), BUnit)) (o_req o))) /\
      cell (lo + 4) h = Some (BMapI l5) /\ sreps V (lo + 6) (List.length h) h l5 (o_sdeps o).
  Lemma obj_rep lo o h : obj_at lo o h -> rep V lo (List.length h) h (BPtr (lo + 5) []) (CObj o).
  Proof.
    intros (va & l1 & l2 & l3 & l5 & H0 & Ha & H1 & R1 & H2 & R2 & H3 & R3 & H4 & H5 & R5).
    pose proof (cell_lt _ _ _ H0).
    eapply r_obj with (m := maps lo); cbn [maps om_pats om_props om_deps om_req om_sdeps]; try eassumption; try reflexivity; try lia;
      [eapply rep_keep|eapply rreps_keep|eapply sreps_keep|eapply sreps_keep]; try eassumption; try reflexivity; lia.
  Qed.
  Lemma obj_keep lo o h h' : obj_at lo o h -> List.length h <= List.length h' -> (forall x, lo <= x < List.length h -> cell x h' = cell x h) -> obj_at lo o h'.
  Proof.
    intros (va & l1 & l2 & l3 & l5 & H0 & Ha & H1 & R1 & H2 & R2 & H3 & R3 & H4 & H5 & R5) HL HK.
    pose proof (cell_lt _ _ _ H0).
    exists va, l1, l2, l3, l5. rewrite !HK by lia.
    repeat (split; [first [assumption | eapply rep_keep; [eassumption|lia|lia|intros; apply HK; lia] | eapply rreps_keep; [eassumption|lia|lia|intros; apply HK; lia]
      | eapply sreps_keep; [eassumption|lia|lia|intros; apply HK; lia]]|]).
    eapply sreps_keep; [eassumption|lia|lia|intros; apply HK; lia].
  Qed.
  Variables (e : list bscope) (w : orc) (k : nat).
  (** a setter that leads from [o] to [o'] *)
  Definition obj_step (f : string) (lo : nat) (args : list bv) (h : list bv) (o' : objcfg) : Prop :=
    exists h', bcall P (S (S (S k))) f (BPtr (lo + 5) [] :: args) (st e h w) = BOk [BPtr (lo + 5) []] (st e h' w) /\
      obj_at lo o' h' /\ List.length h' = List.length h /\ (forall x, x < lo -> cell x h' = cell x h).
  Ltac opened H := let H' := fresh in pose proof H as H'; destruct H' as (va & l1 & l2 & l3 & l5 & H0 & Ha & H1 & R1 & H2 & R2 & H3 & R3 & H4 & H5 & R5); pose proof (cell_lt _ _ _ H0).
  Ltac kept X i lo h :=
    let Hk := fresh "Hk" in
    assert (Hk : forall x, x <> lo + i -> cell x (put (lo + i) X h) = cell x h) by (intros; now apply cell_other).
  Ltac same_reps := first [assumption
    | eapply rep_keep; [eassumption|lia|rewrite put_length; lia|intros; apply cell_other; lia]
    | eapply rreps_keep; [eassumption|lia|rewrite put_length; lia|intros; apply cell_other; lia]
    | eapply sreps_keep; [eassumption|lia|rewrite put_length; lia|intros; apply cell_other; lia]
    | rewrite cell_other by lia; assumption
    | apply cell_put; lia ].
  Ltac stepped := split; [|split; [apply put_length|intros; apply cell_other; lia]].
  Lemma step_min n lo o h : obj_at lo o h -> obj_step "ObjectConstraint.MinProperties" lo [BInt n] h (obj_min n o).
  Proof.
    intro H. opened H. eexists. split; [eapply src_obj_min; eassumption|]. stepped.
    exists va, l1, l2, l3, l5. repeat (split; [same_reps|]). same_reps.
  Qed.
  Lemma step_max n lo o h : obj_at lo o h -> obj_step "ObjectConstraint.MaxProperties" lo [BInt n] h (obj_max n o).
  Proof.
    intro H. opened H. eexists. split; [eapply src_obj_max; eassumption|]. stepped.
    exists va, l1, l2, l3, l5. repeat (split; [same_reps|]). same_reps.
  Qed.
  Lemma step_additional v c lo o h : obj_at lo o h -> rep V (lo + 6) (List.length h) h v c ->
    obj_step "ObjectConstraint.AdditionalProperties" lo [v] h (obj_additional c o).
  Proof.
    intros H Hv. opened H. eexists. split; [eapply src_obj_additional; eassumption|]. stepped.
    exists v, l1, l2, l3, l5. split; [same_reps|]. split; [eapply rep_keep; [exact Hv|lia|rewrite put_length; lia|intros; apply cell_other; lia]|].
    repeat (split; [same_reps|]). same_reps.
  Qed.
  Lemma step_addProp x v c lo o h : obj_at lo o h -> rep V (lo + 6) (List.length h) h v c ->
    obj_step "ObjectConstraint.AddProp" lo [BStr x; v] h (obj_addProp x c o).
  Proof.
    intros H Hv. opened H. eexists. split; [eapply src_obj_addProp; [exact H0|exact H2]|]. cbn [maps om_props]. stepped.
    exists va, l1, (kput (BStr x) v l2), l3, l5. do 5 (split; [same_reps|]).
    split; [apply sreps_put; [same_reps|eapply rep_keep; [exact Hv|lia|rewrite put_length; lia|intros; apply cell_other; lia]]|].
    repeat (split; [same_reps|]). same_reps.
  Qed.
  Lemma step_pattern x v c lo o h : obj_at lo o h -> rep V (lo + 6) (List.length h) h v c ->
    obj_step "ObjectConstraint.PatternProperties" lo [BRx x; v] h (obj_pattern x c o).
  Proof.
    intros H Hv. opened H. eexists. split; [eapply src_obj_pattern; [exact H0|exact H1]|]. cbn [maps om_pats]. stepped.
    exists va, (kput (BRx x) v l1), l2, l3, l5. do 3 (split; [same_reps|]).
    split; [apply rreps_put; [same_reps|eapply rep_keep; [exact Hv|lia|rewrite put_length; lia|intros; apply cell_other; lia]]|].
    repeat (split; [same_reps|]). same_reps.
  Qed.
  Lemma step_schemaDep x v c lo o h : obj_at lo o h -> rep V (lo + 6) (List.length h) h v c ->
    obj_step "ObjectConstraint.SchemaDependency" lo [BStr x; v] h (obj_schemaDep x c o).
  Proof.
    intros H Hv. opened H. eexists. split; [eapply src_obj_schemaDep; [exact H0|exact H5]|]. cbn [maps om_sdeps]. stepped.
    exists va, l1, l2, l3, (kput (BStr x) v l5). do 10 (split; [same_reps|]).
    apply sreps_put; [same_reps|eapply rep_keep; [exact Hv|lia|rewrite put_length; lia|intros; apply cell_other; lia]].
  Qed.
  Lemma deps_get x l l' : Forall2 dep_ent l l' -> slice_or_none (kget (BStr x) l) = Some (map BStr (match sget x l' with Some y => y | None => [] end)).
  Proof.
    induction 1 as [|[a b] [a' b'] l l' [H1 H2] Hl IH]; [reflexivity|]. cbn [fst snd] in *. subst a. cbn [kget sget kcmp].
    unfold slice_or_none in *. destruct (String.eqb_spec x a') as [<-|Hn]; [rewrite compare_refl; exact H2|].
    destruct (String.compare x a') eqn:E; try exact IH. apply String.compare_eq_iff in E. now subst.
  Qed.
  Lemma deps_put x y xs l l' : Forall2 dep_ent l l' -> slice_items y = Some (map BStr xs) -> Forall2 dep_ent (kput (BStr x) y l) (sset x xs l').
  Proof.
    intros Hl Hy. induction Hl as [|[a b] [a' b'] l l' [H1 H2] Hl IH]; cbn [kput sset fst snd kcmp] in *; [constructor; [split; [reflexivity|exact Hy]|constructor]|].
    subst a. cbn [kcmp]. destruct (String.compare x a'); repeat (constructor; try assumption; try reflexivity).
  Qed.
  Lemma step_propDep x xs lo o h : obj_at lo o h ->
    obj_step "ObjectConstraint.PropDependency" lo [BStr x; BDots (BList (map BStr xs))] h (obj_propDep x xs o).
  Proof.
    intros H. opened H.
    destruct (src_obj_propDep D tn e h w k (lo + 5) _ _ va (maps lo) H0 l3 x (map BStr xs) (BList (map BStr xs)) _ H3 (deps_get x _ _ R3) eq_refl) as (y & Hy & Hgo).
    eexists. split; [exact Hgo|]. cbn [maps om_deps]. stepped. rewrite <- map_app in Hy.
    exists va, l1, l2, (kput (BStr x) y l3), l5. do 7 (split; [same_reps|]). split; [now apply deps_put|].
    repeat (split; [same_reps|]). same_reps.
  Qed.
  Lemma req_put x (l : list (string * unit)) : kput (BStr x) BUnit (map (fun p => (BStr (fst p), BUnit)) l) = map (fun p => (BStr (fst p), BUnit)) (sset x tt l).
  Proof. exact (ref_put x l). Qed.
  Lemma step_required xs lo o h : obj_at lo o h ->
    obj_step "ObjectConstraint.Required" lo [BDots (BList (map BStr xs))] h (obj_required xs o).
  Proof.
    intros H. opened H. eexists. split; [eapply src_obj_required; [exact H0|exact H4]|]. cbn [maps om_req]. stepped.
    exists va, l1, l2, l3, l5. do 8 (split; [same_reps|]). split; [|repeat (split; [same_reps|]); same_reps].
    rewrite cell_put by lia. do 2 f_equal. cbn [obj_required o_req]. clear.
    generalize (o_req o). induction xs as [|x xs IH]; intro q; cbn [fold_left]; [reflexivity|]. rewrite req_put. apply IH.
  Qed.
End Obj.

(** ** A range over a map of a schema *)
Lemma b_range_map {X} cx call bx n k v body (g : X -> bv * bv) l p w w' E h : shuffle w l = (p, w') ->
  b_range cx call bx n k (Some v) true body (BMapI (map g l)) (st E h w) = brounds bx (brun (bexec cx call bx n) body) true k (Some v) (map g p) (st E h w').
Proof. intro H. unfold b_range. cbn [b_items bord]. change (bord (st E h w)) with w. rewrite shuffle_map_, H. reflexivity. Qed.
Lemma rangeM_eq {K} (l : list (K * schema)) p w w' R : shuffle w l = (p, w') ->
  rangeM (map (fun e => (fst e, build (snd e))) l) R w = seqM (map (fun e => keyM (fst e, build (snd e))) p) R w'.
Proof. intro H. unfold rangeM. rewrite shuffle_map_, H, map_map. reflexivity. Qed.

Lemma seqM_ret {A} (p : list A) : forall R w, seqM (map (@Builder.ret A) p) R w = GOk (p, R, w).
Proof. induction p as [|x p IH]; intros R w; cbn [map seqM]; [reflexivity|]. unfold Builder.bind, Builder.ret at 1. now rewrite IH. Qed.

Section ObjB.
  Variable D : bv -> resolver.
  Variable tn : nat -> string.
  Notation P := (prog D tn).
  Variables (V sv : bv) (cc r : nat).
  Notation ctx_ok := (ctx_ok V sv cc r).
  Notation builds := (builds D tn V sv cc r).
  Definition obj_state (lo : nat) (h : list bv) (E : list bscope) (o : objcfg) (R : Builder.names) (s : bst) : Prop :=
    exists h1, s = st E h1 (bord s) /\ obj_at V lo o h1 /\ ctx_ok h1 R /\ List.length h <= List.length h1 /\ (forall y, y < lo -> y <> r -> cell y h1 = cell y h).
  Lemma obj_stepped lo a h E o o' R h1 f args e w k : a = lo + 5 -> obj_at V lo o h1 -> ctx_ok h1 R -> cc < lo -> r < lo -> List.length h <= List.length h1 ->
    (forall y, y < lo -> y <> r -> cell y h1 = cell y h) -> obj_step D tn V e w k f lo args h1 o' ->
    exists h2, bcall P (S (S (S k))) f (BPtr a [] :: args) (st e h1 w) = BOk [BPtr a []] (st e h2 w) /\ obj_state lo h E o' R (st E h2 w).
  Proof.
    intros -> Ho HC L1 L2 HL HK (h2 & Hgo & Ho2 & Hl2 & Hk2). exists h2. split; [exact Hgo|].
    exists h2. split; [reflexivity|]. split; [exact Ho2|]. split; [eapply ctx_keep; [exact HC|apply Hk2; exact L1|apply Hk2; exact L2]|].
    split; [lia|]. intros y Hy Hn. rewrite Hk2 by exact Hy. now apply HK.
  Qed.
  Lemma obj_cell lo a o h : a = lo + 5 -> obj_at V lo o h -> exists va, cell a h = Some (obj_struct (o_min o) (o_max o) va (maps lo)).
  Proof. intros -> (va & l1 & l2 & l3 & l5 & H0 & _). now exists va. Qed.
  (** after something that only added cells *)
  Lemma obj_grown lo o h h' : obj_at V lo o h -> r < lo -> grown r h h' -> obj_at V lo o h'.
  Proof. intros H L [G1 G2]. eapply obj_keep; [exact H|exact G1|]. intros x Hx. apply G2; lia. Qed.

  Ltac by_setter lem :=
    lazymatch goal with |- context [bcall P (S (S (S ?k))) ?f (BPtr ?a [] :: ?args) (st ?E ?h1 ?w)] =>
      lazymatch goal with Ho : obj_at V ?lo ?o h1, HC : ctx_ok h1 ?R, L1 : cc < ?lo, L2 : r < ?lo, Ea : ?a = ?lo + 5 |- exists s, _ /\ _ /\ obj_state ?lo ?h ?E' ?o' ?R s =>
        let h2 := fresh "h" in let Hgo := fresh "Hgo" in let Hst := fresh "Hst" in
        destruct (obj_stepped lo a h E' o o' R h1 f args E w k) as (h2 & Hgo & Hst);
          [exact Ea|exact Ho|exact HC|exact L1|exact L2|lia|first [assumption|reflexivity]|eapply lem; first [exact Ho|eassumption|solve [constructor]]|
           rewrite Hgo; clear Hgo; stepsb; eexists; split; [reflexivity|split; [reflexivity|exact Hst]]]
      end
    end.
  Ltac unchanged := eexists; split; [reflexivity|split; [reflexivity|]]; eexists; split; [reflexivity|]; repeat (split; [assumption || lia|]); first [assumption|reflexivity].
  (** what is known between two statements *)
  Ltac next_state H :=
    let s := fresh "s" in let Hs := fresh in let Hw := fresh in let h2 := fresh "h" in let Es := fresh in
    lazymatch goal with Ho : obj_at V _ _ ?h1, HC : ctx_ok ?h1 _, HL : _ <= List.length ?h1, HK : forall y, y < _ -> y <> r -> cell y ?h1 = _, Hc : cell _ ?h1 = _ |- _ =>
      clear Ho HC HL HK Hc;
      destruct H as (s & Hs & Hw & h2 & Es & Ho & HC & HL & HK); rewrite Hs, Es, ?Hw; cbn [bends]; try rewrite Hw in Es; clear s Hs Hw Es; clear h1; rename h2 into h1;
      lazymatch goal with Ea : _ = _ + 5 |- _ => let va := fresh "va" in destruct (obj_cell _ _ _ _ Ea Ho) as (va & Hc) end
    end.
  Ltac stage o' :=
    rewrite brun_cons;
    lazymatch goal with HC : ctx_ok ?h1 ?R, HK : forall y, y < ?lo -> y <> r -> cell y ?h1 = cell y ?h |- context [bexec ?cx ?call ?bx ?n ?x (st ?E ?h1 ?w)] =>
      let H := fresh "Hstage" in
      assert (H : exists s, bexec cx call bx n x (st E h1 w) = BNx s /\ bord s = w /\ obj_state lo h E o' R s)
    end.
  Ltac mstage m f :=
    rewrite brun_cons;
    lazymatch goal with HC : ctx_ok ?h1 ?R, HK : forall y, y < ?lo -> y <> r -> cell y ?h1 = cell y ?h |- context [bexec ?cx ?call ?bx ?n ?x (st ?E ?h1 ?w)] =>
      let H := fresh "Hstage" in
      assert (H : outcome (fun msg => [BMsg msg]) (bexec cx call bx n x (st E h1 w)) (m R w) (fun y R' s' => obj_state lo h E (f y) R' s'))
    end.
  Ltac mnext H y := 
    unfold Builder.bind at 1;
    lazymatch type of H with outcome _ _ (?m ?R ?w) _ =>
      let R1 := fresh "R" in let w1 := fresh "w" in let m1 := fresh "m" in
      destruct (m R w) as [[[y R1] w1]|m1|m1];
      [unfold outcome in H; next_state H; try clear R w
      |let m' := fresh "m" in let s1 := fresh "s" in let Hs := fresh in destruct H as (m' & s1 & H & Hs); rewrite H; stepsb; exists m', (heap s1), (bord s1); split; [reflexivity|exact Hs]
      |let m' := fresh "m" in destruct H as (m' & H); rewrite H; stepsb; eexists; reflexivity]
    end.

  Ltac built :=
    lazymatch goal with Hrep1 : rep V (List.length ?h0) _ _ ?v1 ?y1, G1 : grown r ?h0 ?h1, Ho0 : obj_at V ?lo ?o ?h0, L2 : r < ?lo, Ea : ?a = ?lo + 5,
      HK0 : forall y, y < ?lo -> y <> r -> cell y ?h0 = cell y ?h |- _ =>
      let Ho1 := fresh "Ho" in let Hc1 := fresh "Hc" in let va := fresh "va" in
      pose proof (obj_grown lo o h0 h1 Ho0 L2 G1) as Ho1; destruct (obj_cell _ _ _ _ Ea Ho1) as (va & Hc1);
      let Hlt := fresh in
      assert (Hlt : lo + 6 <= List.length h0) by (let va := fresh in let Hc := fresh in destruct (obj_cell _ _ _ _ Ea Ho0) as (va & Hc); apply cell_lt in Hc; lia);
      assert (rep V (lo + 6) (List.length h1) h1 v1 y1) by (eapply rep_keep; [exact Hrep1|exact Hlt|lia|reflexivity]);
      assert (List.length h <= List.length h1) by (destruct G1; lia);
      assert (forall y, y < lo -> y <> r -> cell y h1 = cell y h) by (let y := fresh "y" in intros y ? ?; rewrite (proj2 G1) by (try assumption; lia); now apply HK0);
      clear Ho0 HK0
    end.
  Ltac over_map Hin lem add Sh :=
    rewrite (b_range_map _ _ _ _ _ _ _ _ _ _ _ _ _ _ Sh);
    lazymatch goal with Ho : obj_at V ?lo ?o0 ?h1, HC : ctx_ok ?h1 ?R, HL : _ <= List.length ?h1, HK : forall y, y < _ -> y <> r -> cell y ?h1 = cell y ?h |-
       context [brounds ?bx ?body ?def ?k ?v (map ?g ?p) (st ?E ?h1 ?w')] =>
      let Hloop := fresh "Hloop" in
      assert (Hloop : outcome (fun msg => [BMsg msg]) (brounds bx body def k v (map g p) (st E h1 w')) (seqM (map (fun e => keyM (fst e, build (snd e))) p) R w')
        (fun ys R' s' => obj_state lo h E (fold_left add ys o0) R' s'));
      [ rewrite <- (ents_map g p 0);
        refine (loop_gen bx body def k v _ (fun e => keyM (fst e, build (snd e))) (fun _ => g) (fun d R' s' => obj_state lo h E (fold_left add d o0) R' s')
          (List.length p) p [] R _ eq_refl _ _);
        [clear dependent h1; intros [n x] d R0 s0 Hp0 _ (h0 & -> & Ho0 & HC0 & HL0 & HK0); cbn [fst snd];
         destruct (obj_cell _ _ _ _ ltac:(eassumption) Ho0) as (va00 & Hc00);
         let Hx := fresh "Hx" in pose proof (Hin n x (Permutation_in _ (Permutation_sym (shuffle_perm _ _ _ _ Sh)) Hp0)) as Hx; clear Hp0;
         let w0 := fresh "w" in generalize (bord s0); intro w0; clear s0;
         match goal with |- context [b_bind ?bx ?def ?k ?v ?a1 ?b1 (bpush ?s1)] => let t := evalb (b_bind bx def k v a1 b1 (bpush s1)) in change (b_bind bx def k v a1 b1 (bpush s1)) with t end;
         unfold keyM, Builder.bind, Builder.ret; cbn [fst snd]; change (bord (st E h0 w0)) with w0;
         stepsb; use_build Hx HC0; unfold outcome; cbv beta;
         [rewrite fold_left_app; cbn [fold_left fst snd]; generalize dependent (fold_left add d o0); intros o55 Ho0 Hc00; built; stepsb; by_setter lem
         |stepsb; do 2 eexists; split; [reflexivity|assumption]
         |stepsb; eexists; reflexivity]
        |exists h1; repeat (split; [assumption || reflexivity|]); assumption]
      | ]
    end.

  Lemma src_buildObject k c lo h R w e :
    ctx_ok h R -> obj_at V lo new_obj h -> cc < lo -> r < lo ->
    (forall n x, In (n, x) (sc_props c) -> builds (S (S (S k))) x) -> (forall n x, In (n, x) (sc_pats c) -> builds (S (S (S k))) x) ->
    (forall x, sc_addProps c = Some x -> builds (S (S (S k))) x) -> (forall n x, In (n, x) (sc_depSchemas c) -> builds (S (S (S k))) x) ->
    fills D tn V sv cc r (S (S (S (S k)))) "buildObjectConstraint" (lo + 5) lo c
      (build_object c (map (fun e => (fst e, build (snd e))) (sc_props c)) (map (fun e => (fst e, build (snd e))) (sc_pats c))
         (match sc_addProps c with Some x => build x | None => Builder.ret CNil end) (map (fun e => (fst e, build (snd e))) (sc_depSchemas c))) e h R w.
  Proof.
    intros HC Ho L1 L2 Hp Hq Ha Hd. unfold fills, build_object. cbv zeta.
    remember (lo + 5) as a eqn:Ea.
    destruct (obj_cell _ _ _ _ Ea Ho) as (va0 & Hc0).
    open_b. rewrite brun_cons.
    match goal with |- context [bexec ?cx ?call ?bx ?n ?x ?s0] => assert (H0 : bexec cx call bx n x s0 = BNx s0) by (stepsb; reflexivity); rewrite H0; clear H0; cbn [bends] end.
    assert (Hh : exists h1, h1 = h) by eauto. destruct Hh as (h1 & Hh1).
    rewrite <- Hh1 in HC, Ho, Hc0. match goal with |- context [st ?E h w] => replace (st E h w) with (st E h1 w) by (now rewrite Hh1) end.
    assert (HL : List.length h <= List.length h1) by (rewrite Hh1; lia).
    assert (HK : forall y, y < lo -> y <> r -> cell y h1 = cell y h) by (rewrite Hh1; reflexivity). clear Hh1.
    stage (match sc_required c with [] => new_obj | l => obj_required l new_obj end).
    { destruct (sc_required c) as [|q l] eqn:Eq; stepsb; [unchanged|].
      change (BStr q :: map BStr l) with (map BStr (q :: l)). by_setter step_required. }
    next_state Hstage. generalize dependent (match sc_required c with [] => new_obj | l => obj_required l new_obj end). intros o1 Ho Hc.
    stage (set_opt obj_min (sc_minProps c) o1).
    { destruct (sc_minProps c) as [x|] eqn:Eq; stepsb; [by_setter step_min|unchanged]. }
    next_state Hstage. generalize dependent (set_opt obj_min (sc_minProps c) o1). intros o2 Ho Hc.
    stage (set_opt obj_max (sc_maxProps c) o2).
    { destruct (sc_maxProps c) as [x|] eqn:Eq; stepsb; [by_setter step_max|unchanged]. }
    next_state Hstage. generalize dependent (set_opt obj_max (sc_maxProps c) o2). intros o3 Ho Hc.
    mstage (rangeM (map (fun e : string * schema => (fst e, build (snd e))) (sc_props c))) (fun ps : list (string * constr) => fold_left (fun o e => obj_addProp (fst e) (snd e) o) ps o3).
    { destruct (shuffle w (sc_props c)) as [p w'] eqn:Sh. rewrite (rangeM_eq _ _ _ _ _ Sh). stepsb. unfold schema_map.
      over_map Hp step_addProp (fun o (e : string * constr) => obj_addProp (fst e) (snd e) o) Sh. exact Hloop. }
    mnext Hstage ps. clear Hp. generalize dependent (fold_left (fun o (e : string * constr) => obj_addProp (fst e) (snd e) o) ps o3). intros o4 Ho Hc.
    rename R0 into R. rename w0 into w.
    mstage (rangeM (map (fun e : (nat * string) * schema => (fst e, build (snd e))) (sc_pats c))) (fun ps : list ((nat * string) * constr) => fold_left (fun o e => obj_pattern (fst e) (snd e) o) ps o4).
    { destruct (shuffle w (sc_pats c)) as [p w'] eqn:Sh. rewrite (rangeM_eq _ _ _ _ _ Sh). stepsb.
      over_map Hq step_pattern (fun o (e : (nat * string) * constr) => obj_pattern (fst e) (snd e) o) Sh. exact Hloop. }
    mnext Hstage pts. clear Hq. generalize dependent (fold_left (fun o (e : (nat * string) * constr) => obj_pattern (fst e) (snd e) o) pts o4). intros o5 Ho Hc.
    rename R0 into R. rename w0 into w.
    mstage (match sc_addProps c with
           | None => Builder.ret o5
           | Some SNil => Builder.ret (obj_additional CEmpty o5)
           | Some _ => Builder.bind match sc_addProps c with Some x => build x | None => Builder.ret CNil end (fun x => Builder.ret (obj_additional x o5))
           end) (fun o : objcfg => o).
    { destruct (sc_addProps c) as [[|c']|] eqn:Eq; unfold Builder.bind, Builder.ret, outcome.
      - stepsb. by_setter step_additional.
      - pose proof (Ha _ eq_refl) as Hx. stepsb. change (BSch c') with (of_schema (Sch c')). clear Ha. rename h1 into h0. use_build Hx HC.
        + built. stepsb. by_setter step_additional.
        + stepsb. do 2 eexists. split; [reflexivity|assumption].
        + stepsb. eexists. reflexivity.
      - stepsb. unchanged. }
    mnext Hstage o6. clear Ha. rename R0 into R. rename w0 into w.
    mstage (fun (R : Builder.names) w => let '(p, w') := shuffle w (sc_depNames c) in GOk (p, R, w')) (fun ps : list (string * list string) => fold_left (fun o e => obj_propDep (fst e) (snd e) o) ps o6).
    { cbv beta. destruct (shuffle w (sc_depNames c)) as [p w'] eqn:Sh. stepsb.
      rewrite (b_range_map _ _ _ _ _ _ _ _ _ _ _ _ _ _ Sh).
      match goal with |- context [brounds ?bx ?body ?def ?k ?v (map ?g p) (st ?E _ _)] =>
        rewrite <- (ents_map g p 0);
        pose proof (loop_gen bx body def k v (fun msg => [BMsg msg]) (@Builder.ret (string * list string)) (fun _ => g)
          (fun d R' s' => obj_state lo h E (fold_left (fun o (e : string * list string) => obj_propDep (fst e) (snd e) o) d o6) R' s')
          (List.length p) p [] R (st E h1 w') eq_refl) as Hloop end.
      rewrite seqM_ret in Hloop. apply Hloop; clear Hloop; [|exists h1; repeat (split; [assumption || reflexivity|]); assumption].
      clear dependent h1. intros [n l] d R0 s0 _ _ (h0 & -> & Ho0 & HC0 & HL0 & HK0). cbn [fst snd List.length app].
      destruct (obj_cell _ _ _ _ Ea Ho0) as (va00 & Hc00). unfold outcome, Builder.ret. rewrite fold_left_app. cbn [fold_left fst snd].
      generalize dependent (fold_left (fun o (e : string * list string) => obj_propDep (fst e) (snd e) o) d o6). intros o8 Ho0 Hc00. generalize (bord s0). intro w0. clear s0.
      match goal with |- context [b_bind ?bx ?def ?k ?v ?a1 ?b1 (bpush ?s1)] => let t := evalb (b_bind bx def k v a1 b1 (bpush s1)) in change (b_bind bx def k v a1 b1 (bpush s1)) with t end.
      stepsb. by_setter step_propDep. }
    mnext Hstage dn. generalize dependent (fold_left (fun o (e : string * list string) => obj_propDep (fst e) (snd e) o) dn o6). intros o7 Ho Hc.
    rename R0 into R. rename w0 into w.
    mstage (rangeM (map (fun e : string * schema => (fst e, build (snd e))) (sc_depSchemas c))) (fun ps : list (string * constr) => fold_left (fun o e => obj_schemaDep (fst e) (snd e) o) ps o7).
    { destruct (shuffle w (sc_depSchemas c)) as [p w'] eqn:Sh. rewrite (rangeM_eq _ _ _ _ _ Sh). 
      destruct (0 <? Z.of_nat (List.length (schema_map (sc_depSchemas c))))%Z eqn:Eq.
      - stepsb. unfold schema_map.
        over_map Hd step_schemaDep (fun o (e : string * constr) => obj_schemaDep (fst e) (snd e) o) Sh. clear Sh Hd. unfold outcome in *.
        destruct (seqM _ R w') as [[[ys R'] w2]|m|m].
        + destruct Hloop as (s & -> & Hw & h2 & Es & Ho2 & HC2 & HL2 & HK2). rewrite Es, Hw. stepsb. eexists. split; [reflexivity|]. split; [reflexivity|].
          exists h2. auto.
        + destruct Hloop as (m' & s & -> & Hs). stepsb. do 2 eexists. split; [reflexivity|exact Hs].
        + destruct Hloop as (m' & ->). stepsb. eexists. reflexivity.
      - stepsb. destruct (sc_depSchemas c) as [|x0 l0]; [|cbn in Eq; discriminate Eq]. cbn in Sh. injection Sh as <- <-. cbn [map seqM]. unfold Builder.ret, outcome. unchanged. }
    mnext Hstage ds. stepsb. eexists. split; [reflexivity|].
    split; [rewrite Ea; now apply obj_rep|]. auto.
  Qed.
End ObjB.
