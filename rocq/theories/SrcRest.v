(** The loops of ObjectConstraint.Validate over patterns, remaining names and seen names
    (object.go:437-497). *)
From Verif Require Import Base GoFloat GoValue Maybe Formats Constraint StructInfo Validate Reach SrcSyntax SrcText SrcExec SrcProg SrcStep SrcAccess SrcProps SrcSet SrcPlace SrcObject SrcString SrcLoops.
Open Scope string_scope.
Open Scope list_scope.
Open Scope Z_scope.

Section Rest.
  Variables (cx : ctx) (mrec : recT) (P : constr -> Prop) (I : gval -> Prop).
  Hypothesis Hsite : cx_site cx = orders.
  Hypothesis Hrec : forall c v w u, P c -> I v -> agrees (cx_rec cx c v w u) (mrec c v w).
  Hypothesis Hpres : forall c v w r v' w', P c -> I v -> mrec c v w = (r, v', w') -> I v'.
  Hypothesis Iprop : forall v k i x, I v -> get_prop (deref1 v) k = Some (RV i x) -> I x.
  Hypothesis Iput : forall v k i x x', I v -> get_prop (deref1 v) k = Some (RV i x) -> I x' -> I (put_prop v k x').
  Notation EX k := (exec cx (call_in funcs cx (S (S (S k)))) "ObjectConstraint.Validate").

  (** the state within a round of the loop over the patterns *)
  Definition pat_state (o : objcfg) (lr : loc) (pd : list (val * val)) (src : string) (c : constr) (a : ostate) (w : orc) (s : st) : Prop :=
    let '(v, pm, sn) := a in
    exists vs lf m u, s = {| env_ := [("c", VConstr c); ("pat", VRx src)] :: at_loops o lr vs pd m (name_set (rev sn)) lf; doc := v; ord_w := w; ord_u := u |} /\
      holds_names m pm /\ StronglySorted slt pm /\ (forall x, In x pm -> ~ In x sn) /\ rv_of v = lr /\ I v.
  Definition obj_pat : stmt := Eval vm_compute in nth 1 (body_of obj_pats) SBreak.

  Lemma pat_rounds k o lr pd src c : P c -> forall ns a w s,
    (forall x, In x ns -> In x (snd (fst a))) -> NoDup ns -> pat_state o lr pd src c a w s ->
    went (rounds (run_list (EX k) (body_of obj_pat)) (EId "premain") true (Some "pname") None (name_set ns) s)
      (pat_inner mrec (cx_E cx) src c ns a w) (fun a => fst (fst a)) (pat_state o lr pd src c).
  Proof.
    intro Hc. let t := eval cbv in (body_of obj_pat) in change (body_of obj_pat) with t.
    induction ns as [|x ns IH]; intros [[v pm] sn] w s Hin Hnd Hs.
    { split; [reflexivity|exact Hs]. }
    cbn [fst snd] in *. inversion Hnd as [|? ? Hx Hnd']; subst.
    specialize (fun a w s Hi Hs => IH a w s Hi Hnd' Hs).
    pose proof Hs as Hs0. destruct Hs as (vs & lf & m & u & -> & Hm & Hso & Hdis & Hlr & Iv).
    pose proof (rv_read v) as Hr. rewrite Hlr in Hr.
    assert (Hxm : m_get (VStr x) m = Some VUnit) by (rewrite (holds_get _ _ _ Hm), (proj2 (mem_In x pm) (Hin x (or_introl eq_refl))); reflexivity).
    cbn [name_set map pat_inner]. change (map (fun k : string => (VStr k, VUnit)) ns) with (name_set ns).
    unfold at_loops in *. remember (name_set (rev sn)) as snm eqn:Esn.
    rewrite rounds_cons.
    match goal with |- context [still ?e ?a ?s0] => replace (still e a s0) with true by (cbn; rewrite Hxm; reflexivity) end.
    match goal with |- context [bind_range ?def ?k ?v ?a ?b ?s0] => norm (bind_range def k v a b s0) end; cbv iota.
    steps. destruct (e_rx (cx_E cx) src x); cbn [negb]; steps.
    2: { apply IH; [intros y Hy; apply Hin; right; exact Hy|exact Hs0]. }
    clear Hs0.
    match goal with |- context [call_in funcs cx _ "ObjectConstraint.getProp" _ {| env_ := ?e1; doc := _; ord_w := _; ord_u := _ |}] =>
      pose proof (get_prop_call cx (S k) o lr x e1 v w u _ Hr) as Hg end.
    destruct (get_prop (deref1 v) x) as [pv|] eqn:Hgp; cbn [option_map or_panic] in Hg.
    2: { destruct Hg as [pmsg Hg]. rewrite Hg. steps. repeat split. }
    rewrite Hg. clear Hg.
    assert (Hlp : rread (prop_loc lr (deref1 v) x) v = pv).
    { rewrite <- Hlr. destruct pv as [|i y]; [rewrite (prop_none _ _ Hgp); reflexivity|exact (prop_read _ _ _ _ Hgp)]. }
    assert (Hlw : forall i y y', pv = RV i y -> rwrite (prop_loc lr (deref1 v) x) y' v = put_prop v x y').
    { intros i y y' ->. rewrite <- Hlr. exact (prop_write _ _ _ _ _ Hgp). }
    remember (prop_loc lr (deref1 v) x) as lp eqn:Elp. clear Elp.
    destruct pv as [|i y]; cbn [interface].
    { steps. repeat split. }
    pose proof (Iprop _ _ _ _ Iv Hgp) as Iy.
    assert (Hcont : content lp v = y) by (unfold content; rewrite Hlp; reflexivity).
    steps. pose proof (Hrec c y w u Hc Iy) as Hch. child_agrees Hch; steps; rewrite ?(Hlw i y _ eq_refl); try (repeat split; rewrite ?append_assoc; reflexivity).
    assert (Hnx : ~ In x sn) by (apply Hdis, Hin; left; reflexivity).
    apply IH.
    { intros z Hz. cbn [fst snd]. apply remove_s_In. split; [apply Hin; right; exact Hz|]. intros ->. exact (Hx Hz). }
    exists vs, lf, (m_del (VStr x) m), u'. split.
    { unfold at_loops. cbn [rev]. rewrite <- name_put, <- Esn; [reflexivity|]. intro X. apply in_rev in X. exact (Hnx X). }
    split; [apply holds_del; exact Hm|]. split; [apply remove_sorted; exact Hso|]. split; [|split].
    - intros y0 Hy0 [<-|X]; apply remove_s_In in Hy0 as [Hy0 Hne]; [contradiction|exact (Hdis _ Hy0 X)].
    - rewrite put_rv. exact Hlr.
    - apply (Iput _ _ _ _ _ Iv Hgp). exact (Hpres _ _ _ _ _ _ Hc Iy Hm0).
  Qed.

  Lemma pats_rounds k o lr pd : forall ps a w s, (forall p c, In (p, c) ps -> P c) -> loop_state I o lr pd a w s ->
    went (rounds (run_list (EX k) (body_of obj_pats)) (ESel (EId "o") "patternProperties") true (Some "pat") (Some "c") (pat_entries ps) s)
      (pats_loop mrec (cx_E cx) ps a w) (fun a => fst (fst a)) (loop_state I o lr pd).
  Proof.
    change (body_of obj_pats) with [nth 0 (body_of obj_pats) SBreak; SRange 441 (Some "pname") None true (EId "premain") (body_of obj_pat)].
    let t := eval cbv in (nth 0 (body_of obj_pats) SBreak) in change (nth 0 (body_of obj_pats) SBreak) with t.
    remember (body_of obj_pat) as body eqn:Ebody.
    induction ps as [|[[i src] c] ps IH]; intros [[v pm] sn] w s Hps Hs.
    { split; [reflexivity|exact Hs]. }
    pose proof (Hps _ c (or_introl eq_refl)) as Hc. specialize (fun a w s Hs => IH a w s (fun p c Hin => Hps p c (or_intror Hin)) Hs).
    destruct Hs as (vs & lf & m & u & -> & Hm & Hso & Hdis & Hlr & Iv).
    cbn [pat_entries map fst snd pats_loop]. change (map (fun pc : nat * string * constr => (VRx (snd (fst pc)), VConstr (snd pc))) ps) with (pat_entries ps).
    destruct (shuffle w pm) as [ns w1] eqn:Hsh. unfold at_loops.
    remember (name_set (rev sn)) as snm eqn:Esn. round1. steps.
    assert (Hns : shuffle w (by_key m) = (name_set ns, w1)) by (rewrite (holds_sorted _ _ Hm Hso); unfold name_set; rewrite shuffle_map_, Hsh; reflexivity).
    pose proof (shuffle_perm _ _ _ _ Hsh) as Hp.
    erewrite range_main; [|rewrite Hsite; reflexivity|rewrite Hsite; exact Hns].
    match goal with |- context [leave (ends_here ?X0 _)] => assert (Hin : went X0 (pat_inner mrec (cx_E cx) src c ns (v, pm, sn) w1) (fun a => fst (fst a)) (pat_state o lr pd src c)) end.
    { rewrite Ebody. apply pat_rounds.
      - exact Hc.
      - cbn [fst snd]. intros y Hy. exact (Permutation_in _ (Permutation_sym Hp) Hy).
      - exact (Permutation_NoDup Hp (sorted_nodup _ Hso)).
      - exists vs, lf, m, u. rewrite Esn. repeat split; assumption. }
    match goal with |- context [leave (ends_here ?X0 _)] => set (X := X0) in * end. clearbody X.
    destruct (pat_inner mrec (cx_E cx) src c ns (v, pm, sn) w1) as [[r st'] w2]. unfold went in Hin.
    destruct X as [s'|l s'| | |r' s'|]; try contradiction.
    - destruct Hin as [-> Hs']. destruct st' as [[v' pm'] sn'].
      destruct Hs' as (vs' & lf' & m' & u' & -> & Hs'). cbn [ends_here leave run_list pop env_ doc ord_w ord_u with_env tl next_round]. 
      apply IH. exists vs', lf', m', u'. split; [reflexivity|exact Hs'].
    - destruct l as [|[] []]; try contradiction. destruct Hin as (-> & Hd & Hw). cbn [ends_here leave next_round]. repeat split; assumption.
    - cbn [ends_here leave next_round]. destruct r'; try contradiction; destruct Hin as (Hs & Hd & Hw); destruct r; try discriminate Hs; repeat split; assumption.
  Qed.

  Lemma went_single {A} X (out : res * A * orc) doc_of good exx : went X out doc_of good -> went (ends_here X (run_list exx [])) out doc_of good.
  Proof. destruct out as [[r a] w], X; cbn [ends_here run_list]; intro H; exact H. Qed.

  (** object.go:437-461 *)
  Lemma pats_stage k o lr pd a w s : (forall p c, In (p, c) (o_pats o) -> P c) -> loop_state I o lr pd a w s ->
    went (run_list (EX k) [obj_pats] s) (let '(ps, w1) := shuffle w (o_pats o) in pats_loop mrec (cx_E cx) ps a w1) (fun a => fst (fst a)) (loop_state I o lr pd).
  Proof.
    intros Hps Hs. destruct (shuffle w (o_pats o)) as [ps w1] eqn:Hsh. pose proof (shuffle_perm _ _ _ _ Hsh) as Hp.
    change obj_pats with (SRange 437 (Some "pat") (Some "c") true (ESel (EId "o") "patternProperties") (body_of obj_pats)).
    pose proof (fun s Hs => pats_rounds k o lr pd ps a w1 s (fun p c Hin => Hps p c (Permutation_in _ (Permutation_sym Hp) Hin)) Hs) as HR.
    remember (body_of obj_pats) as body eqn:Ebody.
    destruct a as [[v pm] sn]. destruct Hs as (vs & lf & m & u & -> & Hs).
    remember (name_set (rev sn)) as snm eqn:Esn.
    remember o as o' eqn:Eo. destruct o as [oadd opats oprops opdeps oreq omin omax osdeps]. unfold at_loops. 
    replace (o_pats o') with opats in * by (rewrite Eo; reflexivity).
    rewrite Eo. steps.
    erewrite range_main; [|rewrite Hsite; reflexivity|rewrite Hsite; cbn [orders site_of arrange String.eqb Ascii.eqb Bool.eqb Z.eqb Pos.eqb orb]; unfold pat_entries; rewrite shuffle_map_, Hsh; reflexivity].
    fold (pat_entries ps). rewrite <- Eo. apply went_single. apply HR. exists vs, lf, m, u. rewrite Esn. split; [reflexivity|exact Hs].
  Qed.

  (** object.go:463-475 *)
  Definition obj_add1 : stmt := Eval vm_compute in match obj_add with SIf _ _ l _ => nth 2 l SBreak | _ => SBreak end.
  Definition add_state (o : objcfg) (lr : loc) (pd : list (val * val)) (pm sn : list string) (c : constr) (v : gval) (w : orc) (s : st) : Prop :=
    exists vs lf m u, s = {| env_ := [("c", VConstr c)] :: [] :: at_loops o lr vs pd m (name_set (rev sn)) lf; doc := v; ord_w := w; ord_u := u |} /\
      holds_names m pm /\ StronglySorted slt pm /\ (forall x, In x pm -> ~ In x sn) /\ rv_of v = lr /\ I v.
  Lemma add_rounds k o lr pd pm sn c : P c -> forall ns v w s,
    (forall x, In x ns -> In x pm) -> add_state o lr pd pm sn c v w s ->
    went (rounds (run_list (EX k) (body_of obj_add1)) (EId "premain") true (Some "pname") None (name_set ns) s)
      (add_loop mrec c ns v w) (fun v => v) (add_state o lr pd pm sn c).
  Proof.
    intro Hc. let t := eval cbv in (body_of obj_add1) in change (body_of obj_add1) with t.
    induction ns as [|x ns IH]; intros v w s Hin Hs.
    { split; [reflexivity|exact Hs]. }
    specialize (fun v w s Hs => IH v w s (fun x Hx => Hin x (or_intror Hx)) Hs).
    destruct Hs as (vs & lf & m & u & -> & Hm & Hso & Hdis & Hlr & Iv).
    pose proof (rv_read v) as Hr. rewrite Hlr in Hr.
    assert (Hxm : m_get (VStr x) m = Some VUnit) by (rewrite (holds_get _ _ _ Hm), (proj2 (mem_In x pm) (Hin x (or_introl eq_refl))); reflexivity).
    cbn [name_set map add_loop]. change (map (fun k : string => (VStr k, VUnit)) ns) with (name_set ns).
    unfold at_loops in *. remember (name_set (rev sn)) as snm eqn:Esn.
    rewrite rounds_cons.
    match goal with |- context [still ?e ?a ?s0] => replace (still e a s0) with true by (cbn; rewrite Hxm; reflexivity) end.
    match goal with |- context [bind_range ?def ?k ?v ?a ?b ?s0] => norm (bind_range def k v a b s0) end; cbv iota.
    steps.
    match goal with |- context [call_in funcs cx _ "ObjectConstraint.getProp" _ {| env_ := ?e1; doc := _; ord_w := _; ord_u := _ |}] =>
      pose proof (get_prop_call cx (S k) o lr x e1 v w u _ Hr) as Hg end.
    destruct (get_prop (deref1 v) x) as [pv|] eqn:Hgp; cbn [option_map or_panic] in Hg.
    2: { destruct Hg as [pmsg Hg]. rewrite Hg. steps. repeat split. }
    rewrite Hg. clear Hg.
    assert (Hlp : rread (prop_loc lr (deref1 v) x) v = pv).
    { rewrite <- Hlr. destruct pv as [|i y]; [rewrite (prop_none _ _ Hgp); reflexivity|exact (prop_read _ _ _ _ Hgp)]. }
    assert (Hlw : forall i y y', pv = RV i y -> rwrite (prop_loc lr (deref1 v) x) y' v = put_prop v x y').
    { intros i y y' ->. rewrite <- Hlr. exact (prop_write _ _ _ _ _ Hgp). }
    remember (prop_loc lr (deref1 v) x) as lp eqn:Elp. clear Elp.
    destruct pv as [|i y]; cbn [interface].
    { steps. repeat split. }
    pose proof (Iprop _ _ _ _ Iv Hgp) as Iy.
    assert (Hcont : content lp v = y) by (unfold content; rewrite Hlp; reflexivity).
    steps. pose proof (Hrec c y w u Hc Iy) as Hch. child_agrees Hch; steps; rewrite ?(Hlw i y _ eq_refl); try (repeat split; rewrite ?append_assoc; reflexivity).
    apply IH. exists vs, lf, m, u'. rewrite Esn. split; [reflexivity|]. repeat split; try assumption.
    - rewrite put_rv. exact Hlr.
    - apply (Iput _ _ _ _ _ Iv Hgp). exact (Hpres _ _ _ _ _ _ Hc Iy Hm0).
  Qed.

  Lemma add_stage k o lr pd v pm sn w s : (o_add o <> CNil -> P (o_add o)) -> loop_state I o lr pd (v, pm, sn) w s ->
    went (run_list (EX k) [obj_add] s)
      match pm with
      | [] => (Pass, v, w)
      | _ :: _ => match o_add o with CNil => (Fail "additional properties are not allowed", v, w) | c => let '(ns, w1) := shuffle w pm in add_loop mrec c ns v w1 end
      end (fun v => v) (fun v' => loop_state I o lr pd (v', pm, sn)).
  Proof.
    intros Hadd Hs. destruct Hs as (vs & lf & m & u & -> & Hs). pose proof Hs as (Hm & Hso & _).
    unfold obj_add. match goal with |- context [SIf None ?c0 [?a1; ?a2; ?a3] []] => change (SIf None c0 [a1; a2; a3] []) with (SIf None c0 [a1; a2; SRange 469 (Some "pname") None true (EId "premain") (body_of obj_add1)] []) end.
    remember (body_of obj_add1) as body eqn:Ebody.
    remember (name_set (rev sn)) as snm eqn:Esn.
    pose proof (holds_length _ _ Hm) as Hlen.
    remember o as o' eqn:Eo. destruct o as [oadd opats oprops opdeps oreq omin omax osdeps]. unfold at_loops. 
    replace (o_add o') with oadd in * by (rewrite Eo; reflexivity).
    rewrite Eo. steps. rewrite Hlen. destruct pm as [|x0 pm0]; cbn [List.length].
    - change (Z.of_nat 0) with 0. steps. split; [reflexivity|]. rewrite <- Eo. exists vs, lf, m, u. rewrite Esn. split; [reflexivity|exact Hs].
    - replace (0 <? Z.of_nat (S (List.length pm0))) with true by (symmetry; apply Z.ltb_lt; lia). remember (x0 :: pm0) as pm eqn:Epm. steps.
      destruct (is_cnil oadd) eqn:Hnil; [destruct oadd; try discriminate Hnil; steps; repeat split|].
      match goal with |- went _ ?M _ _ => replace M with (let '(ns, w1) := shuffle w pm in add_loop mrec oadd ns v w1) by (destruct oadd; try reflexivity; discriminate Hnil) end.
      specialize (Hadd ltac:(intros ->; discriminate Hnil)).
      destruct (shuffle w pm) as [ns w1] eqn:Hsh. pose proof (shuffle_perm _ _ _ _ Hsh) as Hp.
      assert (Hns : shuffle w (by_key m) = (name_set ns, w1)) by (rewrite (holds_sorted _ _ Hm Hso); unfold name_set; rewrite shuffle_map_, Hsh; reflexivity).
      rewrite <- Eo. steps. erewrite range_main; [|rewrite Hsite; reflexivity|rewrite Hsite; exact Hns].
      match goal with |- context [leave (leave (ends_here ?X0 _))] => assert (Hin : went X0 (add_loop mrec oadd ns v w1) (fun v => v) (add_state o' lr pd pm sn oadd)) end.
      { rewrite Ebody. apply add_rounds; [exact Hadd|intros y Hy; exact (Permutation_in _ (Permutation_sym Hp) Hy)|].
        exists vs, lf, m, u. rewrite Esn. split; [reflexivity|exact Hs]. }
      match goal with |- context [leave (leave (ends_here ?X0 _))] => set (X := X0) in * end. clearbody X.
      destruct (add_loop mrec oadd ns v w1) as [[r v'] w2]. unfold went in Hin.
      destruct X as [s'|l s'| | |r' s'|]; try contradiction.
      + destruct Hin as [-> (vs' & lf' & m' & u' & -> & Hs')]. cbn [ends_here leave run_list pop env_ doc ord_w ord_u with_env tl]. split; [reflexivity|].
        exists vs', lf', m', u'. split; [reflexivity|exact Hs'].
      + destruct l as [|[] []]; try contradiction. destruct Hin as (-> & Hd & Hw). cbn [ends_here leave]. repeat split; assumption.
      + cbn [ends_here leave]. destruct r'; try contradiction; destruct Hin as (Hsr & Hd & Hw); destruct r; try discriminate Hsr; repeat split; assumption.
  Qed.

  (** object.go:477-497 *)
  Definition deps_state (o : objcfg) (lr : loc) (pd : list (val * val)) (sn : list string) (v : gval) (w : orc) (s : st) : Prop :=
    exists vs lf m u, s = {| env_ := at_loops o lr vs pd m (name_set (rev sn)) lf; doc := v; ord_w := w; ord_u := u |} /\ I v.
  Lemma deps_rounds k o lr pd sn : (forall x c, In (x, c) (o_sdeps o) -> P c) -> forall ns v w s,
    (forall x, In x ns -> In x sn) -> deps_state o lr pd sn v w s ->
    went (rounds (run_list (EX k) (body_of obj_deps)) (EId "pseen") true (Some "pname") None (name_set ns) s)
      (deps_loop mrec o sn ns v w) (fun v => v) (deps_state o lr pd sn).
  Proof.
    intro Hc. let t := eval cbv in (body_of obj_deps) in change (body_of obj_deps) with t.
    induction ns as [|x ns IH]; intros v w s Hin Hs.
    { split; [reflexivity|exact Hs]. }
    specialize (fun v w s Hs => IH v w s (fun x Hx => Hin x (or_intror Hx)) Hs).
    pose proof Hs as Hs0. destruct Hs as (vs & lf & m & u & -> & Iv).
    cbn [name_set map deps_loop]. change (map (fun k : string => (VStr k, VUnit)) ns) with (name_set ns).
    assert (Hget : forall y, m_get (VStr y) (name_set (rev sn)) = if mem y sn then Some VUnit else None).
    { intro y. rewrite name_get, (mem_perm y (rev sn) sn); [reflexivity|]. apply Permutation_sym, Permutation_rev. }
    assert (Hxm : m_get (VStr x) (name_set (rev sn)) = Some VUnit) by (rewrite Hget, (proj2 (mem_In x sn) (Hin x (or_introl eq_refl))); reflexivity).
    unfold at_loops in *. remember (name_set (rev sn)) as snm eqn:Esn.
    rewrite rounds_cons.
    match goal with |- context [still ?e ?a ?s0] => replace (still e a s0) with true by (cbn; rewrite Hxm; reflexivity) end.
    match goal with |- context [bind_range ?def ?k ?v ?a ?b ?s0] => norm (bind_range def k v a b s0) end; cbv iota.
    steps. rewrite propdeps_call. unfold prop_deps.
    assert (Hc' : forall c, sget x (o_sdeps o) = Some c -> P c) by (intros c Hsg; apply sget_in in Hsg; exact (Hc _ _ Hsg)).
    set (M2 := match schema_dep o x with CNil => _ | _ => _ end).
    assert (HM : forall c, sget x (o_sdeps o) = Some c -> is_cnil c = false -> M2 = match mrec c v w with (Pass, v', w') => deps_loop mrec o sn ns v' w' | z => z end).
    { intros c Hsg Hcn. unfold M2, schema_dep. rewrite Hsg. destruct c; try reflexivity. discriminate Hcn. }
    assert (HM0 : (sget x (o_sdeps o) = None \/ sget x (o_sdeps o) = Some CNil) -> M2 = deps_loop mrec o sn ns v w).
    { unfold M2, schema_dep. intros [->| ->]; reflexivity. }
    clearbody M2.
    destruct (sget x (o_propdeps o)) as [[|y l]|] eqn:Hpd.
    1, 3: cbn [values map]; steps; try change (0 <? Z.of_nat (List.length (@nil val))) with false; steps; rewrite schemadep_call; destruct (sget x (o_sdeps o)) as [c|] eqn:Hsg;
      [destruct (is_cnil c) eqn:Hcn; [assert (c = CNil) as -> by (destruct c; try discriminate Hcn; reflexivity); rewrite HM0 by (right; reflexivity); steps; apply IH; exact Hs0|]
      |rewrite HM0 by (left; reflexivity); steps; apply IH; exact Hs0];
      rewrite (HM c eq_refl Hcn); steps; rewrite Hcn; steps;
      pose proof (Hrec c v w u (Hc' c eq_refl) Iv) as Hch; child_agrees Hch; steps; try (repeat split; rewrite ?append_assoc; reflexivity).
    1, 2: apply IH; exists vs, lf, m, u'; rewrite Esn; split; [reflexivity|exact (Hpres _ _ _ _ _ _ (Hc' c eq_refl) Iv Hm)].
    assert (Hlen : 0 <? Z.of_nat (List.length (values VStr (y :: l))) = true) by reflexivity.
    remember (values VStr (y :: l)) as dvs eqn:Edvs. steps.
    match goal with |- ?G => match G with context CT [rounds ?B ?C ?df ?kk0 ?vv (indexed 0 dvs) ?s0] =>
      enough (HH : forall l' i, missing_dep sn (y :: l) = missing_dep sn l' ->
         ltac:(let g := context CT [rounds B C df kk0 vv (indexed i (values VStr l')) s0] in exact g)) end end.
    { rewrite Edvs at 1. exact (HH (y :: l) 0 eq_refl). }
    remember (missing_dep sn (y :: l)) as md eqn:Emd. clear Edvs Emd Hlen.
    induction l' as [|z l' IHl]; intros i Hmd.
    - cbn [values map indexed rounds]. cbn [missing_dep find] in Hmd. rewrite Hmd. steps. apply IH. exact Hs0.
    - cbn [values map indexed]. fold (values VStr l'). unfold missing_dep in Hmd. cbn [find] in Hmd. fold (missing_dep sn l') in Hmd. specialize (Hget z).
      round1. steps. rewrite Hget. destruct (mem z sn); cbn [negb] in Hmd.
      + steps. apply IHl. exact Hmd.
      + rewrite Hmd. steps. repeat split.
  Qed.

  Lemma deps_stage k o lr pd v pm sn w s : (forall x c, In (x, c) (o_sdeps o) -> P c) -> loop_state I o lr pd (v, pm, sn) w s ->
    went (run_list (EX k) [obj_deps] s) (let '(ns, w1) := shuffle w sn in deps_loop mrec o sn ns v w1) (fun v => v) (deps_state o lr pd sn).
  Proof.
    intros Hc Hs. destruct (shuffle w sn) as [ns w1] eqn:Hsh. pose proof (shuffle_perm _ _ _ _ Hsh) as Hp.
    change obj_deps with (SRange 477 (Some "pname") None true (EId "pseen") (body_of obj_deps)).
    pose proof (fun s Hs => deps_rounds k o lr pd sn Hc ns v w1 s (fun x Hin => Permutation_in _ (Permutation_sym Hp) Hin) Hs) as HR.
    remember (body_of obj_deps) as body eqn:Ebody.
    destruct Hs as (vs & lf & m & u & -> & _ & _ & _ & _ & Iv).
    assert (Hns : shuffle w (rev (name_set (rev sn))) = (name_set ns, w1)) by (unfold name_set; rewrite <- map_rev, rev_involutive, shuffle_map_, Hsh; reflexivity).
    remember (name_set (rev sn)) as snm eqn:Esn. unfold at_loops. steps.
    erewrite range_main; [|rewrite Hsite; reflexivity|rewrite Hsite; exact Hns].
    apply went_single. apply HR. exists vs, lf, m, u. rewrite Esn. split; [reflexivity|exact Iv].
  Qed.
End Rest.

(** all of it: object.go:324-500 *)
Section Whole.
  Variables (cx : ctx) (mrec : recT) (gd : constr -> dres) (P : constr -> Prop) (I : gval -> Prop).
  Hypothesis Hsite : cx_site cx = orders.
  Hypothesis Hrec : forall c v w u, P c -> I v -> agrees (cx_rec cx c v w u) (mrec c v w).
  Hypothesis Hpres : forall c v w r v' w', P c -> I v -> mrec c v w = (r, v', w') -> I v'.
  Hypothesis Hgd : forall c, P c -> cx_gd cx c = Some (gd c).
  Hypothesis Iprop : forall v k i x, I v -> get_prop (deref1 v) k = Some (RV i x) -> I x.
  Hypothesis Iput : forall v k i x x', I v -> get_prop (deref1 v) k = Some (RV i x) -> I x' -> I (put_prop v k x').
  Hypothesis Iset : forall o k c g v v' pv, P (CObj o) -> In (k, c) (o_props o) -> gd c = DSome g -> I v ->
    get_prop (deref1 v) k = Some pv -> look_prop pv = LMissing -> set_prop (cx_E cx) v k g = GOk v' -> I v'.
  Hypothesis Imaybe : forall m, I (m_value m).
  Hypothesis Inames : forall v l, I v -> get_names (deref1 v) = GOk l -> StronglySorted slt l.
  Notation EX k := (exec cx (call_in funcs cx (S (S (S k)))) "ObjectConstraint.Validate").

  (** object.go:373-435 *)
  Lemma props_stage k o lr ps0 a w s : P (CObj o) -> (forall x c, In (x, c) (o_props o) -> P c) -> StronglySorted (slt_by fst) (o_props o) -> Permutation (o_props o) ps0 ->
    snd a = [] -> loop_state I o lr (entries VConstr ps0) a w s ->
    went (run_list (EX k) [obj_props] s) (let '(ps, w1) := shuffle w (o_props o) in props_loop mrec gd (cx_E cx) o ps a w1) (fun a => fst (fst a)) (loop_state I o lr (entries VConstr ps0)).
  Proof.
    intros Ho Hc Hso Hp0 Ha Hs. destruct (shuffle w (o_props o)) as [ps w1] eqn:Hsh. pose proof (shuffle_perm _ _ _ _ Hsh) as Hp.
    change obj_props with (SRange 373 (Some "pname") (Some "c") true (EId "propdefs") (body_of obj_props)).
    assert (Hns : shuffle w (by_key (entries VConstr ps0)) = (entries VConstr ps, w1)).
    { unfold entries. rewrite (by_key_sorted fst (fun kv : string * constr => (VStr (fst kv), VConstr (snd kv))) (fun _ => eq_refl) ps0 (o_props o) (Permutation_sym Hp0) Hso).
      rewrite shuffle_map_, Hsh. reflexivity. }
    assert (HR : forall s, loop_state I o lr (entries VConstr ps0) a w1 s -> went (rounds (run_list (EX k) (body_of obj_props)) (EId "propdefs") true (Some "pname") (Some "c") (entries VConstr ps) s)
      (props_loop mrec gd (cx_E cx) o ps a w1) (fun a => fst (fst a)) (loop_state I o lr (entries VConstr ps0))).
    { intros s' Hs'. apply (props_rounds cx mrec gd P I Hrec Hpres Hgd Iprop Iput Iset Imaybe k o lr _ Ho); [| | |exact Hs'].
      - intros x c Hin. assert (Hin' : In (x, c) (o_props o)) by exact (Permutation_in _ (Permutation_sym Hp) Hin). split; [exact Hin'|split; [exact (Hc _ _ Hin')|]].
        rewrite m_get_entries. assert (Hk : In x (keys ps0)) by (apply (Permutation_in _ (Permutation_map fst Hp0)); apply (in_map fst _ _ Hin')).
        apply sget_some_keys in Hk as [y ->]. discriminate.
      - exact (Permutation_NoDup (Permutation_map fst Hp) (sorted_keys _ _ Hso)).
      - rewrite Ha. intros x _ [].  }
    remember (entries VConstr ps0) as pd eqn:Epd.
    remember (body_of obj_props) as body eqn:Ebody.
    destruct a as [[v pm] sn]. destruct Hs as (vs & lf & m & u & -> & Hs).
    remember (name_set (rev sn)) as snm eqn:Esn. unfold at_loops. steps.
    erewrite range_main; [|rewrite Hsite; reflexivity|rewrite Hsite; exact Hns].
    apply went_single. apply HR. exists vs, lf, m, u. rewrite Esn. split; [reflexivity|exact Hs].
  Qed.

  Theorem object_call k o d w u e : P (CObj o) -> (forall x c, In (x, c) (o_props o) -> P c) -> (forall p c, In (p, c) (o_pats o) -> P c) ->
    (o_add o <> CNil -> P (o_add o)) -> (forall x c, In (x, c) (o_sdeps o) -> P c) -> StronglySorted (slt_by fst) (o_props o) -> I d ->
    ended e (call_in funcs cx (S (S (S (S k)))) "ObjectConstraint.Validate" [VObj (CObj o); VIf LRoot] {| env_ := e; doc := d; ord_w := w; ord_u := u |})
      (obj_validate mrec gd (cx_E cx) o d w).
  Proof.
    intros Ho H1 H2 H3 H4 Hso Id.
    open_call.
    match goal with |- context [run_list ?exx ?L ?s0] => change L with (obj_head ++ obj_names ++ obj_mid ++ [obj_props] ++ [obj_pats] ++ [obj_add] ++ [obj_deps] ++ [SReturn [EId "nil"]]);
      rewrite (run_app exx obj_head) end.
    apply (head cx). rewrite run_app. apply (names cx Hsite k o e d w u (rv_of d)); [reflexivity|].
    unfold obj_validate. remember (rv_of d) as lr eqn:Elr. destruct (get_names (deref1 d)) as [fields|m|m] eqn:Hgn; [|reflexivity|reflexivity].
    cbv zeta. destruct ((-1 <? o_min o) && _); [reflexivity|]. destruct ((-1 <? o_max o) && _); [reflexivity|].
    intros ns u' Hperm. pose proof (Inames _ _ Id Hgn) as Hsf.
    rewrite run_app. apply (mid cx Hsite k o e d w u' lr _ _ fields ns Hperm (sorted_nodup _ Hsf)); [exact (sorted_keys fst _ Hso)|].
    intros pd pm lf vs u2 (ps0 & -> & Hps0) Hpm. rewrite run_app.
    eapply went_ended.
    { apply (props_stage k o lr ps0 (d, fields, []) w _ Ho H1 Hso Hps0 eq_refl).
      exists vs, lf, pm, u2. split; [reflexivity|]. repeat split; try assumption; [intros x _ []|symmetry; exact Elr]. }
    destruct (shuffle w (o_props o)) as [ps w1]. destruct (props_loop _ _ _ _ _ _ _) as [[r1 st1] w2].
    destruct r1; [|destruct st1 as [[? ?] ?]; reflexivity..].
    intros s1 Hs1. rewrite run_app. eapply went_ended.
    { apply (pats_stage cx mrec P I Hsite Hrec Hpres Iprop Iput k o lr _ _ _ _ H2 Hs1). }
    destruct (shuffle w2 (o_pats o)) as [pats w3]. destruct (pats_loop _ _ _ _ _) as [[r2 [[v4 pm4] sn4]] w4].
    destruct r2; try reflexivity.
    intros s2 Hs2. rewrite run_app. eapply went_ended.
    { apply (add_stage cx mrec P I Hsite Hrec Hpres Iprop Iput k o lr _ _ _ _ _ _ H3 Hs2). }
    match goal with |- match ?M with _ => _ end => destruct M as [[r3 v6] w6] end.
    destruct r3; try reflexivity.
    intros s3 Hs3. rewrite run_app. eapply went_ended.
    { apply (deps_stage cx mrec P I Hsite Hrec Hpres k o lr _ _ _ _ _ _ H4 Hs3). }
    destruct (shuffle w6 sn4) as [dn w7]. destruct (deps_loop _ _ _ _ _ _) as [[r4 v8] w8]. destruct r4; try reflexivity.
    intros s4 (vs4 & lf4 & m4 & u4 & -> & _). unfold at_loops. steps. ended_.
  Qed.
End Whole.
