(** Running the loops of ObjectConstraint.Validate (object.go:373-497). *)
From Verif Require Import Base GoFloat GoValue Maybe Formats Constraint StructInfo Validate Reach SrcSyntax SrcText SrcExec SrcProg SrcStep SrcAccess SrcProps SrcSet SrcPlace SrcObject SrcString.
Open Scope string_scope.
Open Scope list_scope.
Open Scope Z_scope.

(** a statement ended as the model's loop: with a verdict, or going on in a good state *)
Definition went {A} (X : oc) (out : res * A * orc) (doc_of : A -> gval) (good : A -> orc -> st -> Prop) : Prop :=
  let '(r, a, w) := out in
  match X with
  | Nx s => r = Pass /\ good a w s
  | Rt [VErr m] s => r = Fail m /\ doc s = doc_of a /\ ord_w s = w
  | AbS (Panic _ as r') s | AbS (OOF as r') s => same_res r' r /\ doc s = doc_of a /\ ord_w s = w
  | _ => False
  end.
Lemma went_ended {A} e X (out : res * A * orc) doc_of good K b :
  went X out doc_of good ->
  match out with
  | (Pass, a, w) => forall s, good a w s -> ended e (called e (K s)) b
  | (r, a, w) => b = (r, doc_of a, w)
  end -> ended e (called e (ends_here X K)) b.
Proof.
  destruct out as [[r a] w]. unfold went. intros H1 H2. destruct X as [s|l s| | |r' s|]; try contradiction.
  - destruct H1 as [-> Hg]. exact (H2 s Hg).
  - destruct l as [|[] []]; try contradiction. destruct H1 as (-> & Hd & Hw). rewrite H2, <- Hd, <- Hw. exists (Fail m), (ord_u s). split; reflexivity.
  - destruct r'; try contradiction; destruct H1 as (Hs & Hd & Hw); destruct r; try discriminate Hs; rewrite H2, <- Hd, <- Hw; eexists _, (ord_u s); split; try exact Hs; reflexivity.
Qed.

Lemma look_here pv b y : look_prop pv = LHere b y -> (b = false /\ exists i, pv = RV i y) \/ (b = true /\ exists m, y = m_value m).
Proof.
  destruct pv as [|i x]; cbn [look_prop]; [discriminate|]. destruct (is_maybe _).
  - destruct (maybe_of _) as [m|]; [|discriminate]. destruct (m_valid m); [|discriminate]. intro H. injection H as <- <-. right. split; [reflexivity|exists m; reflexivity].
  - intro H. injection H as <- <-. left. split; [reflexivity|exists i; reflexivity].
Qed.
(** run until the rest of the block comes *)
Ltac until rest := repeat (lazymatch goal with |- context [run_list _ rest {| env_ := _; doc := _; ord_w := _; ord_u := _ |}] => fail | _ => step1 || settle end).

Ltac unwrapping H := let rest := match type of H with context [run_list _ ?r {| env_ := [[("propExists", VBool false); _; _; _]; _]; doc := _; ord_w := _; ord_u := _ |}] => r end in until rest.

Section Loops.
  Variables (cx : ctx) (mrec : recT) (gd : constr -> dres) (P : constr -> Prop) (I : gval -> Prop).
  Hypothesis Hsite : cx_site cx = orders.
  Hypothesis Hrec : forall c v w u, P c -> I v -> agrees (cx_rec cx c v w u) (mrec c v w).
  Hypothesis Hpres : forall c v w r v' w', P c -> I v -> mrec c v w = (r, v', w') -> I v'.
  Hypothesis Hgd : forall c, P c -> cx_gd cx c = Some (gd c).
  Hypothesis Iprop : forall v k i x, I v -> get_prop (deref1 v) k = Some (RV i x) -> I x.
  Hypothesis Iput : forall v k i x x', I v -> get_prop (deref1 v) k = Some (RV i x) -> I x' -> I (put_prop v k x').
  Hypothesis Iset : forall o k c g v v' pv, P (CObj o) -> In (k, c) (o_props o) -> gd c = DSome g -> I v ->
    get_prop (deref1 v) k = Some pv -> look_prop pv = LMissing -> set_prop (cx_E cx) v k g = GOk v' -> I v'.
  Hypothesis Imaybe : forall m, I (m_value m).
  Notation EX k := (exec cx (call_in funcs cx (S (S (S k)))) "ObjectConstraint.Validate").

  (** the state of the loops *)
  Definition loop_state (o : objcfg) (lr : loc) (pd : list (val * val)) (a : ostate) (w : orc) (s : st) : Prop :=
    let '(v, pm, sn) := a in
    exists vs lf m u, s = {| env_ := at_loops o lr vs pd m (name_set (rev sn)) lf; doc := v; ord_w := w; ord_u := u |} /\
      holds_names m pm /\ StronglySorted slt pm /\ (forall x, In x pm -> ~ In x sn) /\ rv_of v = lr /\ I v.

  Definition body_of (s : stmt) : list stmt := match s with SRange _ _ _ _ _ b => b | _ => [] end.

  Lemma props_rounds k o lr pd : P (CObj o) -> forall ps a w s,
    (forall x c, In (x, c) ps -> In (x, c) (o_props o) /\ P c /\ m_get (VStr x) pd <> None) -> NoDup (keys ps) ->
    (forall x, In x (keys ps) -> ~ In x (snd a)) -> loop_state o lr pd a w s ->
    went (rounds (run_list (EX k) (body_of obj_props)) (EId "propdefs") true (Some "pname") (Some "c") (entries VConstr ps) s)
      (props_loop mrec gd (cx_E cx) o ps a w) (fun a => fst (fst a)) (loop_state o lr pd).
  Proof.
    intro Ho. let t := eval cbv in (body_of obj_props) in change (body_of obj_props) with t.
    induction ps as [|[x c] ps IH]; intros [[v pm] sn] w s Hps Hnd Hsn Hs.
    { split; [reflexivity|exact Hs]. }
    destruct (Hps x c (or_introl eq_refl)) as (Hin & Hc & Hpd).
    assert (Hps' : forall x c, In (x, c) ps -> In (x, c) (o_props o) /\ P c /\ m_get (VStr x) pd <> None) by (intros; apply Hps; right; assumption).
    cbn [keys map fst] in Hnd, Hsn. inversion Hnd as [|? ? Hx Hnd']; subst. change (map fst ps) with (keys ps) in *.
    assert (Hsn' : forall x, In x (keys ps) -> ~ In x sn) by (intros y Hy; apply Hsn; right; exact Hy).
    assert (Hsn2 : forall y, In y (keys ps) -> ~ In y (x :: sn)) by (intros y Hy [<-|X]; [exact (Hx Hy)|exact (Hsn' y Hy X)]).
    specialize (fun a w s Hsn Hs => IH a w s Hps' Hnd' Hsn Hs).
    destruct Hs as (vs & lf & m & u & -> & Hm & Hso & Hdis & Hlr & Iv).
    pose proof (rv_read v) as Hr. rewrite Hlr in Hr.
    cbn [entries map fst snd props_loop]. change (map (fun kv : string * constr => (VStr (fst kv), VConstr (snd kv))) ps) with (entries VConstr ps).
    unfold at_loops. remember (name_set (rev sn)) as snm eqn:Esn.
    rewrite rounds_cons.
    match goal with |- context [still ?e ?a ?s0] => replace (still e a s0) with true by (cbn; destruct (m_get (VStr x) pd); [reflexivity|contradiction]) end.
    match goal with |- context [bind_range ?def ?k ?v ?a ?b ?s0] => norm (bind_range def k v a b s0) end; cbv iota.
    steps.
    match goal with |- context [call_in funcs cx _ "ObjectConstraint.getProp" _ {| env_ := ?e1; doc := _; ord_w := _; ord_u := _ |}] =>
      pose proof (get_prop_call cx (S k) o lr x e1 v w u _ Hr) as Hg end.
    destruct (get_prop (deref1 v) x) as [pv|] eqn:Hgp; cbn [option_map or_panic] in Hg.
    2: { destruct Hg as [pmsg Hg]. rewrite Hg. steps. repeat split. }
    rewrite Hg. clear Hg.
    assert (Hlp : rread (prop_loc lr (deref1 v) x) v = pv).
    { rewrite <- Hlr. destruct pv as [|i y]; [rewrite (prop_none _ _ Hgp); reflexivity|exact (prop_read _ _ _ _ Hgp)]. }
    assert (Hlw : forall i y y', pv = RV i y -> rwrite (prop_loc lr (deref1 v) x) y' v = put_prop v x y').
    { intros i y y' ->. rewrite <- Hlr. exact (prop_write _ _ _ _ _ Hgp). }
    remember (prop_loc lr (deref1 v) x) as lp eqn:Elp. clear Elp.
    repeat (lazymatch goal with |- context [switch_value] => fail | _ => step1 || settle end).
    match goal with |- ?G => match G with context CT [ends_here (switch_value _ _ _ _ _ {| env_ := [[_; _; ?c0; ?x0]; ?sc]; doc := _; ord_w := _; ord_u := _ |}) (run_list ?exx ?rest)] =>
      assert (Hmiss : look_prop pv = LMissing -> forall lq, ltac:(let g := context CT [run_list exx rest {| env_ := [[("propExists", VBool false); ("pval", VRv lq); c0; x0]; sc]; doc := v; ord_w := w; ord_u := u |}] in exact g));
      [|assert (Hhere : forall b y, look_prop pv = LHere b y -> forall lq i, rread lq v = RV i y -> (forall y', rwrite lq y' v = if b then v else put_prop v x y') ->
          ltac:(let g := context CT [run_list exx rest {| env_ := [[("propExists", VBool true); ("pval", VRv lq); c0; x0]; sc]; doc := v; ord_w := w; ord_u := u |}] in exact g))];
      [| |destruct pv as [|ib y];
          [|destruct (implements_case ib y) as [(Hi & T & a & q & Eib & Ey & Hmb)|[(Hi & Hi2 & mm & Eib & Ey)|(Hi & Hi2 & Hmb)]]; [rewrite Ey, Eib in *| rewrite Ey, Eib in * |]]; until rest] end end.
    - intros Hl lq. rewrite Hl. steps. rewrite required_call. destruct (is_required o x) eqn:Hreq; steps; [repeat split|].
      rewrite (Hgd c Hc). destruct (gd c) as [|g| |] eqn:Hgc; steps.
      + apply IH; [exact Hsn'|]. exists vs, lf, m, u. rewrite Esn. repeat split; assumption.
      + rewrite (Hgd c Hc), Hgc. steps. fold (of_if g).
        match goal with |- context [call_in funcs cx _ "ObjectConstraint.setProp" _ {| env_ := ?e1; doc := _; ord_w := _; ord_u := _ |}] =>
          pose proof (set_prop_call cx k o lr x g e1 v w u) as Hset end.
        rewrite Hr, <- Hlr, set_place, Hlr in Hset.
        destruct (set_prop (cx_E cx) v x g) as [v'|em|em] eqn:Esp; cbn [set_done] in Hset.
        * rewrite Hset. unfold of_if. steps. apply IH; [exact Hsn'|]. exists vs, lf, m, u. rewrite Esn. split; [reflexivity|].
          repeat split; try assumption; [rewrite <- Hlr; exact (set_rv _ _ _ _ _ Esp)|exact (Iset _ _ _ _ _ _ _ Ho Hin Hgc Iv Hgp Hl Esp)].
        * rewrite Hset. steps. repeat split. rewrite !append_assoc. reflexivity.
        * destruct Hset as [pmsg Hset]. rewrite Hset. steps. repeat split.
      + repeat split.
      + repeat split.
    - intros b y Hl lq i Hrq Hwq. rewrite Hl.
      assert (Iy : I y) by (destruct (look_here _ _ _ Hl) as [[-> [j ->]]|[-> [mm ->]]]; [exact (Iprop _ _ _ _ Iv Hgp)|apply Imaybe]).
      assert (Hcont : content lq v = y) by (unfold content; rewrite Hrq; reflexivity).
      assert (Iw : forall y', I y' -> I (if b then v else put_prop v x y'))
        by (intros y' Iy'; destruct (look_here _ _ _ Hl) as [[-> [j ->]]|[-> [mm ->]]]; [exact (Iput _ _ _ _ _ Iv Hgp Iy')|exact Iv]).
      steps. pose proof (Hrec c y w u Hc Iy) as Hch. child_agrees Hch; steps; rewrite ?Hwq; try (repeat split; rewrite ?append_assoc; reflexivity).
      apply IH; [exact Hsn2|]. exists vs, lf, (m_del (VStr x) m), u'. split.
      { unfold at_loops. cbn [rev]. rewrite <- name_put, <- Esn; [reflexivity|]. intro X. apply in_rev in X. exact (Hsn x (or_introl eq_refl) X). }
      split; [apply holds_del; exact Hm|]. split; [apply remove_sorted; exact Hso|]. split; [|split].
      + intros y0 Hy0 [<-|X]; apply remove_s_In in Hy0 as [Hy0 Hne]; [contradiction|exact (Hdis _ Hy0 X)].
      + destruct b; [exact Hlr|rewrite put_rv; exact Hlr].
      + apply Iw. exact (Hpres _ _ _ _ _ _ Hc Iy Hm0).
    - exact (Hmiss eq_refl _).
    - assert (Hl : look_prop (RV false (GPtr T a q)) = match maybe_of (RV false (GPtr T a q)) with None => LPanic | Some m => if m_valid m then LHere true (m_value m) else LMissing end)
        by (cbn [look_prop]; rewrite Hmb; reflexivity).
      remember (maybe_of (RV false (GPtr T a q))) as om eqn:Eom. symmetry in Eom. remember (look_prop (RV false (GPtr T a q))) as lk. clear Heqlk.
      destruct om as [mm|]; [destruct (m_valid mm) eqn:Hval|].
      + unwrapping Hmiss. rewrite Hmb. unwrapping Hmiss. rewrite Eom. unwrapping Hmiss. rewrite Hval. unwrapping Hmiss. rewrite Hmb. unwrapping Hmiss. rewrite Eom. unwrapping Hmiss. 
        exact (Hhere _ _ Hl (LImm (RV true (m_value mm))) true eq_refl (fun _ => eq_refl)).
      + unwrapping Hmiss. rewrite Hmb. unwrapping Hmiss. rewrite Eom. unwrapping Hmiss. rewrite Hval. unwrapping Hmiss. exact (Hmiss Hl lp).
      + unwrapping Hmiss. rewrite Hmb. unwrapping Hmiss. rewrite Eom. unwrapping Hmiss. rewrite Hl. repeat split.
    - assert (Hl : look_prop (RV false (GMaybe mm)) = if m_valid mm then LHere true (m_value mm) else LMissing) by reflexivity.
      assert (Hmb : is_maybe (RV false (GMaybe mm)) = true) by reflexivity.
      assert (Eom : maybe_of (RV false (GMaybe mm)) = Some mm) by reflexivity.
      remember (look_prop (RV false (GMaybe mm))) as lk. clear Heqlk.
      destruct (m_valid mm) eqn:Hval.
      + unwrapping Hmiss. rewrite Hmb. unwrapping Hmiss. rewrite Eom. unwrapping Hmiss. rewrite Hval. unwrapping Hmiss. rewrite Hmb. unwrapping Hmiss. rewrite Eom. unwrapping Hmiss. 
        exact (Hhere _ _ Hl (LImm (RV true (m_value mm))) true eq_refl (fun _ => eq_refl)).
      + unwrapping Hmiss. rewrite Hmb. unwrapping Hmiss. rewrite Eom. unwrapping Hmiss. rewrite Hval. unwrapping Hmiss. exact (Hmiss Hl lp).
    - assert (Hl : look_prop (RV ib y) = LHere false y) by (cbn [look_prop]; rewrite Hmb; reflexivity).
      exact (Hhere _ _ Hl lp ib Hlp (fun y' => Hlw ib y y' eq_refl)).
  Qed.
End Loops.
