(** Running the source of ObjectConstraint.Validate (object.go:323-500). *)
From Verif Require Import Base GoFloat GoValue Maybe Formats Constraint StructInfo Validate Reach SrcSyntax SrcText SrcExec SrcProg SrcStep SrcAccess SrcProps SrcSet SrcPlace.
Open Scope string_scope.
Open Scope list_scope.
Open Scope Z_scope.

(** its statements *)
Definition obj_body : list stmt := Eval vm_compute in match funcs "ObjectConstraint.Validate" with Some f => fn_body f | None => [] end.
Definition at_ (i : nat) : stmt := nth i obj_body SBreak.
Lemma run_app exx l1 l2 s : run_list exx (l1 ++ l2) s = ends_here (run_list exx l1 s) (run_list exx l2).
Proof. revert s. induction l1 as [|x l1 IH]; intro s; [reflexivity|]. cbn [app]. rewrite !run_cons. destruct (exx x s); try reflexivity. cbn [ends_here]. apply IH. Qed.
Definition obj_head : list stmt := Eval vm_compute in firstn 3 obj_body.
Definition obj_names : list stmt := Eval vm_compute in firstn 7 (skipn 3 obj_body).
Definition obj_mid : list stmt := Eval vm_compute in firstn 5 (skipn 10 obj_body).
Definition obj_props : stmt := Eval vm_compute in at_ 15.
Definition obj_pats : stmt := Eval vm_compute in at_ 16.
Definition obj_add : stmt := Eval vm_compute in at_ 17.
Definition obj_deps : stmt := Eval vm_compute in at_ 18.
Lemma obj_parts : obj_body = obj_head ++ obj_names ++ obj_mid ++ [obj_props] ++ [obj_pats] ++ [obj_add] ++ [obj_deps] ++ [SReturn [EId "nil"]].
Proof. reflexivity. Qed.

Section Object.
  Variables (cx : ctx).
  Hypothesis Hsite : cx_site cx = orders.
  Notation EX k := (exec cx (call_in funcs cx (S (S (S k)))) "ObjectConstraint.Validate").
  (** object.go:325-340 *)
  Lemma head k o e d w u K b :
    ended e (called e (K {| env_ := [[("rv", VRv (rv_of d)); ("o", VObj (CObj o)); ("v", VIf LRoot); ("err", VNil)]]; doc := d; ord_w := w; ord_u := u |})) b ->
    ended e (called e (ends_here (run_list (EX k) obj_head
      {| env_ := [[("o", VObj (CObj o)); ("v", VIf LRoot); ("err", VNil)]]; doc := d; ord_w := w; ord_u := u |}) K)) b.
  Proof.
    intro H. unfold obj_head. steps. rewrite not_interface. destruct (same_str (kind (valueOf d)) "ptr") eqn:Hp.
    - destruct d as [| |T []|T []|T []| | | | | | | |T []]; try discriminate Hp. steps. exact H.
    - assert (Hr : rv_of d = LVal LRoot) by (destruct d; try reflexivity; discriminate Hp). rewrite Hr in H. steps. exact H.
  Qed.
  (** object.go:342-358 *)
  Lemma names k o e d w u lr K R : rv_of d = lr ->
    match get_names (deref1 d) with
    | GErr m => R = (Fail m, d, w)
    | GPanic m => R = (Panic m, d, w)
    | GOk fields =>
        let lf := Z.of_nat (List.length fields) in
        if (-1 <? o_min o) && (lf <? o_min o) then R = (Fail "fewer properties than minProperties", d, w)
        else if (-1 <? o_max o) && (o_max o <? lf) then R = (Fail "more properties than maxProperties", d, w)
        else forall ns u', Permutation fields ns -> ended e (called e (K {| env_ := [[("pseen", VMap []); ("premain", VMap []); ("lf", VInt lf); ("fields", VList (map VStr ns)); ("rv", VRv lr); ("o", VObj (CObj o)); ("v", VIf LRoot); ("err", VNil)]]; doc := d; ord_w := w; ord_u := u' |})) R
    end ->
    ended e (called e (ends_here (run_list (EX k) obj_names
      {| env_ := [[("rv", VRv lr); ("o", VObj (CObj o)); ("v", VIf LRoot); ("err", VNil)]]; doc := d; ord_w := w; ord_u := u |}) K)) R.
  Proof.
    intro Hlr. pose proof (rv_read d) as Hr. rewrite Hlr in Hr. clear Hlr.
    unfold obj_names. remember o as o' eqn:Eo. destruct o as [oadd opats oprops opdeps oreq omin omax osdeps]. intro H.
    replace (o_min o') with omin in H by (rewrite Eo; reflexivity). replace (o_max o') with omax in H by (rewrite Eo; reflexivity).
    steps. 
    match goal with |- context [call_in funcs cx _ "ObjectConstraint.getPropNames" _ {| env_ := ?e1; doc := _; ord_w := _; ord_u := _ |}] =>
      destruct (get_names_call cx Hsite (S k) o' lr e1 d w u _ Hr) as [u' Hc] end.
    destruct (get_names (deref1 d)) as [ks|m|m].
    - destruct Hc as (ns & Hp & Hc). rewrite Hc. clear Hc. cbv zeta in H.
      assert (Hlen : List.length (map VStr ns) = List.length ks) by (rewrite map_length; symmetry; apply Permutation_length; exact Hp).
      remember (map VStr ns) as vs eqn:Evs. rewrite Eo. steps. rewrite Hlen.
      remember (Z.of_nat (List.length ks)) as lf eqn:Elf.
      assert (HK : ((-1 <? omin) && (lf <? omin)) = false -> ((-1 <? omax) && (omax <? lf)) = false ->
        ended e (called e (K {| env_ := [[("pseen", VMap []); ("premain", VMap []); ("lf", VInt lf); ("fields", VList vs); ("rv", VRv lr); ("o", VObj (CObj o')); ("v", VIf LRoot); ("err", VNil)]]; doc := d; ord_w := w; ord_u := u' |})) R).
      { intros X1 X2. rewrite X1, X2 in H. rewrite Evs. exact (H ns u' Hp). }
      assert (HR1 : ((-1 <? omin) && (lf <? omin)) = true -> R = (Fail "fewer properties than minProperties", d, w)) by (intro X; rewrite X in H; exact H).
      assert (HR2 : ((-1 <? omin) && (lf <? omin)) = false -> ((-1 <? omax) && (omax <? lf)) = true -> R = (Fail "more properties than maxProperties", d, w)) by (intros X X2; rewrite X, X2 in H; exact H).
      clear H. rewrite Eo in HK.
      destruct (-1 <? omin); [destruct (lf <? omin)|]; steps.
      1: { rewrite (HR1 eq_refl). ended_. }
      all: destruct (-1 <? omax); [destruct (omax <? lf)|]; steps;
        first [apply (HK eq_refl eq_refl) | rewrite (HR2 eq_refl eq_refl); ended_].
    - rewrite Hc, H. steps. ended_.
    - destruct Hc as [m' Hc]. rewrite Hc, H. steps. ended_.
  Qed.

  (** object.go:360-371: the names of the document, and a copy of the properties *)
  Definition at_loops (o : objcfg) (lr : loc) (vs : list val) (pd pm sn : list (val * val)) (lf : Z) : list scope :=
    [[("propdefs", VMap pd); ("pseen", VMap sn); ("premain", VMap pm); ("lf", VInt lf); ("fields", VList vs); ("rv", VRv lr); ("o", VObj (CObj o)); ("v", VIf LRoot); ("err", VNil)]].
  Lemma mid k o e d w u lr K R fields ns : Permutation fields ns -> NoDup fields -> NoDup (keys (o_props o)) ->
    (forall pd pm lf vs u', (exists ps, pd = entries VConstr ps /\ Permutation (o_props o) ps) -> holds_names pm fields ->
      ended e (called e (K {| env_ := at_loops o lr vs pd pm [] lf; doc := d; ord_w := w; ord_u := u' |})) R) ->
    ended e (called e (ends_here (run_list (EX k) obj_mid
      {| env_ := [[("pseen", VMap []); ("premain", VMap []); ("lf", VInt (Z.of_nat (List.length fields))); ("fields", VList (map VStr ns)); ("rv", VRv lr); ("o", VObj (CObj o)); ("v", VIf LRoot); ("err", VNil)]]; doc := d; ord_w := w; ord_u := u |}) K)) R.
  Proof.
    intros Hp Hn1 Hn2 H. remember (Z.of_nat (List.length fields)) as lf eqn:Elf. remember (map VStr ns) as vs eqn:Evs. unfold obj_mid. steps.
    match goal with |- ?G => match G with context CT [rounds ?B ?C ?df ?kk0 ?vv (indexed 0 vs) {| env_ := [[?a; _; ?b; ?c; ?dd; ?ee; ?ff; ?gg]]; doc := _; ord_w := _; ord_u := _ |}] =>
        enough (HH : forall rest dn i pm, pm = name_set dn -> ns = dn ++ rest ->
           ltac:(let g := context CT [rounds B C df kk0 vv (indexed i (map VStr rest))
                    {| env_ := [[a; ("premain", VMap pm); b; c; dd; ee; ff; gg]]; doc := d; ord_w := w; ord_u := u |}] in exact g)) end end.
    { rewrite Evs. rewrite Evs in HH. exact (HH ns [] 0 [] eq_refl eq_refl). }
    assert (Hnd : NoDup ns) by exact (Permutation_NoDup Hp Hn1).
    assert (Hall : forall pm, pm = name_set ns -> holds_names pm fields) by (intros pm ->; exists ns; split; [reflexivity|apply Permutation_sym; exact Hp]).
    clear Evs. induction rest as [|x rest IH]; intros dn i pm Hpm Hns.
    2: { cbn [map indexed]. round1. steps. apply (IH (dn ++ [x])); [|rewrite <- app_assoc; exact Hns].
         rewrite Hpm. apply name_put. rewrite Hns in Hnd. apply NoDup_remove_2 in Hnd. intro X. apply Hnd. apply in_or_app. left. exact X. }
    rewrite app_nil_r in Hns. rewrite <- Hns in Hpm. specialize (Hall pm Hpm). clear dn Hns Hpm.
    remember o as o' eqn:Eo. destruct o as [oadd opats oprops opdeps oreq omin omax osdeps].
    cbn [map indexed rounds]. rewrite Eo. steps. destruct (shuffle u oprops) as [ps u'] eqn:Hsh.
    erewrite range_aux; [|rewrite Hsite; reflexivity|rewrite Hsite; cbn [orders site_of arrange String.eqb Ascii.eqb Bool.eqb Z.eqb Pos.eqb orb]; unfold entries; rewrite shuffle_map_, Hsh; reflexivity].
    rewrite <- Eo. pose proof (shuffle_perm _ _ _ _ Hsh) as Hps. fold (entries VConstr ps).
    replace oprops with (o_props o') in Hps by (rewrite Eo; reflexivity).
    assert (Hnp : NoDup (keys ps)) by exact (Permutation_NoDup (Permutation_map fst Hps) Hn2).
    specialize (H (entries VConstr ps) pm lf vs u' (ex_intro _ ps (conj eq_refl Hps)) Hall). unfold at_loops in H.
    match goal with |- ?G => match G with context CT [rounds ?B ?C ?df ?kk0 ?vv (entries VConstr ps) {| env_ := [_ :: ?a]; doc := _; ord_w := _; ord_u := _ |}] =>
        enough (HH : forall rest dn pd, pd = entries VConstr dn -> ps = dn ++ rest ->
           ltac:(let g := context CT [rounds B C df kk0 vv (entries VConstr rest)
                    {| env_ := [("propdefs", VMap pd) :: a]; doc := d; ord_w := w; ord_u := u' |}] in exact g)) end end.
    { exact (HH ps [] [] eq_refl eq_refl). }
    clear Hsh. induction rest as [|[x c] rest IH]; intros dn pd Hpd Hd.
    - rewrite app_nil_r in Hd. rewrite <- Hd in Hpd. rewrite <- Hpd in H. cbn [entries map rounds]. rewrite Eo. steps. rewrite Eo in H. exact H.
    - cbn [entries map fst snd]. fold (entries VConstr rest). round1. steps. apply (IH (dn ++ [(x, c)])); [|rewrite <- app_assoc; exact Hd].
      rewrite Hpd. rewrite Hd in Hnp. unfold keys in Hnp. rewrite map_app in Hnp. cbn [map fst] in Hnp. apply NoDup_remove_2 in Hnp.
      assert (Hx : ~ In x (keys dn)) by (intro X; apply Hnp; apply in_or_app; left; exact X). clear - Hx.
      induction dn as [|[y z] dn IH]; [reflexivity|]. cbn [entries map fst snd m_put key_eqb app]. destruct (String.eqb_spec x y) as [->|N]; [exfalso; apply Hx; left; reflexivity|].
      f_equal. apply IH. intro X. apply Hx. right. exact X.
  Qed.
End Object.
