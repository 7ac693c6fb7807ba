(** Running the source of array.go gives what the model says, if it does for the
    constraints of the elements. *)
From Verif Require Import Base GoFloat GoValue Maybe Formats Constraint StructInfo Validate SrcSyntax SrcText SrcExec SrcProg SrcStep.
Open Scope string_scope.
Open Scope list_scope.
Open Scope Z_scope.

Lemma m_get_put k k' v m : m_get (VStr k) (m_put (VStr k') v m) = if String.eqb k k' then Some v else m_get (VStr k) m.
Proof.
  induction m as [|[x y] m IH]; [reflexivity|]. cbn [m_put m_get]. destruct (key_eqb (VStr k') x) eqn:E1.
  - destruct x; try discriminate E1. cbn [key_eqb] in E1. apply String.eqb_eq in E1. subst. cbn [m_get key_eqb].
    destruct (String.eqb k s); reflexivity.
  - cbn [m_get]. rewrite IH. destruct (key_eqb (VStr k) x) eqn:E2; [|reflexivity].
    destruct x; try discriminate E2. cbn [key_eqb] in *. apply String.eqb_eq in E2. subst.
    rewrite String.eqb_sym, E1. reflexivity.
Qed.
Lemma nth_mid {A} (pre : list A) x rest d : nth (List.length pre) (pre ++ x :: rest) d = x.
Proof. induction pre; [reflexivity|assumption]. Qed.
Lemma set_nth_mid {A} (pre : list A) x rest y : set_nth (List.length pre) y (pre ++ x :: rest) = pre ++ y :: rest.
Proof. induction pre as [|a pre IH]; [reflexivity|]. cbn [List.length app set_nth]. f_equal. exact IH. Qed.

Lemma sn_length {A} i (x : A) l : List.length (set_nth i x l) = List.length l.
Proof. revert i. induction l as [|a l IH]; intros [|i]; cbn; auto. Qed.
Lemma sn_forall {A} (Q : A -> Prop) i x l : Forall Q l -> Q x -> Forall Q (set_nth i x l).
Proof. intros H Hx. revert i. induction H as [|a l Ha H IH]; intros [|i]; cbn; constructor; auto. Qed.

Section Array.
  Variables (cx : ctx) (mrec : recT) (P : constr -> Prop) (I : gval -> Prop).
  Hypothesis Hrec : forall c v w u, P c -> I v -> agrees (cx_rec cx c v w u) (mrec c v w).
  Hypothesis Hpres : forall c v w r v' w', P c -> I v -> mrec c v w = (r, v', w') -> I v'.

  Definition sl (T : string) (ifc : bool) (ol : option (list gval)) (l : list gval) : gval :=
    GSlice T ifc (match ol with None => None | Some _ => Some l end).
  Definition of_list (T : string) (ifc : bool) (ol : option (list gval)) (o : res * list gval * orc) : out :=
    let '(r, l, w) := o in (r, sl T ifc ol l, w).
  Definition arr_additional (a : arrcfg) (n : nat) T ifc ol (l : list gval) (w : orc) : out :=
    let lp := List.length (a_pos a) in
    if (0 <? lp)%nat && (lp <? n)%nat then
      if is_cnil (a_add a) then (Fail "additional elements found in array", sl T ifc ol l, w)
      else of_list T ifc ol (idx_loop mrec (map (fun i => (i, a_add a)) (seq (lp - 1) (n - (lp - 1)))) l w)
    else (Pass, sl T ifc ol l, w).
  Definition arr_positional (a : arrcfg) (n : nat) T ifc ol (jobs : list (nat * constr)) (l : list gval) (w : orc) : out :=
    match idx_loop mrec jobs l w with
    | (Pass, l1, w1) => arr_additional a n T ifc ol l1 w1
    | o => of_list T ifc ol o
    end.
  Definition arr_elements (a : arrcfg) (n : nat) T ifc ol (l : list gval) (w : orc) : out :=
    if is_cnil (a_items a) then arr_positional a n T ifc ol (positional_jobs (a_pos a) n) l w
    else of_list T ifc ol (idx_loop mrec (map (fun i => (i, a_items a)) (seq 0 n)) l w).
  Definition arr_slice (E : Constraint.env) (a : arrcfg) (n : nat) T ifc ol (l : list gval) (w : orc) : out :=
    if (-1 <? a_min a) && (Z.of_nat n <? a_min a) then (Fail "fewer items than minItems", sl T ifc ol l, w)
    else if (-1 <? a_max a) && (a_max a <? Z.of_nat n) then (Fail "more items than maxItems", sl T ifc ol l, w)
    else if a_uniq a && negb (uniq_loop E [] l) then (Fail "duplicate element found", sl T ifc ol l, w)
    else arr_elements a n T ifc ol l w.
  Lemma arr_slice_eq E a T ifc ol w :
    let l := match ol with None => [] | Some l => l end in
    arr_validate mrec E a (GSlice T ifc ol) w = arr_slice E a (List.length l) T ifc ol l w.
  Proof.
    cbn zeta. cbn [arr_validate]. unfold arr_slice, arr_elements, arr_positional, arr_additional, of_list, sl.
    assert (Hs : GSlice T ifc ol = GSlice T ifc (match ol with None => None | Some _ => Some (match ol with None => [] | Some l => l end) end))
      by (destruct ol; reflexivity).
    rewrite <- Hs.
    destruct (_ && _); [reflexivity|]. destruct (_ && _); [reflexivity|]. destruct (_ && _); [reflexivity|].
    destruct (a_items a); cbn [is_cnil]; try (destruct (idx_loop _ _ _ _) as [[? ?] ?]; reflexivity).
    destruct (idx_loop _ _ _ _) as [[[] ?] ?]; try reflexivity. destruct (_ && _); [|reflexivity].
    destruct (a_add a); cbn [is_cnil]; try (destruct (idx_loop _ _ _ _) as [[? ?] ?]; reflexivity). reflexivity.
  Qed.

  Lemma array_call k a e d w u :
    P (a_items a) -> P (a_add a) -> Forall P (a_pos a) -> (forall T ifc l, d = GSlice T ifc (Some l) -> Forall I l) ->
    ended e (call_in funcs cx (S k) "ArrayConstraint.Validate" [VObj (CArr a); VIf LRoot] {| env_ := e; doc := d; ord_w := w; ord_u := u |})
      (arr_validate mrec (cx_E cx) a d w).
  Proof.
    intros Hi Ha Hp HI. open_call. steps.
    destruct (same_str (kind (valueOf d)) "slice") eqn:Hk.
    2: { steps. destruct (is_gnil d) eqn:Hg.
         - destruct d; try discriminate Hg. steps. ended_.
         - assert (Hv : valueOf d = RV false d) by (apply valueOf_rv; intros ->; discriminate Hg).
           replace (arr_validate mrec (cx_E cx) a d w) with (Fail ("value must be a slice (was: " +++ typ d +++ ")"), d, w)
             by (destruct d as [| |T []|T []|T []| | | | | | | |T []]; try reflexivity; discriminate).
           steps. ended_. }
    destruct d as [| |T []|T []|T []| |T ifc ol| | | | | |T []]; try discriminate Hk. clear Hk.
    rewrite arr_slice_eq. cbn zeta.
    remember (match ol with Some l => l | None => [] end) as l eqn:El.
    assert (HF : Forall I l) by (subst l; destruct ol; [exact (HI _ _ _ eq_refl)|constructor]).
    assert (HD : GSlice T ifc ol = sl T ifc ol l) by (subst l; destruct ol; reflexivity).
    remember (List.length l) as n eqn:Hl. symmetry in Hl.
    assert (Hn0 : ol = None -> n = O) by (intros ->; subst l n; reflexivity).
    assert (Hlen : match ol with Some x => List.length x | None => 0%nat end = n) by (subst l n; destruct ol; reflexivity).
    remember (GSlice T ifc ol) as D eqn:EDD.
    assert (Hv : valueOf D = RV false (GSlice T ifc ol)) by (subst D; reflexivity).
    unfold arr_slice. rewrite <- HD. destruct a as [items pos add mn mx uq].
    unfold arr_elements, arr_positional, arr_additional. cbn [a_items a_pos a_add a_min a_max a_uniq] in *.
    steps. rewrite Hlen.
    joined_e (if (-1 <? mn) && (Z.of_nat n <? mn) then Fail "fewer items than minItems" else Pass)
      {| env_ := [[("l", VInt (Z.of_nat n)); ("rv", VRv (LVal LRoot)); ("c", VObj (CArr {| a_items := items; a_pos := pos; a_add := add; a_min := mn; a_max := mx; a_uniq := uq |})); ("v", VIf LRoot); ("err", VNil)]]; doc := D; ord_w := w; ord_u := u |}.
    { destruct (-1 <? mn); steps; [destruct (Z.of_nat n <? mn); steps|]; verdict. }
    destruct (_ && _); [failed|]. passed_on. steps.
    joined_e (if (-1 <? mx) && (mx <? Z.of_nat n) then Fail "more items than maxItems" else Pass)
      {| env_ := [[("l", VInt (Z.of_nat n)); ("rv", VRv (LVal LRoot)); ("c", VObj (CArr {| a_items := items; a_pos := pos; a_add := add; a_min := mn; a_max := mx; a_uniq := uq |})); ("v", VIf LRoot); ("err", VNil)]]; doc := D; ord_w := w; ord_u := u |}.
    { destruct (-1 <? mx); steps; [destruct (mx <? Z.of_nat n); steps|]; verdict. }
    destruct (_ && _); [failed|]. passed_on. steps.
    match goal with |- ended e (called e (ends_here ?X ?K)) _ =>
      assert (H : exists ui s1, X = stmt_res (if uq && negb (uniq_loop (cx_E cx) [] l) then Fail "duplicate element found" else Pass) s1
        {| env_ := [[("uitems", ui); ("l", VInt (Z.of_nat n)); ("rv", VRv (LVal LRoot)); ("c", VObj (CArr {| a_items := items; a_pos := pos; a_add := add; a_min := mn; a_max := mx; a_uniq := uq |})); ("v", VIf LRoot); ("err", VNil)]]; doc := D; ord_w := w; ord_u := u |}
        /\ with_env e s1 = {| env_ := e; doc := D; ord_w := w; ord_u := u |})
    end.
    { destruct uq; steps; [|exists VNil; verdict].
      unfold for_rest. cbn [andb].
      match goal with |- context [leave (leave (ends_here (leave (loop ?C ?P ?B _ _)) ?K))] =>
        enough (H : forall rest pre seen M fuel, l = pre ++ rest -> (List.length rest < fuel)%nat ->
            (forall k, m_get (VStr k) M = if mem k seen then Some VUnit else None) ->
            exists ui s1, leave (leave (ends_here (leave (loop C P B fuel {| env_ := [[("i", VInt (Z.of_nat (List.length pre)))]; []; []; [("uitems", VMap M); ("l", VInt (Z.of_nat n)); ("rv", VRv (LVal LRoot)); ("c", VObj (CArr {| a_items := items; a_pos := pos; a_add := add; a_min := mn; a_max := mx; a_uniq := true |})); ("v", VIf LRoot); ("err", VNil)]]; doc := D; ord_w := w; ord_u := u |})) K))
              = stmt_res (if negb (uniq_loop (cx_E cx) seen rest) then Fail "duplicate element found" else Pass) s1
              {| env_ := [[("uitems", ui); ("l", VInt (Z.of_nat n)); ("rv", VRv (LVal LRoot)); ("c", VObj (CArr {| a_items := items; a_pos := pos; a_add := add; a_min := mn; a_max := mx; a_uniq := true |})); ("v", VIf LRoot); ("err", VNil)]]; doc := D; ord_w := w; ord_u := u |}
              /\ with_env e s1 = {| env_ := e; doc := D; ord_w := w; ord_u := u |})
      end.
      { refine (H l [] [] [] _ eq_refl _ _); [rewrite Hl; cbn; lia|reflexivity]. }
      induction rest as [|x rest IH]; intros pre seen M fuel Hpre Hfuel HM; (destruct fuel as [|fuel]; [exfalso; cbn in Hfuel; lia|]); rewrite loop_next; steps.
      - replace (Z.of_nat (List.length pre) <? Z.of_nat n) with false by (symmetry; apply Z.ltb_ge; rewrite Hpre, app_nil_r in Hl; lia).
        steps. cbn [uniq_loop negb]. eexists; verdict.
      - assert (Hj : (List.length pre < n)%nat) by (rewrite Hpre, app_length in Hl; cbn [List.length] in Hl; lia).
        destruct ol as [l'|]; [|specialize (Hn0 eq_refl); exfalso; lia]. cbn in El. subst l'.
        assert (H1 : Z.of_nat (List.length pre) <? Z.of_nat n = true) by (apply Z.ltb_lt; lia).
        assert (H2 : Z.of_nat (List.length pre) <? Z.of_nat (List.length l) = true) by (apply Z.ltb_lt; lia).
        assert (H3 : 0 <=? Z.of_nat (List.length pre) = true) by (apply Z.leb_le; lia).
        assert (H4 : rread (LIdx (LVal LRoot) (List.length pre)) D = RV ifc x)
          by (rewrite <- rread_top in Hv; rewrite (rread_idx _ _ _ _ _ _ Hv), Hpre, nth_mid; reflexivity).
        assert (H5 : content (LIdx (LVal LRoot) (List.length pre)) D = x) by (unfold content; rewrite H4; reflexivity).
        steps. rewrite HM. cbn [uniq_loop]. destruct (mem (sprint (cx_E cx) true x) seen) eqn:Hm.
        + cbn [negb]. steps. exists VNil. verdict.
        + steps. replace (Z.of_nat (List.length pre) + 1) with (Z.of_nat (List.length (pre ++ [x]))) by (rewrite app_length; cbn [List.length]; lia).
          apply IH; [rewrite Hpre, <- app_assoc; reflexivity|cbn [List.length] in Hfuel; lia|].
          intro k0. rewrite m_get_put, HM. cbn [mem existsb]. destruct (String.eqb k0 _); reflexivity. }
    destruct H as (ui & s1 & H & Hs). rewrite H. clear H.
    destruct (uq && _); [failed|]. passed_on. steps.
    destruct (is_cnil items) eqn:Hci; steps.
    2: { unfold for_rest.
      match goal with |- ended e ?G _ => match G with context CT [loop ?C ?P ?B _ {| env_ := _ :: ?sc; doc := _; ord_w := _; ord_u := _ |}] =>
        enough (H : forall m j l w u fuel D, (j + m = n)%nat -> (m < fuel)%nat -> List.length l = n -> Forall I l -> D = sl T ifc ol l ->
          ended e ltac:(let g := context CT [loop C P B fuel {| env_ := [("i", VInt (Z.of_nat j))] :: sc; doc := D; ord_w := w; ord_u := u |}] in exact g)
            (of_list T ifc ol (idx_loop mrec (map (fun i => (i, items)) (seq j m)) l w)))
      end end.
      { refine (H n O l w u _ D eq_refl _ Hl HF HD). cbn. lia. }
      clear l El HF HD Hl D EDD HI Hv w u Hlen.
      induction m as [|m IH]; intros j l w u fuel D Hj Hfuel Hl HF HD; (destruct fuel as [|fuel]; [exfalso; lia|]); rewrite loop_next; steps.
      - replace (Z.of_nat j <? Z.of_nat n) with false by (symmetry; apply Z.ltb_ge; lia).
        cbn [seq map idx_loop of_list]. rewrite <- HD. steps. ended_.
      - destruct ol as [l'|]; [|specialize (Hn0 eq_refl); exfalso; lia]. cbn [sl] in HD.
        assert (Hv : valueOf D = RV false (GSlice T ifc (Some l))) by (rewrite HD; reflexivity).
        assert (H1 : Z.of_nat j <? Z.of_nat n = true) by (apply Z.ltb_lt; lia).
        assert (H2 : Z.of_nat j <? Z.of_nat (List.length l) = true) by (apply Z.ltb_lt; lia).
        assert (H3 : 0 <=? Z.of_nat j = true) by (apply Z.leb_le; lia).
        assert (H4 : rread (LIdx (LVal LRoot) j) D = RV ifc (nth j l GNil))
          by (rewrite <- rread_top in Hv; rewrite (rread_idx _ _ _ _ _ _ Hv); reflexivity).
        assert (H5 : content (LIdx (LVal LRoot) j) D = nth j l GNil) by (unfold content; rewrite H4; reflexivity).
        assert (Hw : forall y, rwrite (LIdx (LVal LRoot) j) y D = sl T ifc (Some l') (set_nth j y l))
          by (intro y; rewrite <- rread_top in Hv; rewrite (rwrite_idx _ _ _ _ _ _ _ Hv); reflexivity).
        assert (HIx : I (nth j l GNil)) by (eapply Forall_forall in HF; [exact HF|apply nth_In; lia]).
        steps. pose proof (Hrec items (nth j l GNil) w u Hi HIx) as H. cbn [seq map idx_loop].
        child_agrees H; rewrite Hw; steps; try ended_.
        replace (Z.of_nat j + 1) with (Z.of_nat (S j)) by lia.
        apply IH; [lia|lia|rewrite sn_length; assumption| |reflexivity].
        apply sn_forall; [assumption|]. exact (Hpres _ _ _ _ _ _ Hi HIx Hm). }
    rewrite Hlen. unfold positional_jobs.
        match goal with |- context [indexed ?a ?b] => change (indexed a b) with (indexed (Z.of_nat 0) b) end.
    match goal with |- ended e ?G _ => match G with context CT [rounds ?B ?C ?df ?kk ?vv _ {| env_ := ?sc; doc := _; ord_w := _; ord_u := _ |}] =>
      assert (Htail : forall l w u D, List.length l = n -> Forall I l -> D = sl T ifc ol l ->
        ended e ltac:(let g := context CT [Nx {| env_ := sc; doc := D; ord_w := w; ord_u := u |}] in exact g)
          (arr_additional {| a_items := items; a_pos := pos; a_add := add; a_min := mn; a_max := mx; a_uniq := uq |} n T ifc ol l w));
      [|enough (H : forall ps j l w u D, Forall P ps -> List.length l = n -> Forall I l -> D = sl T ifc ol l ->
        ended e ltac:(let g := context CT [rounds B C df kk vv (indexed (Z.of_nat j) (map VConstr ps)) {| env_ := sc; doc := D; ord_w := w; ord_u := u |}] in exact g)
          (arr_positional {| a_items := items; a_pos := pos; a_add := add; a_min := mn; a_max := mx; a_uniq := uq |} n T ifc ol (combine (seq j (n - j)) ps) l w))]
    end end.
    2: { specialize (H pos O l w u D Hp Hl HF HD). rewrite Nat.sub_0_r in H. exact H. }
    - clear l El HF HD Hl D EDD HI Hv w u Hlen. intros l w u D Hl HF HD. steps.
      unfold arr_additional. cbn [a_pos a_add]. set (lp := List.length pos).
      assert (Hlp : List.length (values VConstr pos) = lp) by (unfold values, lp; apply map_length). rewrite ?Hlp.
      clearbody lp. clear Hlp.
      destruct (0 <? lp)%nat eqn:H0.
      2: { replace (0 <? Z.of_nat lp) with false by (symmetry; apply Z.ltb_ge; apply Nat.ltb_ge in H0; lia). cbn [andb]. rewrite <- HD. steps. ended_. }
      apply Nat.ltb_lt in H0.
      replace (0 <? Z.of_nat lp) with true by (symmetry; apply Z.ltb_lt; lia). cbn [andb]. steps.
      destruct (lp <? n)%nat eqn:H1.
      2: { replace (Z.of_nat lp <? Z.of_nat n) with false by (symmetry; apply Z.ltb_ge; apply Nat.ltb_ge in H1; lia). rewrite <- HD. steps. ended_. }
      apply Nat.ltb_lt in H1.
      replace (Z.of_nat lp <? Z.of_nat n) with true by (symmetry; apply Z.ltb_lt; lia). steps.
      destruct (is_cnil add) eqn:Hca; steps; [rewrite <- HD; ended_|].
      unfold for_rest. replace (Z.of_nat lp - 1) with (Z.of_nat (lp - 1)) by lia.
      match goal with |- ended e ?G _ => match G with context CT [loop ?C ?P ?B _ {| env_ := _ :: ?sc; doc := _; ord_w := _; ord_u := _ |}] =>
        enough (H : forall m j l w u fuel D, (j + m = n)%nat -> (m < fuel)%nat -> List.length l = n -> Forall I l -> D = sl T ifc ol l ->
          ended e ltac:(let g := context CT [loop C P B fuel {| env_ := [("i", VInt (Z.of_nat j))] :: sc; doc := D; ord_w := w; ord_u := u |}] in exact g)
            (of_list T ifc ol (idx_loop mrec (map (fun i => (i, add)) (seq j m)) l w)))
      end end.
      { refine (H (n - (lp - 1))%nat (lp - 1)%nat l w u _ D _ _ Hl HF HD); cbn; lia. }
      clear l HF HD Hl D w u.
      induction m as [|m IH]; intros j l w u fuel D Hj Hfuel Hl HF HD; (destruct fuel as [|fuel]; [exfalso; lia|]); rewrite loop_next; steps.
      + replace (Z.of_nat j <? Z.of_nat n) with false by (symmetry; apply Z.ltb_ge; lia).
        cbn [seq map idx_loop of_list]. rewrite <- HD. steps. ended_.
      + destruct ol as [l'|]; [|specialize (Hn0 eq_refl); exfalso; lia]. cbn [sl] in HD.
        assert (Hv : valueOf D = RV false (GSlice T ifc (Some l))) by (rewrite HD; reflexivity).
        assert (H2 : Z.of_nat j <? Z.of_nat (List.length l) = true) by (apply Z.ltb_lt; lia).
        assert (H3 : 0 <=? Z.of_nat j = true) by (apply Z.leb_le; lia).
        assert (H4 : rread (LIdx (LVal LRoot) j) D = RV ifc (nth j l GNil))
          by (rewrite <- rread_top in Hv; rewrite (rread_idx _ _ _ _ _ _ Hv); reflexivity).
        assert (H5 : content (LIdx (LVal LRoot) j) D = nth j l GNil) by (unfold content; rewrite H4; reflexivity).
        assert (Hw : forall y, rwrite (LIdx (LVal LRoot) j) y D = sl T ifc (Some l') (set_nth j y l))
          by (intro y; rewrite <- rread_top in Hv; rewrite (rwrite_idx _ _ _ _ _ _ _ Hv); reflexivity).
        assert (HIx : I (nth j l GNil)) by (eapply Forall_forall in HF; [exact HF|apply nth_In; lia]).
        assert (H6 : Z.of_nat j <? Z.of_nat n = true) by (apply Z.ltb_lt; lia).
        steps. pose proof (Hrec add (nth j l GNil) w u Ha HIx) as H. cbn [seq map idx_loop].
        child_agrees H; rewrite Hw; steps; try ended_.
        replace (Z.of_nat j + 1) with (Z.of_nat (S j)) by lia.
        apply IH; [lia|lia|rewrite sn_length; assumption| |reflexivity].
        apply sn_forall; [assumption|]. exact (Hpres _ _ _ _ _ _ Ha HIx Hm).
    - clear l El HF HD Hl D EDD HI Hv w u Hlen. induction ps as [|c ps IH]; intros j l w u D HPs Hl HF HD.
      + cbn [map indexed rounds]. replace (combine (seq j (n - j)) (@nil constr)) with (@nil (nat * constr)) by (destruct (seq _ _); reflexivity).
        exact (Htail l w u D Hl HF HD).
      + cbn [map indexed]. inversion HPs as [|? ? Hc HPs']; subst x l0. destruct (Z.of_nat n <=? Z.of_nat j) eqn:Hge.
        * match goal with |- context [rounds ?B ?C ?df ?kk ?vv ?it ?st] => assert (HB : rounds B C df kk vv it st = Nx st) end.
          { round1. steps. reflexivity. }
          rewrite HB. apply Z.leb_le in Hge. replace (n - j)%nat with O by lia. exact (Htail l w u D Hl HF HD).
        * assert (Hlt : (j < n)%nat) by (apply Z.leb_gt in Hge; lia).
          replace (n - j)%nat with (S (n - S j)) by lia. cbn [seq combine].
          destruct ol as [l'|]; [|specialize (Hn0 eq_refl); exfalso; lia]. cbn [sl] in HD.
          assert (Hv : valueOf D = RV false (GSlice T ifc (Some l))) by (rewrite HD; reflexivity).
          assert (H2 : Z.of_nat j <? Z.of_nat (List.length l) = true) by (apply Z.ltb_lt; lia).
          assert (H3 : 0 <=? Z.of_nat j = true) by (apply Z.leb_le; lia).
          assert (H4 : rread (LIdx (LVal LRoot) j) D = RV ifc (nth j l GNil))
            by (rewrite <- rread_top in Hv; rewrite (rread_idx _ _ _ _ _ _ Hv); reflexivity).
          assert (H5 : content (LIdx (LVal LRoot) j) D = nth j l GNil) by (unfold content; rewrite H4; reflexivity).
          assert (Hw : forall y, rwrite (LIdx (LVal LRoot) j) y D = sl T ifc (Some l') (set_nth j y l))
            by (intro y; rewrite <- rread_top in Hv; rewrite (rwrite_idx _ _ _ _ _ _ _ Hv); reflexivity).
          assert (HIx : I (nth j l GNil)) by (eapply Forall_forall in HF; [exact HF|apply nth_In; lia]).
          unfold arr_positional. cbn [idx_loop]. round1. steps. pose proof (Hrec c (nth j l GNil) w u Hc HIx) as H.
          child_agrees H; rewrite Hw; steps; try ended_.
          replace (Z.of_nat j + 1) with (Z.of_nat (S j)) by lia.
          apply (IH (S j) (set_nth j d' l) w' u' _ HPs'); [rewrite sn_length; assumption| |reflexivity].
          apply sn_forall; [assumption|]. exact (Hpres _ _ _ _ _ _ Hc HIx Hm).
  Qed.
End Array.
