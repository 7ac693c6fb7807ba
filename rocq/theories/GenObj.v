(** Arrays, objects and combinations in the round trip; the main theorem for one constraint. *)
From Verif Require Import Base GoFloat GoValue Maybe Formats Constraint StructInfo Validate Reach ConstrInd Builder GoText GoLang GoEval Generator GenLex GenParse GenCode GenLike GenSpec GenFaith GenRound.
Open Scope string_scope.
Open Scope list_scope.

Definition likeR (c c' : constr) : Prop := like (regen c) c'.

(** ** Chains of calls as program fragments: from values satisfying P to values satisfying Q *)
Definition SegS (hm : bool) (t : string) (P Q : nat -> value -> Prop) : Prop := exists ks, Chain t ks /\
  forall st v, Ready hm st -> P (e_next st) v ->
    exists v' n', fold_left ev1 ks (Some (v, st)) = Some (v', bump st n') /\ (e_next st <= n')%nat /\ Q n' v'.

Lemma segs_nil hm (P Q : nat -> value -> Prop) : (forall n v, P n v -> Q n v) -> SegS hm "" P Q.
Proof.
  intros H. exists []. split; [exact chain_nil|]. intros st v R PP. exists v, (e_next st). rewrite bump_same. cbn. auto.
Qed.
Lemma bump_bump st a b : bump (bump st a) b = bump st b.
Proof. reflexivity. Qed.
Lemma segs_app hm a b P Q R : SegS hm a P Q -> SegS hm b Q R -> SegS hm (a +++ b) P R.
Proof.
  intros (k & C & V) (k2 & C2 & V2). exists (k ++ k2). split; [now apply chain_app|]. intros st v RR PP.
  destruct (V st v RR PP) as (v1 & n1 & E1 & L1 & Q1). destruct (V2 (bump st n1) v1 RR Q1) as (v2 & n2 & E2 & L2 & Q2).
  exists v2, n2. rewrite fold_left_app, E1, E2, bump_bump. split; auto. split; auto. cbn in L2. lia.
Qed.

Lemma good_segs G hm c m f t v P Q : emit G (cm_of hm) c = post m -> ident f = true -> plain f = true ->
  det m ("jsval" +++ (String "." (f +++ "()")) +++ t) -> call_fun f [] = Some v -> SegS hm t P Q -> (forall n, P n v) ->
  (forall n v', Q n v' -> exists c', v' = VC c' /\ likeR c c') -> Good G hm c.
Proof.
  intros E I PL D F (ks & C & V) PV QV.
  apply (good_chain G hm c m _ f ks E D); [exact (chain_app _ _ _ _ (chain_new f I PL) C)|discriminate|].
  intros st R. destruct (V st v R (PV _)) as (v' & n' & E' & L & QQ). destruct (QV _ _ QQ) as (c' & -> & LK).
  exists c', n'. rewrite F. cbn [option_map]. auto.
Qed.

(** one call; its arguments may allocate *)
Lemma segs_call hm m s es (P Q : nat -> value -> Prop) : ident m = true -> plain m = true -> ArgText ")" s es ->
  (forall st v, Ready hm st -> P (e_next st) v -> exists vs n1 v2 n2, evals eval es st = Some (vs, bump st n1) /\ (e_next st <= n1)%nat /\
     call_method v m vs (bump st n1) = Some (v2, bump st n2) /\ (n1 <= n2)%nat /\ Q n2 v2) ->
  SegS hm (String "." (String newline (m +++ String "(" s))) P Q.
Proof.
  intros I PL A H. exists [(m, es)]. split; [now apply chain_call_nl|]. intros st v R PP.
  destruct (H st v R PP) as (vs & n1 & v2 & n2 & E1 & L1 & E2 & L2 & QQ). exists v2, n2. cbn [fold_left ev1 fst snd]. rewrite E1, E2.
  split; [reflexivity|]. split; [lia|auto].
Qed.
(** a constant argument *)
Lemma segs_const hm m s x (P Q : nat -> value -> Prop) : ident m = true -> plain m = true -> Const s x ->
  (forall n v, P n v -> exists v', (forall st, call_method v m [x] st = Some (v', st)) /\ Q n v') ->
  SegS hm (String "." (String newline (m +++ String "(" (s +++ ")")))) P Q.
Proof.
  intros I PL (e & C & V) H. apply (segs_call hm m _ [e]); auto; [now apply at_last|]. intros st v R PP.
  destruct (H _ _ PP) as (v' & E & QQ). exists [x], (e_next st), v', (e_next st). rewrite bump_same. cbn [evals]. rewrite V. repeat split; auto.
Qed.
(** a constraint as argument *)
Lemma segs_child G hm m c (P Q : nat -> value -> Prop) : ident m = true -> plain m = true -> Good G hm c ->
  (forall n v c', P n v -> likeR c c' -> exists v', (forall st, call_method v m [VC c'] st = Some (v', st)) /\ forall n', (n <= n')%nat -> Q n' v') ->
  exists x, det (emit G (cm_of hm) c) x /\ SegS hm (String "." (String newline (m +++ String "(" (String newline (x +++ "," +++ nl +++ ")"))))) P Q.
Proof.
  intros I PL (x & e & D & C & LL & V) H. exists x. split; auto. apply (segs_call hm m _ [e]); auto.
  - apply at_nl. change ("," +++ nl +++ ")") with (String "," (String newline ")")). apply at_cons; auto; [now left|]. apply at_nl, at_close. now left.
  - intros st v R PP. destruct (V st R) as (c' & n1 & E & L & LK). destruct (H _ _ _ PP LK) as (v' & E2 & QQ).
    exists [VC c'], n1, v', n1. cbn [evals]. rewrite E, E2. repeat split; auto.
Qed.

(** calls with a key and a constraint, one after the other *)
Definition keyed (G : genv) (meth : string) (tbl : list (string * gm string)) (k : string) : gm string :=
  get x <- match sget k tbl with Some m => arg_line m | None => gret "" end;
  gret ("." +++ nl +++ meth +++ "(" +++ nl +++ quote (g_print G) k +++ "," +++ nl +++ x).

Lemma keyed_text G hm meth (Inv : list (string * constr) -> nat -> value -> Prop) qs0 :
  ident meth = true -> plain meth = true ->
  (forall k c, In (k, c) qs0 -> plain k = true /\ Good G hm c) ->
  (forall dn k c rest n v c' n', qs0 = dn ++ (k, c) :: rest -> Inv dn n v -> (n <= n')%nat -> likeR c c' ->
     forall st, e_next st = n' -> exists v2 n2, call_method v meth [VString k; VC c'] st = Some (v2, bump st n2) /\ (n' <= n2)%nat /\ Inv (dn ++ [(k, c)]) n2 v2) ->
  forall qs dn, qs0 = dn ++ qs ->
  exists t, (forall tbl, (forall k c, In (k, c) qs -> sget k tbl = Some (emit G (cm_of hm) c)) -> det (gconcat (map (keyed G meth tbl) (map fst qs))) t) /\
    SegS hm t (Inv dn) (Inv (dn ++ qs)).
Proof.
  intros IM PM HG HS qs. induction qs as [|[k c] qs IH]; intros dn E.
  - exists "". split; [intros tbl _; apply det_ret|]. rewrite app_nil_r. now apply segs_nil.
  - destruct (IH (dn ++ [(k, c)])) as (t & D & S); [rewrite E, <- app_assoc; reflexivity|].
    destruct (HG k c) as [PK (x & e & DX & CX & LX & VX)]; [rewrite E; apply in_or_app; cbn; auto|].
    exists (String "." (String newline (meth +++ String "(" (String newline (quote (g_print G) k +++ "," +++ nl +++ (x +++ "," +++ nl +++ ")"))))) +++ t). split.
    + intros tbl T. cbn [map gconcat fst]. eapply det_bind; [|eapply det_bind; [apply D; intros; apply T; cbn; auto|apply det_ret]].
      unfold keyed. rewrite (T k c) by (cbn; auto). eapply det_bind; [eapply det_bind; [exact DX|apply det_ret]|apply det_ret].
    + apply segs_app with (Q := Inv (dn ++ [(k, c)])); [|now rewrite <- app_assoc in S].
      apply (segs_call hm meth _ [EStr k; e]); auto.
      * apply at_nl. change ("," +++ nl +++ (x +++ "," +++ nl +++ ")")) with (String "," (String newline (x +++ String "," (String newline ")")))).
        apply at_cons; [now left|now apply code_str|]. apply at_nl. apply at_cons; auto; [now left|]. apply at_nl, at_close. now left.
      * intros st v R I. destruct (VX st R) as (c' & n1 & E1 & L1 & LK).
        destruct (HS dn k c qs _ _ c' n1 E I L1 LK (bump st n1) eq_refl) as (v2 & n2 & E2 & L2 & I2).
        exists [VString k; VC c'], n1, v2, n2. cbn [evals eval]. rewrite E1. rewrite E2. repeat split; auto.
Qed.

(** ** Combinations *)
Lemma all2_snoc {A B} (R : A -> B -> Prop) l l' x y : all2 R l l' -> R x y -> all2 R (l ++ [x]) (l' ++ [y]).
Proof. rewrite !all2_forall2. intros H K. apply Forall2_app; auto. Qed.

Lemma combo_text G hm (K : list constr -> constr) : 
  (forall l c st, call_method (VC (K l)) "Add" [VC c] st = Some (VC (K (add_child c l)), st)) ->
  forall l dn, (forall c, In c l -> Good G hm c) ->
  exists t, det (gconcat (map (fun m => get x <- m; gret ("." +++ nl +++ "Add(" +++ nl +++ x +++ "," +++ nl +++ ")")) (map (emit G (cm_of hm)) l))) t /\
    SegS hm t (fun _ v => exists l', v = VC (K l') /\ all2 likeR dn l') (fun _ v => exists l', v = VC (K l') /\ all2 likeR (dn ++ l) l').
Proof.
  intros HK l. induction l as [|c l IH]; intros dn HG.
  - exists "". split; [apply det_ret|]. rewrite app_nil_r. now apply segs_nil.
  - destruct (IH (dn ++ [c])) as (t & D & S); [intros; apply HG; cbn; auto|].
    destruct (segs_child G hm "Add" c (fun _ v => exists l', v = VC (K l') /\ all2 likeR dn l') (fun _ v => exists l', v = VC (K l') /\ all2 likeR (dn ++ [c]) l'))
      as (x & DX & SX); auto; [apply HG; cbn; auto| |].
    { intros n v c' (l' & -> & A) LK. eexists. split; [intros st; apply HK|]. intros n' _. eexists. split; [reflexivity|]. now apply all2_snoc. }
    eexists (_ +++ t). split; [|eapply segs_app; [exact SX|rewrite <- app_assoc in S; exact S]].
    cbn [map gconcat]. eapply det_bind; [eapply det_bind; [exact DX|apply det_ret]|]. eapply det_bind; [exact D|apply det_ret].
Qed.

Lemma good_combo G hm f (K : list constr -> constr) l : ident f = true -> plain f = true -> 
  emit G (cm_of hm) (K l) = post (combo_code f (map (emit G (cm_of hm)) l)) ->
  (forall l c st, call_method (VC (K l)) "Add" [VC c] st = Some (VC (K (add_child c l)), st)) -> call_fun f [] = Some (VC (K [])) ->
  l <> [] -> regen (K l) = K (map regen l) -> (forall l', like (K (map regen l)) (K l') <-> all2 like (map regen l) l') ->
  (forall c, In c l -> Good G hm c) -> Good G hm (K l).
Proof.
  intros IM PM E HK F N RG LK HG. destruct (combo_text G hm K HK l [] HG) as (t & D & S).
  eapply (good_segs G hm (K l) _ f t _ _ _ E IM PM); [|exact F|exact S|intros n; exists []; cbn; auto|].
  - destruct l as [|c l]; [congruence|]. cbn [map combo_code]. eapply det_bind; [exact D|].
    replace ("jsval" +++ String "." (f +++ "()") +++ t) with ("jsval." +++ f +++ "()" +++ t); [apply det_ret|].
    cbn [String.append]. now rewrite sapp_assoc.
  - intros n v (l' & -> & A). exists (K l'). split; auto. unfold likeR. rewrite RG. apply LK. cbn [app] in A.
    clear - A. revert l' A. induction l as [|c l IH]; intros [|c' l']; cbn; auto. intros [A B]. split; auto.
Qed.

(** ** Arrays *)
Definition mkA (i : constr) (ps : list constr) (a : constr) (mn mx : Z) (u : bool) : arrcfg :=
  {| a_items := i; a_pos := ps; a_add := a; a_min := mn; a_max := mx; a_uniq := u |}.
Definition AInv (P : constr -> list constr -> constr -> Z -> Z -> bool -> Prop) (_ : nat) (v : value) : Prop :=
  exists i ps a mn mx u, v = VC (CArr (mkA i ps a mn mx u)) /\ P i ps a mn mx u.

Lemma evals_good hm cs es : Forall2 (Ev hm) cs es -> forall st, Ready hm st ->
  exists cs' n', evals eval es st = Some (map VC cs', bump st n') /\ (e_next st <= n')%nat /\ all2 likeR cs cs'.
Proof.
  induction 1 as [|c e cs es V _ IH]; intros st R.
  - exists [], (e_next st). rewrite bump_same. cbn. auto.
  - destruct (V st R) as (c' & n1 & E1 & L1 & K1). destruct (IH (bump st n1) R) as (cs' & n2 & E2 & L2 & K2).
    exists (c' :: cs'), n2. cbn [evals map all2]. rewrite E1, E2, bump_bump. cbn in L2. split; [reflexivity|]. split; [lia|]. split; auto.
Qed.
Lemma all_constr cs : all_some as_constr (map VC cs) = Some cs.
Proof. induction cs; cbn; auto. now rewrite IHcs. Qed.

Lemma positional_text G hm cs : (forall c, In c cs -> Good G hm c) -> exists t es,
  det (gconcat (map (fun m => get x <- ignore_err m; gret (x +++ "," +++ nl)) (map (emit G (cm_of hm)) cs))) t /\
  ArgText "}" (t +++ "}") es /\ Forall2 (Ev hm) cs es.
Proof.
  induction cs as [|c cs IH]; intros H.
  - exists "", []. split; [apply det_ret|]. split; [apply at_close; now right|constructor].
  - destruct IH as (t & es & D & A & V); [intros; apply H; cbn; auto|].
    destruct (H c) as (x & e & DX & CX & LX & VX); [cbn; auto|].
    exists ((x +++ "," +++ nl) +++ t), (e :: es). split; [|split].
    + cbn [map gconcat]. eapply det_bind; [eapply det_bind; [apply det_ignore, DX|apply det_ret]|]. eapply det_bind; [exact D|apply det_ret].
    + rewrite !sapp_assoc. apply at_cons; auto; [now right|]. now apply at_nl.
    + now constructor.
Qed.

Lemma good_arr G hm a : emittable hm (CArr a) -> (forall c, In c (a_items a :: a_add a :: a_pos a) -> emittable hm c -> Good G hm c) -> Good G hm (CArr a).
Proof.
  intros (O1 & O2 & O3 & O4 & O5) IH. rewrite allp_in in O3.
  set (I1 := AInv (fun i ps a' mn mx u => likeR (a_items a) i /\ ps = [] /\ a' = CEmpty /\ mn = -1 /\ mx = -1 /\ u = false)%Z).
  set (add := if is_nil (a_add a) then CEmpty else regen (a_add a)).
  set (I2 := AInv (fun i ps a' mn mx u => likeR (a_items a) i /\ ps = [] /\ like add a' /\ mn = -1 /\ mx = -1 /\ u = false)%Z).
  set (I3 := AInv (fun i ps a' mn mx u => likeR (a_items a) i /\ all2 likeR (a_pos a) ps /\ like add a' /\ mn = -1 /\ mx = -1 /\ u = false)%Z).
  set (I4 := AInv (fun i ps a' mn mx u => likeR (a_items a) i /\ all2 likeR (a_pos a) ps /\ like add a' /\
      mn = (if -1 <? a_min a then a_min a else -1) /\ mx = -1 /\ u = false)%Z).
  set (I5 := AInv (fun i ps a' mn mx u => likeR (a_items a) i /\ all2 likeR (a_pos a) ps /\ like add a' /\
      mn = (if -1 <? a_min a then a_min a else -1) /\ mx = (if -1 <? a_max a then a_max a else -1) /\ u = false)%Z).
  set (I6 := AInv (fun i ps a' mn mx u => likeR (a_items a) i /\ all2 likeR (a_pos a) ps /\ like add a' /\
      mn = (if -1 <? a_min a then a_min a else -1) /\ mx = (if -1 <? a_max a then a_max a else -1) /\ u = a_uniq a)%Z).
  assert (X1 : exists t, det (match a_items a with CNil => gret "" | _ => get x <- arg_line (emit G (cm_of hm) (a_items a)); gret ("." +++ nl +++ "Items(" +++ nl +++ x) end) t /\
     SegS hm t (fun _ v => v = VC (CArr new_arr)) I1).
  { assert (B : a_items a = CNil \/ a_items a <> CNil) by (destruct (a_items a); auto; right; discriminate).
    destruct B as [B|B].
    - rewrite B. exists "". split; [apply det_ret|]. apply segs_nil. intros n v ->. unfold I1. exists CNil, [], CEmpty, (-1)%Z, (-1)%Z, false.
      rewrite B. repeat split; auto.
    - destruct O1 as [O1|O1]; [congruence|].
      destruct (segs_child G hm "Items" (a_items a) (fun _ v => v = VC (CArr new_arr)) I1 eq_refl eq_refl) as (x & DX & SX); [apply IH; cbn; auto| |].
      { intros n v c' -> L. eexists. split; [reflexivity|]. intros n' _. exists c', [], CEmpty, (-1)%Z, (-1)%Z, false. repeat split; auto. }
      eexists. split; [|exact SX]. destruct (a_items a); try congruence; (eapply det_bind; [eapply det_bind; [exact DX|apply det_ret]|apply det_ret]). }
  destruct X1 as (t1 & D1 & S1).
  assert (X2 : exists t, det (match a_add a with CNil => gret "" | _ => get x <- arg_line (emit G (cm_of hm) (a_add a)); gret ("." +++ nl +++ "AdditionalItems(" +++ nl +++ x) end) t /\
     SegS hm t I1 I2).
  { assert (B : a_add a = CNil \/ a_add a <> CNil) by (destruct (a_add a); auto; right; discriminate).
    destruct B as [B|B].
    - exists "". split; [rewrite B; apply det_ret|]. apply segs_nil. intros n v (i & ps & a' & mn & mx & u & -> & H1 & H2 & -> & H4).
      exists i, ps, CEmpty, mn, mx, u. split; [reflexivity|]. split; auto. split; auto. split; auto. unfold add. rewrite B. exact I.
    - destruct O2 as [O2|O2]; [congruence|].
      assert (AD : add = regen (a_add a)) by (unfold add; destruct (a_add a); congruence || reflexivity).
      destruct (segs_child G hm "AdditionalItems" (a_add a) I1 I2 eq_refl eq_refl) as (x & DX & SX); [apply IH; cbn; auto| |].
      { intros n v c' (i & ps & a' & mn & mx & u & -> & H1 & H2 & -> & H4) L. eexists. split; [reflexivity|]. intros n' _. exists i, ps, c', mn, mx, u.
        split; [reflexivity|]. split; auto. split; auto. split; auto. now rewrite AD. }
      eexists. split; [|exact SX]. destruct (a_add a); try congruence; (eapply det_bind; [eapply det_bind; [exact DX|apply det_ret]|apply det_ret]). }
  destruct X2 as (t2 & D2 & S2).
  assert (X3 : exists t, det (match map (emit G (cm_of hm)) (a_pos a) with
           | [] => gret ""%string
           | _ => get x <- gconcat (map (fun m => get x <- ignore_err m; gret (x +++ "," +++ nl)) (map (emit G (cm_of hm)) (a_pos a)));
                  gret ("." +++ nl +++ "PositionalItems([]jsval.Constraint{" +++ nl +++ x +++ "})")
           end) t /\ SegS hm t I2 I3).
  { destruct (a_pos a) as [|c0 cs] eqn:EP.
    - exists "". split; [apply det_ret|]. apply segs_nil. intros n v (i & ps & a' & mn & mx & u & -> & H1 & -> & H4).
      exists i, [], a', mn, mx, u. split; [reflexivity|]. split; auto. split; [exact I|auto].
    - destruct (positional_text G hm (c0 :: cs)) as (x & es & DX & AX & VX); [intros c IC; apply IH; [cbn; rewrite ?EP; auto|auto]|].
      exists ("." +++ nl +++ "PositionalItems([]jsval.Constraint{" +++ nl +++ x +++ "})"). split.
      { cbn [map] in *. eapply det_bind; [exact DX|apply det_ret]. }
      assert (CS := code_slice _ _ (at_nl _ _ _ AX)).
      assert (TX : "." +++ nl +++ "PositionalItems([]jsval.Constraint{" +++ nl +++ x +++ "})" =
                   String "." (String newline ("PositionalItems" +++ String "(" (("[]jsval.Constraint{" +++ String newline (x +++ "}")) +++ ")")))).
      { cbn [String.append]. rewrite sapp_assoc. reflexivity. }
      rewrite TX. apply (segs_call hm "PositionalItems" _ [ESlice "jsval" "Constraint" es]); auto; [now apply at_last|].
      intros st v R (i & ps & a' & mn & mx & u & -> & H1 & -> & H4). destruct (evals_good hm _ _ VX st R) as (cs' & n1 & E1 & L1 & K1).
      exists [VCs cs'], n1, (VC (CArr (mkA i cs' a' mn mx u))), n1. split.
      { cbn [evals eval String.eqb Ascii.eqb Bool.eqb andb]. rewrite E1, all_constr. reflexivity. }
      split; auto. split; [reflexivity|]. split; auto. exists i, cs', a', mn, mx, u. split; [reflexivity|]. split; auto. }
  destruct X3 as (t3 & D3 & S3).
  assert (S4 : SegS hm (when (-1 <? a_min a)%Z ("." +++ nl +++ "MinItems(" +++ dec_Z (a_min a) +++ ")")) I3 I4).
  { unfold I4. destruct (-1 <? a_min a)%Z; cbn [when].
    - apply (segs_const hm "MinItems" _ _ _ _ eq_refl eq_refl (const_int (a_min a))).
      intros n v (i & ps & a' & mn & mx & u & -> & H1 & H2 & H3 & -> & H5). eexists. split; [intros st; cbn; rewrite O4; reflexivity|].
      exists i, ps, a', (a_min a), mx, u. split; [reflexivity|]. repeat split; tauto.
    - apply segs_nil. intros n v (i & ps & a' & mn & mx & u & -> & H1 & H2 & H3 & -> & H5). exists i, ps, a', (-1)%Z, mx, u. repeat split; tauto. }
  assert (S5 : SegS hm (when (-1 <? a_max a)%Z ("." +++ nl +++ "MaxItems(" +++ dec_Z (a_max a) +++ ")")) I4 I5).
  { unfold I5. destruct (-1 <? a_max a)%Z; cbn [when].
    - apply (segs_const hm "MaxItems" _ _ _ _ eq_refl eq_refl (const_int (a_max a))).
      intros n v (i & ps & a' & mn & mx & u & -> & H1 & H2 & H3 & H4 & -> & H5). eexists. split; [intros st; cbn; rewrite O5; reflexivity|].
      exists i, ps, a', mn, (a_max a), u. split; [reflexivity|]. repeat split; tauto.
    - apply segs_nil. intros n v (i & ps & a' & mn & mx & u & -> & H1 & H2 & H3 & H4 & -> & H5). exists i, ps, a', mn, (-1)%Z, u. repeat split; tauto. }
  assert (S6 : SegS hm (when (a_uniq a) ("." +++ nl +++ "UniqueItems(true)")) I5 I6).
  { unfold I6. destruct (a_uniq a); cbn [when].
    - apply (segs_const hm "UniqueItems" "true" (VBool true) _ _ eq_refl eq_refl (const_bool true)).
      intros n v (i & ps & a' & mn & mx & u & -> & H1 & H2 & H3 & H4 & H5 & ->). eexists. split; [intros st; reflexivity|].
      exists i, ps, a', mn, mx, true. split; [reflexivity|]. repeat split; tauto.
    - now apply segs_nil. }
  assert (S := segs_app _ _ _ _ _ _ S1 (segs_app _ _ _ _ _ _ S2 (segs_app _ _ _ _ _ _ S3 (segs_app _ _ _ _ _ _ S4 (segs_app _ _ _ _ _ _ S5 S6))))).
  eapply (good_segs G hm (CArr a) _ "Array" _ _ _ _ eq_refl eq_refl eq_refl); [|reflexivity|exact S|reflexivity|].
  - unfold array_code. eapply det_bind; [exact D1|]. eapply det_bind; [exact D2|]. eapply det_bind; [exact D3|]. apply det_ret.
  - intros n v (i & ps & a' & mn & mx & u & -> & H1 & H2 & H3 & -> & -> & ->). eexists. split; [reflexivity|].
    unfold likeR. cbn [regen like a_items a_pos a_add a_min a_max a_uniq mkA]. fold add.
    split; auto. split; [|split; [auto|split; [now left|split; [now left|reflexivity]]]].
    clear - H2. revert ps H2. generalize (a_pos a). intros l. induction l as [|c l IHl]; intros [|c' l']; cbn; auto. intros [A B]. split; auto.
Qed.

(** ** Objects *)
Lemma sset_last {A} (m : list (string * A)) k x : Forall (fun p => slt (fst p) k) m -> sset k x m = m ++ [(k, x)].
Proof.
  induction 1 as [|[k0 x0] m L F IH]; cbn [sset app]; [reflexivity|]. cbn in L. rewrite (slt_gt _ _ L). now rewrite IH.
Qed.
Lemma pat_last (l : list ((nat * string) * constr)) n s c : Forall (fun p => (fst (fst p) < n)%nat) l -> pat_set (n, s) c l = l ++ [((n, s), c)].
Proof.
  induction 1 as [|[k0 x0] m L F IH]; cbn [pat_set app]; [reflexivity|]. cbn [fst] in *.
  destruct (Nat.compare_spec n (fst k0)); try lia. now rewrite IH.
Qed.
Lemma sorted_before {A} (dn : list (string * A)) k x rest : ssorted (dn ++ (k, x) :: rest) -> Forall (fun p => slt (fst p) k) dn.
Proof.
  unfold ssorted, keys. induction dn as [|[k0 x0] dn IH]; cbn; intros H; [constructor|]. inversion H as [|? ? S F]; subst. constructor.
  - rewrite Forall_forall in F. apply F. rewrite map_app. apply in_or_app. cbn. auto.
  - auto.
Qed.

Definition dep_step (d : list (string * list string)) (p : string * string) : list (string * list string) :=
  sset (fst p) (match sget (fst p) d with Some l => l | None => [] end ++ [snd p]) d.
Definition lookup (k : string) (d : list (string * list string)) : list string := match sget k d with Some l => l | None => [] end.
Lemma dep_fold ps : forall d k, lookup k (fold_left dep_step ps d) = lookup k d ++ map snd (filter (fun p => String.eqb (fst p) k) ps).
Proof.
  induction ps as [|[f t] ps IH]; intros d k; cbn [fold_left filter map]; [now rewrite app_nil_r|]. rewrite IH. cbn [fst].
  unfold lookup, dep_step. cbn [fst snd]. destruct (String.eqb_spec f k) as [->|N].
  - rewrite sget_sset_same. cbn [map snd]. now rewrite <- app_assoc.
  - rewrite sget_sset_other by auto. reflexivity.
Qed.
Definition dep_pairs (o : objcfg) (froms : list string) : list (string * string) := flat_map (fun f => map (pair f) (prop_deps o f)) froms.
Lemma dep_pairs_filter o froms k : NoDup froms ->
  map snd (filter (fun p => String.eqb (fst p) k) (dep_pairs o froms)) = if mem k froms then prop_deps o k else [].
Proof.
  induction froms as [|f l IH]; intros N; [reflexivity|]. inversion N as [|? ? N1 N2]; subst. cbn [dep_pairs flat_map mem existsb].
  rewrite filter_app, map_app. fold (dep_pairs o l). rewrite IH by auto.
  assert (F : map snd (filter (fun p => String.eqb (fst p) k) (map (pair f) (prop_deps o f))) = if String.eqb f k then prop_deps o f else []).
  { generalize (prop_deps o f). intros ts. induction ts as [|t ts IHt]; cbn; [now destruct (String.eqb f k)|].
    destruct (String.eqb f k); cbn; [now rewrite IHt|auto]. }
  rewrite F. rewrite (String.eqb_sym k f). destruct (String.eqb_spec f k) as [->|NE]; cbn [orb].
  - apply mem_false in N1. rewrite N1, app_nil_r. reflexivity.
  - reflexivity.
Qed.

Definition mkO (req : list (string * unit)) (add : constr) (props : list (string * constr)) (pats : list ((nat * string) * constr)) (deps : list (string * list string)) : objcfg :=
  {| o_add := add; o_pats := pats; o_props := props; o_propdeps := deps; o_req := req; o_min := -1; o_max := -1; o_sdeps := [] |}.

Lemma args_strings pr l : l <> [] -> (forall k, In k l -> plain k = true) -> ArgText ")" (join ", " (map (quote pr) l) +++ ")") (map EStr l).
Proof.
  induction l as [|k l IH]; [congruence|]. intros _ H. destruct l as [|k2 l].
  - change (join ", " (map (quote pr) [k])) with (quote pr k). apply (at_last (quote pr k) (EStr k)), code_str, H. cbn; auto.
  - change (join ", " (map (quote pr) (k :: k2 :: l))) with (quote pr k +++ ", " +++ join ", " (map (quote pr) (k2 :: l))).
    rewrite !sapp_assoc. cbn [map]. change (map EStr (k :: k2 :: l)) with (EStr k :: map EStr (k2 :: l)).
    change (", " +++ join ", " (quote pr k2 :: map (quote pr) l) +++ ")") with (String "," (String " " (join ", " (map (quote pr) (k2 :: l)) +++ ")"))).
    apply at_cons; [now left|apply code_str, H; cbn; auto|]. apply at_sp. apply IH; [congruence|]. intros. apply H. cbn in *. auto.
Qed.
Lemma evals_strings l st : evals eval (map EStr l) st = Some (map VString l, st).
Proof. induction l as [|k l IH]; [reflexivity|]. cbn [map evals eval]. now rewrite IH. Qed.
Lemma all_strings l : all_some as_string (map VString l) = Some l.
Proof. induction l as [|k l IH]; [reflexivity|]. cbn. now rewrite IH. Qed.

Lemma fold_req l : forall m k, sget k (fold_left (fun m k => sset k tt m) l m) = if mem k l then Some tt else sget k m.
Proof.
  induction l as [|a l IH]; intros m k; [reflexivity|]. cbn [fold_left mem existsb]. rewrite IH. fold (mem k l).
  destruct (mem k l); [now rewrite orb_true_r|]. rewrite orb_false_r. destruct (String.eqb_spec k a) as [->|N].
  - now rewrite sget_sset_same.
  - now rewrite sget_sset_other.
Qed.
Lemma fold_keep {A B} (g : A -> string) (h : A -> B) l : forall m k, ~ In k (map g l) -> sget k (fold_left (fun m e => sset (g e) (h e) m) l m) = sget k m.
Proof.
  induction l as [|a l IH]; intros m k N; [reflexivity|]. cbn in *. rewrite IH by tauto. apply sget_sset_other. intros E. apply N. auto.
Qed.
Lemma fold_get {A B} (g : A -> string) (h : A -> B) l : forall m e, NoDup (map g l) -> In e l -> sget (g e) (fold_left (fun m e => sset (g e) (h e) m) l m) = Some (h e).
Proof.
  induction l as [|a l IH]; intros m e N I; [contradiction|]. cbn in *. inversion N; subst. destruct I as [->|I]; [|now apply IH].
  rewrite fold_keep by auto. apply sget_sset_same.
Qed.
Lemma sget_map {A B} (f : A -> B) m k : sget k (map (fun e => (fst e, f (snd e))) m) = option_map f (sget k m).
Proof. induction m as [|[k0 x] m IH]; [reflexivity|]. cbn. destruct (String.eqb k k0); auto. Qed.
Lemma join_cat l : join "" l = cat l.
Proof. induction l as [|x [|y l] IH]; cbn in *; auto; [now rewrite sapp_nil|]. now rewrite IH. Qed.
Lemma all2_len_fst {A B C} (R : A * B -> A * C -> Prop) l l' : (forall p q, R p q -> fst p = fst q) -> all2 R l l' -> map fst l = map fst l'.
Proof. intros H. revert l'. induction l as [|p l IH]; intros [|q l']; cbn; try tauto. intros [A1 A2]. f_equal; auto. Qed.

Lemma good_obj G hm o : emittable hm (CObj o) ->
  (forall c, In c (o_add o :: map snd (o_pats o) ++ map snd (o_props o)) -> emittable hm c -> Good G hm c) -> Good G hm (CObj o).
Proof.
  intros (O1 & O2 & O3 & O4 & O5 & O6 & O7 & O8 & O9) IH. rewrite allp_in in O3. rewrite allp_in in O5. rewrite allp_in in O7. rewrite allp_in in O9.
  set (q := quote (g_print G)).
  set (names := keys (o_req o)).
  set (req := fold_left (fun m k => sset k tt m) names []).
  set (kc := map (fun e : (nat * string) * constr => (snd (fst e), snd e)) (o_pats o)).
  destruct (Permutation_map_inv fst kc (l1 := sort_s (map fst kc)) (sort_perm_self _)) as (qs & EQ & PQ).
  set (Rp := fun (p q : string * constr) => fst p = fst q /\ likeR (snd p) (snd q)).
  set (Rq := fun (p : string * constr) (q : (nat * string) * constr) => fst p = snd (fst q) /\ likeR (snd p) (snd q)).
  set (J1 := fun (_ : nat) v => v = VC (CObj (mkO req CNil [] [] []))).
  set (J2 := fun (_ : nat) v => exists add, likeR (o_add o) add /\ v = VC (CObj (mkO req add [] [] []))).
  set (J3 := fun dn (_ : nat) v => exists add ps, likeR (o_add o) add /\ all2 Rp dn ps /\ v = VC (CObj (mkO req add ps [] []))).
  set (J4 := fun dn n v => exists add ps pats, likeR (o_add o) add /\ all2 Rp (o_props o) ps /\ all2 Rq dn pats /\
                Forall (fun p => (fst (fst p) < n)%nat) pats /\ v = VC (CObj (mkO req add ps pats []))).
  set (J5 := fun dn (_ : nat) v => exists add ps pats, likeR (o_add o) add /\ all2 Rp (o_props o) ps /\ all2 Rq qs pats /\
                v = VC (CObj (mkO req add ps pats (fold_left dep_step dn [])))).
  (* Required *)
  assert (X1 : exists t, det (match o_req o with [] => gret "" | m => get ns <- sorted_names m; gret ("." +++ nl +++ "Required(" +++ join ", " (map q ns) +++ ")") end) t /\
    SegS hm t (fun _ v => v = VC (CObj new_obj)) J1).
  { assert (B : o_req o = [] \/ o_req o <> []) by (destruct (o_req o); [now left|right; discriminate]). destruct B as [B|B].
    - exists "". rewrite B at 1. split; [apply det_ret|]. apply segs_nil. intros n v ->. unfold J1, req, names. rewrite B. reflexivity.
    - assert (NN : names <> []) by (unfold names; destruct (o_req o); [congruence|discriminate]).
      exists ("." +++ nl +++ "Required(" +++ join ", " (map q names) +++ ")"). split.
      { unfold names. destruct (o_req o) as [|p m]; [congruence|]. eapply det_bind; [apply det_names; auto|]. apply det_ret. }
      apply (segs_call hm "Required" _ (map EStr names) _ _ eq_refl eq_refl).
      + apply args_strings; auto. intros k IK. apply no_percent_plain. now apply O7.
      + intros st v R ->. exists (map VString names), (e_next st), (VC (CObj (mkO req CNil [] [] []))), (e_next st).
        rewrite bump_same, evals_strings. split; [reflexivity|]. split; auto. split; [|split; [auto|reflexivity]].
        cbn [call_method obj_method String.eqb Ascii.eqb Bool.eqb]. rewrite all_strings. cbn. now rewrite bump_same || now destruct st. }
  destruct X1 as (t1 & D1 & S1).
  (* AdditionalProperties *)
  assert (X2 : exists t, det (match o_add o with CNil => gret "" | _ => get x <- arg_line (emit G (cm_of hm) (o_add o)); gret ("." +++ nl +++ "AdditionalProperties(" +++ nl +++ x) end) t /\
     SegS hm t J1 J2).
  { assert (B : o_add o = CNil \/ o_add o <> CNil) by (destruct (o_add o); auto; right; discriminate).
    destruct B as [B|B].
    - exists "". split; [rewrite B; apply det_ret|]. apply segs_nil. intros n v ->. exists CNil. split; [|reflexivity]. rewrite B. exact I.
    - destruct O1 as [O1|O1]; [congruence|].
      destruct (segs_child G hm "AdditionalProperties" (o_add o) J1 J2 eq_refl eq_refl) as (x & DX & SX); [apply IH; cbn; auto| |].
      { intros n v c' -> L. exists (VC (CObj (mkO req c' [] [] []))). split; [|intros n' _; exists c'; auto].
        intros st. cbn. now destruct st. }
      eexists. split; [|exact SX]. destruct (o_add o); try congruence; (eapply det_bind; [eapply det_bind; [exact DX|apply det_ret]|apply det_ret]). }
  destruct X2 as (t2 & D2 & S2).
  (* AddProp *)
  destruct (keyed_text G hm "AddProp" J3 (o_props o) eq_refl eq_refl) with (qs := o_props o) (dn := @nil (string * constr)) as (t3 & D3 & S3); [| |reflexivity|].
  { intros k c IK. destruct (O3 _ IK) as [A B]. split; [now apply no_percent_plain|]. apply IH; auto. cbn. right. apply in_or_app. right. now apply (in_map snd) in IK. }
  { intros dn k c rest n v c' n' E (add & ps & H1 & H2 & ->) L LK st EN.
    exists (VC (CObj (mkO req add (ps ++ [(k, c')]) [] []))), n'. split.
    - cbn [call_method obj_method String.eqb Ascii.eqb Bool.eqb]. unfold obj_addProp. cbn [mkO o_props o_add o_pats o_propdeps o_req o_min o_max o_sdeps].
      rewrite sset_last; [subst n'; now destruct st|]. rewrite E in O2. apply sorted_before in O2.
      assert (KK : map fst dn = map fst ps) by (eapply (all2_len_fst Rp); [intros ? ? [A _]; exact A|exact H2]).
      rewrite Forall_forall in *. intros p IP. assert (IK : In (fst p) (map fst dn)) by (rewrite KK; now apply in_map).
      apply in_map_iff in IK as (p2 & <- & IP2). now apply O2.
    - split; auto. exists add, (ps ++ [(k, c')]). split; auto. split; [|reflexivity]. apply all2_snoc; auto. split; auto. }
  (* PatternPropertiesString *)
  destruct (keyed_text G hm "PatternPropertiesString" J4 qs eq_refl eq_refl) with (qs := qs) (dn := @nil (string * constr)) as (t4 & D4 & S4); [| |reflexivity|].
  { intros k c IK. assert (IK2 : In (k, c) kc) by (eapply Permutation_in; [apply Permutation_sym; exact PQ|auto]).
    apply in_map_iff in IK2 as (p & E & IP). inversion E; subst. destruct (O5 _ IP) as [A B]. split; [now apply no_percent_plain|]. apply IH; auto.
    cbn. right. apply in_or_app. left. now apply in_map. }
  { intros dn k c rest n v c' n' E (add & ps & pats & H1 & H2 & H3 & H4 & ->) L LK st EN.
    exists (VC (CObj (mkO req add ps (pats ++ [((n', k), c')]) []))), (S n'). split.
    - cbn [call_method obj_method String.eqb Ascii.eqb Bool.eqb]. unfold obj_pattern. cbn [mkO o_props o_add o_pats o_propdeps o_req o_min o_max o_sdeps].
      rewrite pat_last; [subst n'; reflexivity|]. eapply Forall_impl; [|exact H4]. cbn. intros. lia.
    - split; [lia|]. exists add, ps, (pats ++ [((n', k), c')]). split; auto. split; auto. split; [apply all2_snoc; auto; split; auto|]. split; [|reflexivity].
      apply Forall_app. split; [eapply Forall_impl; [|exact H4]; cbn; intros; lia|]. constructor; auto. }
  cbn [app] in S3, S4.
  (* PropDependency *)
  set (froms := keys (o_propdeps o)).
  set (piece := fun p : string * string => "." +++ nl +++ "PropDependency(" +++ q (fst p) +++ ", " +++ q (snd p) +++ ")").
  assert (PP : forall p, In p (dep_pairs o froms) -> plain (fst p) = true /\ plain (snd p) = true).
  { intros [f t] I2. apply in_flat_map in I2 as (f2 & I3 & I4). apply in_map_iff in I4 as (t2' & E & I4). inversion E; subst. cbn [fst snd].
    unfold prop_deps in I4. destruct (sget f (o_propdeps o)) eqn:SG; [|contradiction]. apply sget_in in SG. destruct (O9 _ SG) as [A B]. cbn in A, B.
    rewrite allp_in in B. split; apply no_percent_plain; auto. }
  assert (S5 : forall rest dn, (forall p, In p rest -> plain (fst p) = true /\ plain (snd p) = true) -> SegS hm (cat (map piece rest)) (J5 dn) (J5 (dn ++ rest))).
  { intros rest. induction rest as [|[f t] rest IHr]; intros dn PR.
    - rewrite app_nil_r. now apply segs_nil.
    - cbn [map cat fold_right]. apply segs_app with (Q := J5 (dn ++ [(f, t)])).
      + destruct (PR (f, t)) as [P1 P2]; [cbn; auto|]. cbn [fst snd] in *.
        apply (segs_call hm "PropDependency" _ [EStr f; EStr t] _ _ eq_refl eq_refl).
        * cbn [fst snd]. change (", " +++ q t +++ ")") with (String "," (String " " (q t +++ ")"))).
          apply at_cons; [now left|now apply code_str|]. apply at_sp. now apply at_last, code_str.
        * intros st v R (add & ps & pats & H1 & H2 & H3 & ->).
          exists [VString f; VString t], (e_next st), (VC (CObj (mkO req add ps pats (fold_left dep_step (dn ++ [(f, t)]) [])))), (e_next st).
          rewrite bump_same. split; [reflexivity|]. split; auto. split; [|split; [auto|]].
          { cbn. rewrite fold_left_app. cbn [fold_left]. unfold dep_step at 2. cbn [fst snd]. now destruct st. }
          exists add, ps, pats. auto.
      + replace (dn ++ (f, t) :: rest) with ((dn ++ [(f, t)]) ++ rest) by (rewrite <- app_assoc; reflexivity). apply IHr. intros. apply PR. cbn. auto. }
  specialize (S5 (dep_pairs o froms) [] PP). cbn [app] in S5.
  assert (S2' : SegS hm t2 J1 (J3 [])).
  { destruct S2 as (ks & C & V). exists ks. split; auto. intros st v R P0. destruct (V st v R P0) as (v' & n' & E & L & add & A & ->).
    exists (VC (CObj (mkO req add [] [] []))), n'. split; auto. split; auto. exists add, []. cbn. auto. }
  assert (S3' : SegS hm t3 (J3 []) (J4 [])).
  { destruct S3 as (ks & C & V). exists ks. split; auto. intros st v R P0. destruct (V st v R P0) as (v' & n' & E & L & add & ps & A & B & ->).
    exists (VC (CObj (mkO req add ps [] []))), n'. split; auto. split; auto. exists add, ps, []. cbn. auto. }
  assert (S4' : SegS hm t4 (J4 []) (J5 [])).
  { destruct S4 as (ks & C & V). exists ks. split; auto. intros st v R P0. destruct (V st v R P0) as (v' & n' & E & L & add & ps & pats & A & B & C2 & D & ->).
    exists (VC (CObj (mkO req add ps pats []))), n'. split; auto. split; auto. exists add, ps, pats. cbn. auto. }
  assert (S := segs_app _ _ _ _ _ _ S1 (segs_app _ _ _ _ _ _ S2' (segs_app _ _ _ _ _ _ S3' (segs_app _ _ _ _ _ _ S4' S5)))).
  eapply (good_segs G hm (CObj o) (object_code G o (emit G (cm_of hm) (o_add o))
            (map (fun e : string * constr => (fst e, emit G (cm_of hm) (snd e))) (o_props o))
            (map (fun e : nat * string * constr => (fst e, emit G (cm_of hm) (snd e))) (o_pats o))) "Object" _ _ _ _ eq_refl eq_refl eq_refl); [|reflexivity|exact S|reflexivity|].
  - unfold object_code. eapply det_bind; [exact D1|]. eapply det_bind; [exact D2|].
    assert (KE : keys (map (fun e : string * constr => (fst e, emit G (cm_of hm) (snd e))) (o_props o)) = keys (o_props o)).
    { unfold keys. rewrite map_map. reflexivity. }
    eapply det_bind; [apply det_names; unfold ssorted; rewrite KE; exact O2|]. rewrite KE.
    eapply det_bind; [apply D3|].
    { intros k c IK. rewrite sget_map. rewrite (nodup_sget _ k c); [reflexivity| |auto]. now apply ssorted_nodup. }
    eapply det_bind.
    { instantiate (1 := t4). intros w.
      set (pats' := map (fun e : nat * string * constr => (fst e, emit G (cm_of hm) (snd e))) (o_pats o)).
      destruct (shuffle w pats') as [l w1] eqn:SH. apply shuffle_perm in SH.
      assert (SN : map (fun e : (nat * string) * gm string => snd (fst e)) pats' = map (fun e : (nat * string) * constr => snd (fst e)) (o_pats o)).
      { unfold pats'. rewrite map_map. reflexivity. }
      assert (ND : NoDup (map (fun e : (nat * string) * gm string => snd (fst e)) l)).
      { eapply Permutation_NoDup; [apply Permutation_map; exact SH|]. now rewrite SN. }
      assert (SRT : sort_s (map (fun e : (nat * string) * gm string => snd (fst e)) l) = map fst qs).
      { rewrite <- EQ. apply sort_perm. unfold kc. rewrite map_map. cbn [fst]. rewrite <- SN. apply Permutation_map, Permutation_sym, SH. }
      rewrite SRT. apply D4. intros k c IK.
      assert (IK2 : In (k, c) kc) by (eapply Permutation_in; [apply Permutation_sym; exact PQ|auto]).
      apply in_map_iff in IK2 as (p & E & IP). inversion E; subst k c.
      assert (IL : In (fst p, emit G (cm_of hm) (snd p)) l).
      { eapply Permutation_in; [exact SH|]. unfold pats'. apply in_map_iff. exists p. auto. }
      exact (fold_get (fun e : (nat * string) * gm string => snd (fst e)) snd l [] _ ND IL). }
    eapply det_bind; [apply det_names; exact O8|]. rewrite join_cat.
    replace (flat_map _ _) with (map piece (dep_pairs o froms)); [apply det_ret|].
    unfold dep_pairs, froms. generalize (keys (o_propdeps o)). intros fs. induction fs as [|f fs IHf]; [reflexivity|]. cbn [flat_map].
    rewrite map_app, IHf, map_map. reflexivity.
  - intros n v (add & ps & pats & H1 & H2 & H3 & ->). eexists. split; [reflexivity|].
    unfold likeR. cbn [regen like o_add o_props o_pats o_min o_max mkO].
    split; auto. split; [|split; [|split; [|split; [|repeat split; try reflexivity; try lia]]]].
    + clear - H2. revert ps H2. generalize (o_props o). intros l. induction l as [|c l IHl]; intros [|c' l']; cbn; auto. intros [[A A2] B]. split; auto.
    + apply all2_forall2 in H3. destruct (Permutation_Forall2 (Permutation_sym PQ) H3) as (pats2 & P2 & F2).
      exists pats2. split; [now apply Permutation_sym|]. apply all2_forall2 in F2. unfold kc in F2.
      clear - F2. revert pats2 F2. generalize (o_pats o). intros l. induction l as [|c l IHl]; intros [|c' l']; cbn; auto. intros [[A A2] B]. split; auto.
    + intros k. unfold is_required. cbn [o_req mkO]. unfold req. rewrite fold_req. cbn [sget].
      destruct (sget k (o_req o)) eqn:SG.
      * assert (M : mem k names = true) by (apply mem_In; unfold names; apply sget_some_keys; eauto). now rewrite M.
      * assert (M : mem k names = false) by (apply mem_false; now apply sget_none_keys). now rewrite M.
    + intros k. unfold prop_deps at 2. cbn [o_propdeps mkO]. fold (lookup k (fold_left dep_step (dep_pairs o froms) [])).
      rewrite dep_fold, dep_pairs_filter by (now apply ssorted_nodup). cbn [lookup sget app].
      unfold prop_deps. cbn [o_propdeps mkO]. destruct (mem k froms) eqn:M; [reflexivity|].
      apply mem_false in M. apply sget_none_keys in M. now rewrite M.
Qed.

Theorem emit_good G hm c : emittable hm c -> Good G hm c.
Proof.
  induction c as [c IH] using constr_subs_ind. intros O.
  destruct c as [| | |d|d s|d m|d m|a|o|l|l|l|l|x|nm]; try contradiction.
  - eapply good_atom with (x := "EmptyConstraint") (v := CEmpty); try reflexivity; discriminate.
  - eapply good_atom with (x := "NullConstraint") (v := CNull); try reflexivity; discriminate.
  - now apply good_bool.
  - now apply good_str.
  - now apply good_num.
  - now apply good_int.
  - apply good_arr; auto.
  - apply good_obj; auto. intros c IC. apply IH. cbn in *. destruct IC as [IC|IC]; auto. right. rewrite app_assoc. apply in_or_app. now left.
  - cbn [emittable] in O. rewrite allp_in in O. destruct l as [|x l].
    + eapply good_atom with (x := "EmptyConstraint") (v := CEmpty); try reflexivity; discriminate.
    + apply (good_combo G hm "Any" CAny); try reflexivity; try discriminate. auto.
  - cbn [emittable] in O. rewrite allp_in in O. destruct l as [|x l].
    + eapply good_atom with (x := "EmptyConstraint") (v := CEmpty); try reflexivity; discriminate.
    + apply (good_combo G hm "All" CAll); try reflexivity; try discriminate. auto.
  - cbn [emittable] in O. rewrite allp_in in O. destruct l as [|x l].
    + eapply good_atom with (x := "EmptyConstraint") (v := CEmpty); try reflexivity; discriminate.
    + apply (good_combo G hm "OneOf" COneOf); try reflexivity; try discriminate. auto.
  - destruct O as [-> O]. now apply good_ref.
Qed.
