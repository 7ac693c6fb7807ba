(** Process: running the generated file defines the validators and references it was made
    from. *)
From Coq Require Import DecimalString DecimalZ.
From Verif Require Import Base GoFloat GoValue Maybe Formats Constraint StructInfo Validate Reach ConstrInd Builder GoText GoLang GoEval Generator GenLex GenParse GenCode GenLike GenSpec GenFaith GenRound GenObj GenMain.
Open Scope string_scope.
Open Scope list_scope.

(** ** What Process expects: the names it is given can be declared next to each other *)
Definition has_refs (vs : list validator) : bool := match merge_refs vs with [] => false | _ => true end.
Definition names_ok (vs : list validator) : Prop :=
  let names := map v_name (name_all vs) in
  NoDup names /\
  forall n, In n names -> ident n = true /\ reserved n = false /\
    (has_refs vs = true -> n <> "M" /\ forall i, (i < List.length (merge_refs vs))%nat -> n <> ref_var i).
Definition contents_ok (vs : list validator) : Prop :=
  (forall v, In v vs -> emittable (has_refs vs) (v_root v) /\
     forall r c, In r (v_same v) -> sget r (merge_refs vs) = Some c -> c = v_root v) /\
  (forall n c, sget n (merge_refs vs) = Some c -> emittable true c).

(** what the run of the file leaves: each validator under its name, with a root like the
    round trip of the original one, and all references in the shared map *)
Definition rebuilt (vs : list validator) (st : estate) : Prop :=
  (forall v, In v (name_all vs) -> exists c, like (regen (v_root v)) c /\
     sget (v_name v) (e_vars st) = Some (VJ {| j_name := v_name v; j_map := has_refs vs; j_root := c |})) /\
  match e_cmap st with
  | None => merge_refs vs = []
  | Some R => forall n, match sget n (merge_refs vs), sget n R with
                        | Some c, Some c' => like (regen c) c' | None, None => True | _, _ => False end
  end.

(** ** Helpers *)
Lemma ident_plain x : ident x = true -> plain x = true.
Proof.
  unfold ident, plain. destruct x as [|c r]; [discriminate|]. rewrite !andb_true_iff. intros ((A & B) & _). cbn [all_chars]. rewrite andb_true_iff.
  assert (X : forall c, id_char c = true -> negb (Ascii.eqb c "%") = true).
  { intros c0 H. rewrite negb_true_iff. apply Ascii.eqb_neq. intros ->. discriminate H. }
  split.
  - apply X. unfold id_char. unfold id_start in A. now rewrite A.
  - eapply all_chars_imp; eauto.
Qed.
Lemma dec_inj a b : 0 <= a -> 0 <= b -> dec_Z a = dec_Z b -> a = b.
Proof.
  intros A B E. assert (X := numeral_value _ _ (dec_numeral a A)). assert (Y := numeral_value _ _ (dec_numeral b B)). rewrite E in X. congruence.
Qed.
Lemma ref_var_inj i j : ref_var i = ref_var j -> i = j.
Proof. unfold ref_var. intros H. inversion H as [K]. apply dec_inj in K; lia. Qed.
Lemma ref_var_ident i : ident (ref_var i) = true.
Proof.
  unfold ref_var. destruct (dec_numeral (Z.of_nat i)) as (_ & D & _); [lia|]. set (d := dec_Z (Z.of_nat i)) in *.
  change ("R" +++ d) with (String "R" d). unfold ident. rewrite !andb_true_iff, negb_true_iff. split; [split; [reflexivity|]|].
  - eapply all_chars_imp; [|exact D]. intros c H. unfold id_char. now rewrite H, orb_true_r.
  - unfold keyword. apply mem_false. cbn [In]. intros H. repeat (destruct H as [H|H]; [discriminate H|]). contradiction.
Qed.
Lemma ref_var_M i : ref_var i <> "M".
Proof. discriminate. Qed.
Lemma ref_var_free i : reserved (ref_var i) = false.
Proof. unfold reserved. apply mem_false. cbn [In]. intros H. repeat (destruct H as [H|H]; [discriminate H|]). contradiction. Qed.

Lemma merge_sorted vs : ssorted (merge_refs vs).
Proof.
  unfold merge_refs. assert (X : forall l m, ssorted m -> ssorted (fold_left (fun m v => fold_left (fun m e => match sget (fst e) m with Some _ => m | None => sset (fst e) (snd e) m end) (v_refs v) m) l m)).
  { induction l as [|v l IH]; intros m H; cbn; auto. apply IH. revert m H. generalize (v_refs v). induction l0 as [|e l0 IH0]; intros m H; cbn; auto.
    apply IH0. destruct (sget (fst e) m); auto. now apply sset_sorted. }
  apply X. constructor.
Qed.

Lemma sort_v_perm l : Permutation l (sort_v l).
Proof.
  induction l as [|v l IH]; [constructor|]. cbn [sort_v fold_right]. fold (sort_v l).
  transitivity (v :: sort_v l); [now constructor|]. clear IH. generalize (sort_v l). intros m. induction m as [|y m IH]; cbn [insert_v]; [auto|].
  destruct (String.compare (v_name v) (v_name y)); auto. transitivity (y :: v :: m); [constructor|]. now constructor.
Qed.
Lemma name_all_in vs v : In v (name_all vs) -> exists u, In u vs /\ v_root v = v_root u /\ v_same v = v_same u.
Proof.
  unfold name_all. intros H. apply in_map_iff in H as ([i u] & <- & I). apply in_combine_r in I. exists u. split; auto.
  cbn [fst snd]. unfold named. destruct (v_name u); auto.
Qed.

Lemma find_decl ds d : NoDup (map d_name ds) -> In d ds -> find (fun e => String.eqb (d_name e) (d_name d)) ds = Some d.
Proof.
  induction ds as [|e ds IH]; intros N I; [contradiction|]. cbn in *. inversion N; subst. destruct I as [->|I]; [now rewrite String.eqb_refl|].
  destruct (String.eqb_spec (d_name e) (d_name d)) as [E|_]; [|auto]. exfalso. apply H1. rewrite E. now apply in_map.
Qed.
Lemma nodup_bool l : NoDup l -> nodup_b l = true.
Proof. induction 1 as [|x l N _ IH]; [reflexivity|]. cbn. rewrite IH. apply mem_false in N. now rewrite N. Qed.

Lemma execs_app ds a b : forall st, execs ds (a ++ b) st = match execs ds a st with Some st' => execs ds b st' | None => None end.
Proof. induction a as [|s a IH]; intros st; [reflexivity|]. cbn. destruct (exec ds s st); auto. Qed.

Lemma exec_assign ds x e st v n d : NoDup (map d_name ds) -> In d ds -> d_name d = x -> eval e st = Some (v, bump st n) -> fits d v = true ->
  exec ds (SAssign (EId x) e) st = Some {| e_vars := sset x v (e_vars st); e_cmap := e_cmap st; e_next := n |}.
Proof. intros N I <- E F. cbn. rewrite find_decl by auto. rewrite E, F. reflexivity. Qed.

(** ** References *)
(** the value of the variable of a reference *)
Definition HoldsR (refs : list (string * constr)) (p : string * string) (st : estate) : Prop :=
  exists c c', sget (fst p) refs = Some c /\ like (regen c) c' /\ sget (snd p) (e_vars st) = Some (VC c').

Section Refs.
Variable G : genv.
Variable refs : list (string * constr).
Variable ds : list decl.
Hypothesis ds_nodup : NoDup (map d_name ds).
Hypothesis refs_ok : forall n c, sget n refs = Some c -> emittable true c.

Lemma refs_text todo : forall dn, (forall p, In p todo -> (exists c, sget (fst p) refs = Some c) /\ ident (snd p) = true /\ snd p <> "M" /\ In (the_decl (snd p) false "Constraint") ds) ->
  NoDup (map snd (dn ++ todo)) ->
  exists t ss, det (gconcat (map (fun e => get x <- match sget (fst e) refs with Some c => emit G "M" c | None => gret "" end;
                                          gret (nl +++ snd e +++ " = " +++ strip x)) todo)) t /\ Body t ss /\
    forall st, Ready true st -> e_cmap st = Some [] -> (forall p, In p dn -> HoldsR refs p st) ->
      exists st', execs ds ss st = Some st' /\ Ready true st' /\ e_cmap st' = Some [] /\ forall p, In p (dn ++ todo) -> HoldsR refs p st'.
Proof.
  induction todo as [|[n x] todo IH]; intros dn H ND.
  - exists "", []. split; [apply det_ret|]. split; [exact body_nil|]. intros st R C K. exists st. rewrite app_nil_r. auto.
  - destruct (H (n, x)) as ((c & SC) & IX & XM & ID); [cbn; auto|]. cbn [fst snd] in *.
    destruct (emit_good G true c (refs_ok _ _ SC)) as (s & e & D & C & L & V).
    destruct (IH (dn ++ [(n, x)])) as (t & ss & DT & BT & VT); [intros; apply H; cbn; auto|rewrite <- app_assoc; exact ND|].
    exists ((nl +++ x +++ " = " +++ strip s) +++ t), ([SAssign (EId x) e] ++ ss). split; [|split].
    + cbn [map gconcat fst snd]. eapply det_bind; [|eapply det_bind; [exact DT|apply det_ret]]. rewrite SC. eapply det_bind; [exact D|apply det_ret].
    + apply body_app; auto. now apply body_ref.
    + intros st R CM K. destruct (V st R) as (c' & n' & E & LN & LK).
      set (st1 := {| e_vars := sset x (VC c') (e_vars st); e_cmap := e_cmap st; e_next := n' |}).
      assert (E1 : exec ds (SAssign (EId x) e) st = Some st1) by (eapply exec_assign; eauto; reflexivity).
      destruct (VT st1) as (st' & X & R' & CM' & K').
      * intros _. cbn. rewrite sget_sset_other by auto. now apply R.
      * exact CM.
      * intros p I. apply in_app_or in I as [I|[<-|[]]].
        { destruct (K p I) as (c0 & c1 & A & B & E0). exists c0, c1. split; auto. split; auto. cbn. rewrite sget_sset_other; auto.
          intros EQ. rewrite map_app in ND. apply NoDup_remove_2 in ND. apply ND. apply in_or_app. left. cbn [map snd] in *. rewrite <- EQ. now apply in_map. }
        { exists c, c'. split; auto. split; auto. cbn. apply sget_sset_same. }
      * exists st'. cbn [app execs]. rewrite E1, X. split; auto. split; auto. split; auto. intros p I. apply K'. rewrite <- app_assoc. exact I.
Qed.

Lemma sets_text todo : forall dn, (forall p, In p todo -> ident (snd p) = true /\ reserved (snd p) = false) -> NoDup (map fst (dn ++ todo)) ->
  exists ss, Body (cat (map (fun e => nl +++ "M.SetReference(" +++ quote (g_print G) (fst e) +++ ", " +++ snd e +++ ")") todo)) ss /\
    forall st R, Ready true st -> e_cmap st = Some R -> (forall p, In p (dn ++ todo) -> HoldsR refs p st) ->
      (forall p, In p dn -> exists c c', sget (fst p) refs = Some c /\ like (regen c) c' /\ sget (fst p) R = Some c') ->
      (forall n, ~ In n (map fst dn) -> sget n R = None) ->
      exists st' R', execs ds ss st = Some st' /\ e_vars st' = e_vars st /\ e_cmap st' = Some R' /\
        (forall p, In p (dn ++ todo) -> exists c c', sget (fst p) refs = Some c /\ like (regen c) c' /\ sget (fst p) R' = Some c') /\
        (forall n, ~ In n (map fst (dn ++ todo)) -> sget n R' = None).
Proof.
  induction todo as [|[n x] todo IH]; intros dn H ND.
  - exists []. split; [exact body_nil|]. intros st R RD C K K2 K3. exists st, R. rewrite app_nil_r. auto.
  - destruct (H (n, x)) as (IX & XM); [cbn; auto|]. cbn [fst snd] in *.
    destruct (IH (dn ++ [(n, x)])) as (ss & BT & VT); [intros; apply H; cbn; auto|rewrite <- app_assoc; exact ND|].
    exists ([SExpr (ECall (ESel (EId "M") "SetReference") [EStr n; EId x])] ++ ss). split.
    + cbn [map cat fold_right fst snd]. apply body_app; [now apply body_set|exact BT].
    + intros st R RD C K K2 K3. destruct (K (n, x)) as (c & c' & SC & LK & SV); [apply in_or_app; cbn; auto|]. cbn [fst snd] in *.
      set (st1 := {| e_vars := e_vars st; e_cmap := Some (sset n c' R); e_next := e_next st |}).
      assert (E1 : exec ds (SExpr (ECall (ESel (EId "M") "SetReference") [EStr n; EId x])) st = Some st1).
      { unfold reserved in XM. apply mem_false in XM. cbn [In] in XM.
        cbn [exec eval is_pkg evals]. rewrite (RD eq_refl).
        change (String.eqb "M" "jsval") with false. change (String.eqb "M" "true") with false. change (String.eqb "M" "false") with false. cbn iota beta.
        destruct (String.eqb_spec x "true"); [subst; tauto|]. destruct (String.eqb_spec x "false"); [subst; tauto|].
        rewrite SV. cbn [call_method]. rewrite C. reflexivity. }
      assert (NN : ~ In n (map fst dn)).
      { rewrite map_app in ND. apply NoDup_remove_2 in ND. intros I. apply ND. apply in_or_app. now left. }
      destruct (VT st1 (sset n c' R)) as (st' & R' & X & EV & CM & Q1 & Q2).
      * exact RD.
      * reflexivity.
      * intros p I. rewrite <- app_assoc in I. destruct (K p I) as (c0 & c1 & A & B & D). exists c0, c1. auto.
      * intros p I. apply in_app_or in I as [I|[<-|[]]].
        { destruct (K2 p I) as (c0 & c1 & A & B & D). exists c0, c1. split; auto. split; auto. rewrite sget_sset_other; auto.
          intros EQ. apply NN. rewrite <- EQ. now apply in_map. }
        { exists c, c'. split; auto. split; auto. apply sget_sset_same. }
      * intros m NI. rewrite map_app in NI. cbn [map fst] in NI. rewrite sget_sset_other; [apply K3; intros I; apply NI; apply in_or_app; now left|].
        intros ->. apply NI. apply in_or_app. cbn. auto.
      * exists st', R'. cbn [app execs]. rewrite E1, X. rewrite <- app_assoc in Q1, Q2. auto.
Qed.
End Refs.

(** ** Validators *)
Lemma eval_M st : Ready true st -> eval (EId "M") st = Some (VM, st).
Proof. intros R. cbn [eval]. rewrite (R eq_refl). reflexivity. Qed.
Lemma ev1_one v st m e x st' : eval e st = Some (x, st') -> ev1 (Some (v, st)) (m, [e]) = call_method v m [x] st'.
Proof. intros E. cbn [ev1 fst snd]. now rewrite (evals_one _ _ _ _ E). Qed.

Section Validators.
Variable G : genv.
Variable hm : bool.
Variable refs : list (string * constr).
Variable vars : list (string * string).
Variable ds : list decl.
Hypothesis ds_nodup : NoDup (map d_name ds).
Hypothesis vars_get : forall r c, sget r refs = Some c -> exists x, sget r vars = Some x /\ ident x = true /\ reserved x = false /\ In (r, x) vars.

Lemma root_text v : ident (v_name v) = true -> emittable hm (v_root v) -> (forall r c, In r (v_same v) -> sget r refs = Some c -> c = v_root v) ->
  forall w, exists t e w', validator_code G (cm_of hm) vars refs v w = GOk (t, w') /\ Body (nl +++ v_name v +++ " = " +++ t) [SAssign (EId (v_name v)) e] /\
    forall st, Ready hm st -> (forall p, In p vars -> HoldsR refs p st) ->
      exists c n, eval e st = Some (VJ {| j_name := v_name v; j_map := hm; j_root := c |}, bump st n) /\ like (regen (v_root v)) c.
Proof.
  intros IV EM SM w. unfold validator_code, post, gbind.
  set (head := "jsval.New()." +++ nl +++ "SetName(" +++ quote (g_print G) (v_name v) +++ ")" +++
               when (negb (String.eqb (cm_of hm) "")) ("." +++ nl +++ "SetConstraintMap(" +++ cm_of hm +++ ")")).
  (* the calls before SetRoot *)
  assert (H : exists ks, Chain (String "." ("New" +++ "()") +++ (String "." (String newline ("SetName" +++ String "(" (quote (g_print G) (v_name v) +++ ")")))) +++
                         when (negb (String.eqb (cm_of hm) "")) ("." +++ nl +++ "SetConstraintMap(" +++ cm_of hm +++ ")")) (("New", []) :: ks) /\
              forall st, Ready hm st -> fold_left ev1 ks (Some (VJ {| j_name := ""; j_map := false; j_root := CNil |}, st)) =
                 Some (VJ {| j_name := v_name v; j_map := hm; j_root := CNil |}, st)).
  { destruct (chain_const_nl "SetName" _ _ eq_refl eq_refl (const_str (g_print G) (v_name v) (ident_plain _ IV))) as (e & C & V).
    assert (NW := chain_new "New" eq_refl eq_refl). destruct hm; cbn [cm_of String.eqb negb when].
    - assert (CM : Chain (String "." (String newline ("SetConstraintMap" +++ String "(" ("M" +++ ")")))) [("SetConstraintMap", [EId "M"])]).
      { apply chain_call_nl; auto. apply at_last. now apply code_id. }
      exists ([("SetName", [e])] ++ [("SetConstraintMap", [EId "M"])]). split.
      + exact (chain_app _ _ _ _ NW (chain_app _ _ _ _ C CM)).
      + intros st R. cbn [app fold_left]. rewrite (ev1_one _ _ _ _ _ _ (V st)). cbn [call_method]. 
        change (String.eqb "SetName" "SetName") with true. cbn iota. rewrite (ev1_one _ _ _ _ _ _ (eval_M st R)). reflexivity.
    - exists [("SetName", [e])]. split.
      + exact (chain_app _ _ _ _ NW (chain_app _ _ _ _ C chain_nil)).
      + intros st R. cbn [app fold_left ev1 fst snd evals]. rewrite V. reflexivity. }
  destruct H as (ks & CH & VH).
  set (hd := String "." ("New" +++ "()") +++ _) in CH.
  assert (HD : head = "jsval" +++ hd) by (unfold head, hd; cbn [String.append]; rewrite !sapp_assoc; reflexivity).
  destruct (shuffle w (keys refs)) as [order w1] eqn:SH. apply shuffle_perm in SH.
  destruct (find (fun r => mem r (v_same v)) order) as [r|] eqn:FD.
  - apply find_some in FD as [I M]. apply mem_In in M.
    assert (IK : In r (keys refs)) by (eapply Permutation_in; [apply Permutation_sym; exact SH|auto]).
    apply sget_some_keys in IK as [c SC]. destruct (vars_get _ _ SC) as (x & SX & IX & RX & IV2).
    assert (RT : Chain (String "." (String newline ("SetRoot" +++ String "(" (x +++ ")")))) [("SetRoot", [EId x])]).
    { apply chain_call_nl; auto. apply at_last. apply code_id; auto. now apply ident_plain. }
    assert (CC := chain_app _ _ _ _ CH RT).
    set (tx := hd +++ String "." (String newline ("SetRoot" +++ String "(" (x +++ ")")))) in CC.
    assert (NE : tx <> "") by discriminate.
    assert (CD := code_chain "jsval" tx _ eq_refl eq_refl CC NE).
    exists ("jsval" +++ tx), (fold_left app1 ((("New", []) :: ks) ++ [("SetRoot", [EId x])]) (EId "jsval")), w1. split; [|split].
    + rewrite SX. rewrite HD.
      replace (("jsval" +++ hd) +++ "." +++ nl +++ "SetRoot(" +++ x +++ ")") with ("jsval" +++ tx) by (unfold tx; rewrite !sapp_assoc; reflexivity).
      unfold gret. rewrite trim_last by (eapply chain_last; eauto). rewrite fprintf_plain by apply CD. reflexivity.
    + apply body_assign; auto.
    + intros st R HV. destruct (HV _ IV2) as (c0 & c' & S0 & LK & SV). cbn [fst snd] in *. rewrite SC in S0. inversion S0; subst c0.
      exists c', (e_next st). rewrite bump_same. cbn [app]. rewrite eval_jsval. cbn [evals call_fun String.eqb Ascii.eqb Bool.eqb option_map].
      rewrite fold_left_app, VH by auto. cbn [fold_left ev1 fst snd evals eval].
      unfold reserved in RX. apply mem_false in RX. cbn [In] in RX.
      destruct (String.eqb_spec x "true"); [subst; tauto|]. destruct (String.eqb_spec x "false"); [subst; tauto|]. rewrite SV. cbn.
      split; [reflexivity|]. now rewrite <- (SM r c M SC).
  - destruct (emit_good G hm _ EM) as (s & e & D & C & L & V). destruct (D w1) as [w2 E2].
    assert (RT : Chain (String "." (String newline ("SetRoot" +++ String "(" (String newline (s +++ "," +++ nl +++ ")"))))) [("SetRoot", [e])]).
    { apply chain_call_nl; auto. apply at_nl. change ("," +++ nl +++ ")") with (String "," (String newline ")")). apply at_cons; auto; [now left|].
      apply at_nl, at_close. now left. }
    assert (CC := chain_app _ _ _ _ CH RT).
    set (tx := hd +++ String "." (String newline ("SetRoot" +++ String "(" (String newline (s +++ "," +++ nl +++ ")"))))) in CC.
    assert (NE : tx <> "") by discriminate.
    assert (CD := code_chain "jsval" tx _ eq_refl eq_refl CC NE).
    assert (T1 : head +++ "." +++ nl +++ "SetRoot(" +++ nl +++ s +++ "," +++ nl +++ ")" +++ nl =
                 (head +++ "." +++ nl +++ "SetRoot(" +++ nl +++ s +++ "," +++ nl) +++ ")" +++ nl) by (rewrite !sapp_assoc; reflexivity).
    assert (T2 : head +++ "." +++ nl +++ "SetRoot(" +++ nl +++ s +++ "," +++ nl +++ ")" +++ nl = ("jsval" +++ tx) +++ nl).
    { rewrite HD. unfold tx.
      change (String "." (String newline ("SetRoot" +++ String "(" (String newline (s +++ "," +++ nl +++ ")")))))
        with ("." +++ nl +++ "SetRoot(" +++ nl +++ s +++ "," +++ nl +++ ")").
      rewrite !sapp_assoc. reflexivity. }
    exists (("jsval" +++ tx) +++ nl), (fold_left app1 ((("New", []) :: ks) ++ [("SetRoot", [e])]) (EId "jsval")), w2. split; [|split].
    + rewrite E2. unfold gret. rewrite T1, trim_paren, <- T1, T2.
      rewrite fprintf_plain; [reflexivity|]. rewrite plain_app. destruct CD as [-> _]. reflexivity.
    + apply body_assign_nl; auto.
    + intros st R HV. destruct (V st R) as (c' & n' & E & LN & LK). exists c', n'. split; auto.
      cbn [app]. rewrite eval_jsval. cbn [evals call_fun String.eqb Ascii.eqb Bool.eqb option_map].
      rewrite fold_left_app, VH by auto. cbn [fold_left ev1 fst snd]. rewrite (evals_one _ _ _ _ E). reflexivity.
Qed.

Lemma validators_text todo : forall dn,
  (forall v, In v todo -> ident (v_name v) = true /\ emittable hm (v_root v) /\ In (the_decl (v_name v) true "JSVal") ds /\ (hm = true -> v_name v <> "M") /\
     (forall r x, In (r, x) vars -> v_name v <> x) /\ (forall r c, In r (v_same v) -> sget r refs = Some c -> c = v_root v)) ->
  NoDup (map v_name (dn ++ todo)) ->
  forall w, exists t ss w', gconcat (map (fun v => get x <- validator_code G (cm_of hm) vars refs v; gret (nl +++ v_name v +++ " = " +++ x)) todo) w = GOk (t, w') /\ Body t ss /\
    forall st, Ready hm st -> (forall p, In p vars -> HoldsR refs p st) ->
      (forall v, In v dn -> exists c, like (regen (v_root v)) c /\ sget (v_name v) (e_vars st) = Some (VJ {| j_name := v_name v; j_map := hm; j_root := c |})) ->
      exists st', execs ds ss st = Some st' /\ e_cmap st' = e_cmap st /\
        forall v, In v (dn ++ todo) -> exists c, like (regen (v_root v)) c /\ sget (v_name v) (e_vars st') = Some (VJ {| j_name := v_name v; j_map := hm; j_root := c |}).
Proof.
  induction todo as [|v todo IH]; intros dn H ND w.
  - exists "", [], w. split; [reflexivity|]. split; [exact body_nil|]. intros st R C K. exists st. rewrite app_nil_r. auto.
  - destruct (H v) as (IV & EM & ID & NM & NV & SM); [cbn; auto|].
    destruct (root_text v IV EM SM w) as (t & e & w1 & E & B & V).
    destruct (IH (dn ++ [v])) with (w := w1) as (t2 & ss & w2 & E2 & B2 & V2); [intros; apply H; cbn; auto|rewrite <- app_assoc; exact ND|].
    exists ((nl +++ v_name v +++ " = " +++ t) +++ t2), ([SAssign (EId (v_name v)) e] ++ ss), w2. split; [|split].
    + cbn [map gconcat]. unfold gbind in *. rewrite E. unfold gret in *. rewrite E2. reflexivity.
    + now apply body_app.
    + intros st R HV K. destruct (V st R HV) as (c & n & EE & LK).
      set (j := VJ {| j_name := v_name v; j_map := hm; j_root := c |}).
      set (st1 := {| e_vars := sset (v_name v) j (e_vars st); e_cmap := e_cmap st; e_next := n |}).
      assert (E1 : exec ds (SAssign (EId (v_name v)) e) st = Some st1) by (eapply exec_assign; eauto; reflexivity).
      destruct (V2 st1) as (st' & X & CM & Q).
      * intros HM. cbn [e_vars st1]. rewrite sget_sset_other; [now apply R|]. intros EQ. now apply NM.
      * intros [r x] I. destruct (HV _ I) as (c0 & c1 & A & BB & D). exists c0, c1. split; auto. split; auto. cbn [fst snd e_vars st1] in *.
        rewrite sget_sset_other; auto. intros EQ. eapply NV; eauto.
      * intros u I. apply in_app_or in I as [I|[<-|[]]].
        { destruct (K u I) as (c0 & A & D). exists c0. split; auto. cbn [e_vars st1]. rewrite sget_sset_other; auto.
          intros EQ. rewrite map_app in ND. cbn [map] in ND. apply NoDup_remove_2 in ND. apply ND. apply in_or_app. left. rewrite <- EQ. now apply in_map. }
        { exists c. split; auto. cbn. apply sget_sset_same. }
      * exists st'. cbn [app execs]. rewrite E1, X. split; auto. split; auto. intros u I. apply Q. rewrite <- app_assoc. exact I.
Qed.
End Validators.

(** ** The file *)
Lemma decl_list {A} (f : A -> string) (g : A -> decl) l : (forall x, In x l -> DeclText (f x) [g x]) -> DeclText (join "" (map f l)) (map g l).
Proof.
  rewrite join_cat. induction l as [|x l IH]; intros H; [exact decls_nil|]. cbn [map cat fold_right].
  apply (decls_app _ [g x]); [apply H; cbn; auto|]. apply IH. intros. apply H. cbn. auto.
Qed.
Lemma sget_combine (ks : list string) : forall (xs : list string) k, NoDup ks -> List.length ks = List.length xs -> In k ks ->
  exists x, sget k (combine ks xs) = Some x /\ In (k, x) (combine ks xs).
Proof.
  induction ks as [|k0 ks IH]; intros [|x xs] k N L I; try discriminate; [contradiction|]. cbn in *. inversion N; subst.
  destruct (String.eqb_spec k k0) as [->|NE]; [exists x; split; auto|]. destruct I as [->|I]; [congruence|].
  destruct (IH xs k) as (y & S1 & S2); auto. exists y. auto.
Qed.
Lemma map_snd_combine {A B} (l : list A) : forall (m : list B), List.length l = List.length m -> map snd (combine l m) = m.
Proof. induction l; intros [|y m] L; try discriminate; cbn; auto. f_equal. apply IHl. now inversion L. Qed.
Lemma map_fst_combine {A B} (l : list A) : forall (m : list B), List.length l = List.length m -> map fst (combine l m) = l.
Proof. induction l; intros [|y m] L; try discriminate; cbn; auto. f_equal. apply IHl. now inversion L. Qed.
Lemma nodup_ref_vars a n : NoDup (map ref_var (seq a n)).
Proof.
  revert a. induction n as [|n IH]; intros a; cbn; constructor; auto. intros I. apply in_map_iff in I as (i & E & I).
  apply ref_var_inj in E. subst. apply in_seq in I. lia.
Qed.

Lemma nodup_join {A} (a b : list A) : NoDup a -> NoDup b -> (forall x, In x a -> In x b -> False) -> NoDup (a ++ b).
Proof.
  induction 1 as [|x a N ND IH]; intros NB D; cbn; auto. constructor.
  - intros I. apply in_app_or in I as [I|I]; [auto|]. apply (D x); cbn; auto.
  - apply IH; auto. intros y I1 I2. apply (D y); cbn; auto.
Qed.

Theorem process_rebuilds G vs : names_ok vs -> contents_ok vs -> forall w,
  exists s w' st, process G vs w = GOk (s, w') /\ run_go s = Some st /\ rebuilt vs st.
Proof.
  intros [ND NO] [RO CO] w.
  set (refs := merge_refs vs) in *. set (hm := has_refs vs) in *. set (vs1 := name_all vs) in *.
  set (names := keys refs). set (vars := combine names (map ref_var (seq 0 (List.length names)))).
  assert (SRT : ssorted refs) by apply merge_sorted.
  assert (NDK : NoDup names) by now apply ssorted_nodup.
  assert (LEN : List.length names = List.length (map ref_var (seq 0 (List.length names)))) by now rewrite map_length, seq_length.
  assert (LR : List.length names = List.length refs) by (unfold names, keys; apply map_length).
  assert (MF : map fst vars = names) by now apply map_fst_combine.
  assert (MS : map snd vars = map ref_var (seq 0 (List.length names))) by now apply map_snd_combine.
  assert (VI : forall p, In p vars -> exists i, (i < List.length refs)%nat /\ snd p = ref_var i).
  { intros p I. apply (in_map snd) in I. rewrite MS in I. apply in_map_iff in I as (i & E & I). apply in_seq in I. exists i. split; auto. lia. }
  assert (HMR : refs <> [] <-> hm = true).
  { unfold hm, has_refs. fold refs. destruct refs; split; congruence. }
  assert (VHM : forall p, In p vars -> hm = true).
  { intros p I. apply HMR. intros E. unfold vars, names in I. rewrite E in I. contradiction. }
  set (mds := match refs with [] => [] | _ => the_decl "M" true "ConstraintMap" :: map (fun e => the_decl (snd e) false "Constraint") vars end).
  set (ds := map (fun n => the_decl n true "JSVal") (sort_s (map v_name vs1)) ++ mds).
  assert (PN : Permutation (map v_name vs1) (sort_s (map v_name vs1))) by apply Permutation_sym, sort_perm_self.
  assert (DN : map d_name ds = sort_s (map v_name vs1) ++ map d_name mds).
  { unfold ds. rewrite map_app, map_map. cbn [d_name the_decl]. now rewrite map_id. }
  assert (MN : forall x, In x (map d_name mds) -> hm = true /\ (x = "M" \/ exists i, (i < List.length refs)%nat /\ x = ref_var i)).
  { intros x I. unfold mds in I. destruct refs as [|p0 rs] eqn:ER; [contradiction|]. rewrite <- ER in *. split; [apply HMR; rewrite ER; discriminate|].
    cbn [map d_name the_decl In] in I. destruct I as [<-|I]; auto. right. rewrite map_map in I. cbn [d_name the_decl] in I.
    apply in_map_iff in I as (p & <- & I). now apply VI. }
  assert (NDS : NoDup (map d_name ds)).
  { rewrite DN. apply nodup_join.
    - eapply Permutation_NoDup; eauto.
    - unfold mds. destruct refs as [|p0 rs]; [constructor|]. cbn [map d_name the_decl]. rewrite map_map. cbn [d_name the_decl]. change (map (fun x => snd x) vars) with (map snd vars). rewrite MS.
      constructor; [|apply nodup_ref_vars]. intros I. apply in_map_iff in I as (i & E & _). discriminate E.
    - intros x I1 I2. apply (Permutation_in _ (Permutation_sym PN)) in I1. destruct (NO x I1) as (_ & _ & N3).
      apply MN in I2 as (HM & C). destruct (N3 HM) as [N4 N5]. destruct C as [->|(i & L & ->)]; [congruence|]. now apply (N5 i L). }
  (* declarations *)
  assert (DT : DeclText (join "" (map (fun n => nl +++ "var " +++ n +++ " *jsval.JSVal") (sort_s (map v_name vs1))) +++
                         match refs with [] => "" | _ => nl +++ "var M *jsval.ConstraintMap" +++ join "" (map (fun e => nl +++ "var " +++ snd e +++ " jsval.Constraint") vars) end) ds).
  { unfold ds. apply decls_app.
    - apply (decl_list (fun n => nl +++ "var " +++ n +++ " *jsval.JSVal") (fun n => the_decl n true "JSVal")). intros n I.
      apply (decl_one n true "JSVal"); [|reflexivity]. apply NO. eapply Permutation_in; [apply Permutation_sym; exact PN|exact I].
    - unfold mds. destruct refs as [|p0 rs] eqn:ER; [exact decls_nil|]. 
      change (nl +++ "var M *jsval.ConstraintMap" +++ ?x) with ((nl +++ "var " +++ "M" +++ " *jsval." +++ "ConstraintMap") +++ x).
      apply (decls_app _ [the_decl "M" true "ConstraintMap"]); [now apply (decl_one "M" true "ConstraintMap")|].
      apply (decl_list (fun e : string * string => nl +++ "var " +++ snd e +++ " jsval.Constraint") (fun e => the_decl (snd e) false "Constraint")). intros p I.
      destruct (VI p I) as (i & _ & E). apply (decl_one (snd p) false "Constraint"); [|reflexivity]. rewrite E. apply ref_var_ident. }
  (* references *)
  assert (RT : exists t ss, det (match refs with [] => gret "" | _ =>
       get body <- gconcat (map (fun e => get x <- match sget (fst e) refs with Some c => emit G (cm_of hm) c | None => gret "" end;
                                          gret (nl +++ snd e +++ " = " +++ strip x)) vars);
       gret (nl +++ "M = &jsval.ConstraintMap{}" +++ body +++ join "" (map (fun e => nl +++ "M.SetReference(" +++ quote (g_print G) (fst e) +++ ", " +++ snd e +++ ")") vars)) end) t /\ Body t ss /\
    exists st, execs ds ss {| e_vars := []; e_cmap := None; e_next := 0 |} = Some st /\ Ready hm st /\ (forall p, In p vars -> HoldsR refs p st) /\
       match e_cmap st with None => refs = [] | Some R => forall n, match sget n refs, sget n R with Some c, Some c' => like (regen c) c' | None, None => True | _, _ => False end end).
  { assert (B : refs = [] \/ refs <> []) by (destruct refs; [now left|right; discriminate]). destruct B as [B|B].
    - exists "", []. split; [destruct refs; [apply det_ret|congruence]|]. split; [exact body_nil|]. eexists. split; [reflexivity|]. split; [|split].
      + intros HM. apply HMR in HM. congruence.
      + intros p I. apply VHM, HMR in I. congruence.
      + exact B.
    - assert (HM : hm = true) by now apply HMR.
      assert (IDM : In (the_decl "M" true "ConstraintMap") ds /\ forall p, In p vars -> In (the_decl (snd p) false "Constraint") ds).
      { unfold ds, mds. split; [|intros p I]; apply in_or_app; right; (destruct refs; [congruence|]); cbn [In]; auto. right.
        now apply (in_map (fun e : string * string => the_decl (snd e) false "Constraint")). }
      destruct IDM as [IDM IDR].
      destruct (refs_text G refs ds NDS CO vars []) as (t1 & s1 & D1 & B1 & V1).
      { intros p I. destruct (VI p I) as (i & _ & E). split.
        - apply (in_map fst) in I. rewrite MF in I. apply sget_some_keys in I as [c I]. eauto.
        - split; [rewrite E; apply ref_var_ident|]. split; [rewrite E; apply ref_var_M|auto]. }
      { cbn [app]. rewrite MS. apply nodup_ref_vars. }
      destruct (sets_text G refs ds vars []) as (s2 & B2 & V2).
      { intros p I. destruct (VI p I) as (i & _ & E). rewrite E. split; [apply ref_var_ident|apply ref_var_free]. }
      { cbn [app]. now rewrite MF. }
      exists ((nl +++ "M = &jsval.ConstraintMap{}") +++ t1 +++ cat (map (fun e => nl +++ "M.SetReference(" +++ quote (g_print G) (fst e) +++ ", " +++ snd e +++ ")") vars)).
      exists ([SAssign (EId "M") (EAddr "jsval" "ConstraintMap")] ++ s1 ++ s2). split; [|split].
      + destruct refs as [|p0 rs] eqn:ER; [congruence|]. rewrite <- ER in *. rewrite join_cat, HM. eapply det_bind; [exact D1|]. apply det_ret.
      + apply body_app; [exact body_map|]. now apply body_app.
      + set (st0 := {| e_vars := []; e_cmap := None; e_next := 0 |}).
        set (st1 := {| e_vars := [("M", VM)]; e_cmap := Some []; e_next := 0 |}).
        assert (E0 : exec ds (SAssign (EId "M") (EAddr "jsval" "ConstraintMap")) st0 = Some st1).
        { cbn [exec]. change "M" with (d_name (the_decl "M" true "ConstraintMap")). rewrite find_decl by auto. reflexivity. }
        destruct (V1 st1) as (st2 & X2 & R2 & C2 & H2); [intros _; reflexivity|reflexivity|intros p []|].
        destruct (V2 st2 [] R2 C2 H2) as (st3 & R & X3 & EV & C3 & Q1 & Q2); [intros p []|reflexivity|].
        exists st3. cbn [app execs]. rewrite E0. rewrite execs_app, X2, X3. split; [reflexivity|]. split; [|split].
        * intros _. rewrite EV. now apply R2.
        * intros p I. destruct (H2 p I) as (c & c' & A & L & S). exists c, c'. rewrite EV. auto.
        * rewrite C3. intros n. destruct (sget n refs) as [c|] eqn:SN.
          -- assert (IN : In n names) by (apply sget_some_keys; eauto). rewrite <- MF in IN. apply in_map_iff in IN as (p & <- & I).
             destruct (Q1 p I) as (c0 & c' & A & L & S). rewrite S. rewrite SN in A. inversion A; subst. exact L.
          -- rewrite Q2; [exact I|]. cbn [app]. rewrite MF. now apply sget_none_keys. }
  destruct RT as (t1 & ss1 & D1 & B1 & st1 & X1 & R1 & H1 & C1).
  (* the oracle before the validators *)
  assert (CM : match refs with [] => "" | _ => "M" end = cm_of hm).
  { unfold hm, has_refs. fold refs. destruct refs; reflexivity. }
  assert (DNM : det (sorted_names refs) names) by now apply det_names.
  destruct (DNM w) as [w1 EW1]. destruct (D1 w1) as [w2 EW2].
  assert (PV : Permutation vs1 (sort_v vs1)) by apply sort_v_perm.
  destruct (validators_text G hm refs vars ds NDS) with (todo := sort_v vs1) (dn := @nil validator) (w := w2) as (t2 & ss2 & w3 & E3 & B3 & V3).
  { intros r c SR. assert (I : In r names) by (apply sget_some_keys; eauto).
    destruct (sget_combine names _ r NDK LEN I) as (x & S1 & S2). exists x. fold vars in S1, S2.
    destruct (VI _ S2) as (i & _ & E). cbn in E. subst x. split; auto. split; [apply ref_var_ident|]. split; [apply ref_var_free|auto]. }
  { intros v I. apply (Permutation_in _ (Permutation_sym PV)) in I. assert (IN : In (v_name v) (map v_name vs1)) by now apply in_map.
    destruct (NO _ IN) as (N1 & N2 & N3). destruct (name_all_in _ _ I) as (u & IU & EU & SU). destruct (RO u IU) as [RO1 RO2].
    split; auto. split; [rewrite EU; exact RO1|]. split.
    { unfold ds. apply in_or_app. left. apply (in_map (fun n => the_decl n true "JSVal")). eapply Permutation_in; eauto. }
    split.
    { intros HM. now apply N3. }
    split.
    { intros r x IV. assert (HM := VHM _ IV). destruct (VI _ IV) as (i & L & E). cbn in E. subst x. now apply N3. }
    rewrite EU, SU. exact RO2. }
  { cbn [app]. eapply Permutation_NoDup; [|exact ND]. now apply Permutation_map. }
  destruct (V3 st1 R1 H1) as (st & X & CE & Q); [intros v []|].
  set (text := (join "" (map (fun n => nl +++ "var " +++ n +++ " *jsval.JSVal") (sort_s (map v_name vs1))) +++
                         match refs with [] => "" | _ => nl +++ "var M *jsval.ConstraintMap" +++ join "" (map (fun e => nl +++ "var " +++ snd e +++ " jsval.Constraint") vars) end)
               +++ nl +++ "func init() {" +++ (t1 +++ t2) +++ nl +++ "}").
  assert (PG := parse_file _ _ _ _ DT (body_app _ _ _ _ B1 B3)). fold text in PG.
  exists text, w3, st. split; [|split].
  - assert (PT : (get rnames <- sorted_names refs;
   let vars := combine rnames (map ref_var (seq 0 (List.length rnames))) in
   let rdecls := match refs with
                 | [] => ""%string
                 | _ => nl +++ "var M *jsval.ConstraintMap" +++
                        join "" (map (fun e => nl +++ "var " +++ snd e +++ " jsval.Constraint") vars)
                 end in
   get rcode <- match refs with
                | [] => gret ""%string
                | _ =>
                    get body <- gconcat (map (fun e =>
                        get x <- match sget (fst e) refs with Some c => emit G (cm_of hm) c | None => gret ""%string end;
                        gret (nl +++ snd e +++ " = " +++ strip x)) vars);
                    gret (nl +++ "M = &jsval.ConstraintMap{}" +++ body +++
                          join "" (map (fun e => nl +++ "M.SetReference(" +++ quote (g_print G) (fst e) +++ ", " +++ snd e +++ ")") vars))
                end;
   get vcode <- gconcat (map (fun v => get x <- validator_code G (cm_of hm) vars refs v; gret (nl +++ v_name v +++ " = " +++ x)) (sort_v vs1));
   gret (join "" (map (fun n => nl +++ "var " +++ n +++ " *jsval.JSVal") (sort_s (map v_name vs1))) +++ rdecls +++ nl +++ "func init() {" +++ rcode +++ vcode +++ nl +++ "}")) w = GOk (text, w3)).
    { unfold gbind at 1. rewrite EW1. fold vars. cbv zeta. unfold gbind at 1.
      match goal with |- match ?m w1 with _ => _ end = _ => change (m w1) with (m w1); replace (m w1) with (GOk (t1, w2)) by (symmetry; exact EW2) end.
      unfold gbind at 1. rewrite E3. unfold gret, text. rewrite !sapp_assoc. reflexivity. }
    rewrite <- CM in PT. change (process_text G vs w = GOk (text, w3)) in PT.
    unfold process, gbind. rewrite PT, PG. reflexivity.
  - unfold run_go. rewrite PG. unfold run_file. cbn [f_decls f_body].
    rewrite (nodup_bool _ NDS). assert (FR : forallb (fun x => negb (reserved x)) (map d_name ds) = true).
    { apply forallb_forall. intros x I. rewrite DN in I. apply in_app_or in I as [I|I].
      - apply (Permutation_in _ (Permutation_sym PN)) in I. destruct (NO x I) as (_ & -> & _). reflexivity.
      - apply MN in I as [_ [->|(i & _ & ->)]]; [reflexivity|now rewrite ref_var_free]. }
    rewrite FR. cbn [andb]. rewrite execs_app, X1. exact X.
  - split.
    + intros v I. apply Q. cbn [app]. eapply Permutation_in; eauto.
    + rewrite CE. exact C1.
Qed.
