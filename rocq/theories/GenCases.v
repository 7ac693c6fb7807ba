(** Concrete validators through the generator: cases meeting the hypotheses of the theorems on
    generated code, and the losses (C47, C48, C49). *)
From Verif Require Import Base GoFloat GoValue Maybe Formats Constraint StructInfo Validate Reach ConstrInd Local Builder GoText GoLang GoEval Generator GenLex GenParse GenCode GenLike GenSpec GenFaith GenRound GenObj GenMain GenProcess GenTheorems GenLoss GenDet.
From Verif Require Refuted.
Open Scope Z_scope.
Open Scope string_scope.
Open Scope list_scope.

Definition G0 : genv := {| g_print := fun _ => true; g_bad := fun _ _ => "bad" |}.
Definition E0 : env := Refuted.env0 Refuted.no_refs.
Definition val (c : constr) : validator := {| v_name := "Root"; v_root := c; v_refs := []; v_same := [] |}.

(** ** C48 *)
(** the generated code runs and gives a validator with the outcomes of the original *)
Definition lossless (E : env) (G : genv) (v : validator) : Prop := forall w,
  exists s w' st j, process G [v] w = GOk (s, w') /\ run_go s = Some st /\
    sget (v_name (named 0 v)) (e_vars st) = Some (VJ j) /\
    forall n x r x', outcomes E (own_refs v) (v_name (named 0 v)) "" (v_root v) n x r x' <-> outcomes E (run_refs st) (j_name j) "" (j_root j) n x r x'.
Definition lossless_full : Prop := forall E G v, ssorted (v_refs v) -> names_ok [v] -> lossless E G v.

Lemma val_names c : names_ok [val c].
Proof.
  split; [repeat constructor; cbn; tauto|]. intros n [<-|[]]. split; [reflexivity|]. split; [reflexivity|]. discriminate.
Qed.

(** generation fails *)
Definition no_code (c : constr) : Prop := exists e, process G0 [val c] [] = GErr e \/ process G0 [val c] [] = GPanic e.
(** the text is Go, but does not compile or panics when run *)
Definition no_run (c : constr) : Prop := exists s w, process G0 [val c] [] = GOk (s, w) /\ run_go s = None.
(** the generated validator gives the other verdict on x *)
Definition Verdict (n : nat) (E : env) (c : constr) (x : gval) (b : bool) : Prop :=
  forall w, exists r w', validate n E c x w = (r, x, w') /\ if b then r = Pass else exists m, r = Fail m.
Definition flipped (c : constr) (x : gval) : Prop := exists s w st j n b,
  process G0 [val c] [] = GOk (s, w) /\ run_go s = Some st /\ sget "Root" (e_vars st) = Some (VJ j) /\
  Verdict n (set_refs E0 (own_refs (val c))) c x b /\ Verdict n (set_refs E0 (run_refs st)) (j_root j) x (negb b).

Lemma no_code_loses c : no_code c -> ~ lossless E0 G0 (val c).
Proof. intros [e H] L. destruct (L []) as (s & w & st & j & P & _). destruct H as [H|H]; rewrite H in P; discriminate. Qed.
Lemma no_run_loses c : no_run c -> ~ lossless E0 G0 (val c).
Proof. intros (s0 & w0 & P0 & R0) L. destruct (L []) as (s & w & st & j & P & R & _). congruence. Qed.
Lemma flipped_loses c x : flipped c x -> ~ lossless E0 G0 (val c).
Proof.
  intros (s0 & w0 & st0 & j0 & n & b & P0 & R0 & S0 & V1 & V2) L. destruct (L []) as (s & w & st & j & P & R & S1 & EQ).
  rewrite P0 in P. inversion P; subst s w. rewrite R0 in R. inversion R; subst st. change (v_name (named 0 (val c))) with "Root" in S1.
  rewrite S0 in S1. inversion S1; subst j. clear P R S1.
  destruct (V1 []) as (r & w1 & X1 & B1).
  assert (O1 : exists r0, outcomes E0 (own_refs (val c)) "Root" "" c n x r0 x /\ if b then r0 = Pass else exists m, r0 = Fail m).
  { destruct b; [subst r; exists Pass|destruct B1 as [m ->]; exists (Fail ("validator Root failed: " +++ m))]; split; eauto;
      exists [], w1; unfold jsval_validate; rewrite X1; reflexivity. }
  destruct O1 as (r0 & O1 & B0). apply EQ in O1. destruct O1 as (u & u' & O1). unfold jsval_validate in O1.
  destruct (V2 u) as (r2 & w2 & X2 & B2). rewrite X2 in O1. destruct b; cbn [negb] in B2.
  - destruct B2 as [m ->]. subst r0. discriminate.
  - subst r2. destruct B0 as [m ->]. discriminate.
Qed.

Ltac flip n b := eexists _, _, _, _, n, b; split; [vm_compute; reflexivity|]; split; [vm_compute; reflexivity|];
  split; [vm_compute; reflexivity|]; split; (intros w; destruct w as [|[|?] [|[|?] [|[|?] ?]]]; eexists _, _; (split; [vm_compute; reflexivity|]; cbn; eauto)).

Definition num_lit (m : positive) (e : Z) : f64 := S754_finite false m e.
(** multipleOf 2; enum [3]; a bound of 2^-30; multipleOf for integers; integer >= 1.5 *)
Definition c_multiple := CNum None (num_multipleOf (f64_of_Z 2) new_num).
Definition c_num_enum := CNum None (num_enum [gfloat (f64_of_Z 3)] new_num).
Definition c_small := CNum None (num_maximum (num_lit 4503599627370496 (-82)) new_num).
Definition c_int_bound := CInt None (num_minimum (num_lit 6755399441055744 (-52)) new_num).
Definition open_obj := obj_additional CEmpty new_obj.
Definition c_max_props := CObj (obj_max 0 open_obj).
Definition c_min_props := CObj (obj_min 2 open_obj).
Definition c_sdep := CObj (obj_schemaDep "a" CNull (obj_addProp "a" CEmpty open_obj)).
Definition c_fixed := CArr (arr_additional CNil (arr_positional [CEmpty] new_arr)).
Definition c_none := CAny [].
Definition c_none1 := COneOf [].
Definition c_percent := CStr None (str_enum [gstr "5%d"] new_str).
Definition c_not := CNot CNull.
Definition c_enum := CEnum [gstr "a"].
Definition c_str_noenum := CStr None (str_enum [] new_str).
Definition c_bool_enum := CStr None (str_enum [gbool true] new_str).
Definition c_undefined := CRef "r".

Theorem losses :
  Forall (fun p => flipped (fst p) (snd p))
    [(c_multiple, Refuted.num 3); (c_num_enum, Refuted.num 4); (c_small, gfloat (num_lit 4503599627370496 (-82))); (c_int_bound, Refuted.num 1);
     (c_max_props, Refuted.jobj [("a", Refuted.num 1)]); (c_min_props, Refuted.jobj [("a", Refuted.num 1)]);
     (c_sdep, Refuted.jobj [("a", Refuted.num 1)]); (c_fixed, Refuted.jarr [Refuted.num 1; Refuted.num 2]);
     (c_none, Refuted.num 1); (c_none1, Refuted.num 1); (c_percent, gstr "5%d")] /\
  Forall no_code [c_not; c_enum; c_str_noenum; c_bool_enum] /\ Forall no_run [c_undefined].
Proof.
  split; [|split].
  - repeat (apply Forall_cons; [cbn [fst snd]; first [solve [flip 5%nat false]|solve [flip 5%nat true]]|]). constructor.
  - repeat (apply Forall_cons; [eexists; first [left; vm_compute; reflexivity|right; vm_compute; reflexivity]|]). constructor.
  - repeat (apply Forall_cons; [eexists _, _; split; [vm_compute; reflexivity|vm_compute; reflexivity]|]). constructor.
Qed.

Theorem lossless_refuted : ~ lossless_full.
Proof.
  intros H. refine (flipped_loses c_multiple (Refuted.num 3) _ (H E0 G0 (val c_multiple) _ (val_names _))).
  - destruct losses as [L _]. apply Forall_inv in L. exact L.
  - constructor.
Qed.
(** none of them survives *)
Theorem losses_are_losses : Forall (fun c => ~ lossless E0 G0 (val c))
  [c_multiple; c_num_enum; c_small; c_int_bound; c_max_props; c_min_props; c_sdep; c_fixed; c_none; c_none1; c_percent;
   c_not; c_enum; c_str_noenum; c_bool_enum; c_undefined].
Proof.
  destruct losses as (L1 & L2 & L3).
  repeat match goal with
  | L : Forall _ (_ :: _) |- _ => inversion L; clear L; subst
  end.
  cbn [fst snd] in *. repeat (apply Forall_cons; [first [eapply flipped_loses; eassumption|apply no_code_loses; assumption|apply no_run_loses; assumption]|]). constructor.
Qed.

(** ** C47: a case *)
Definition s1 : constr := CStr (Some (gstr "a""b")) (str_enum [gstr "x"; GInt "int64" Kint64 (-5); gfloat (f64_of_Z 3)] (str_regexp "^a\d+$" (str_minLength 2 new_str))).
Definition o1 : constr := CObj (obj_propDep "a" ["b";"c"] (obj_pattern (7%nat,"^x") CNull
  (obj_pattern (3%nat,"^y") (CArr (arr_positional [CEmpty; CAll []; CRef "r"] new_arr))
  (obj_addProp "z" s1 (obj_addProp "y" (CAny [CNull; CBool (Some (gbool true))]) (obj_required ["q";"p"] new_obj)))))).
Definition refs1 : list (string * constr) :=
  [("r", CInt None (num_minimum (f64_of_Z 3) new_num)); ("s", CNum (Some (gfloat (f64_of_Z (-7)))) (num_maximum (f64_of_Z 100) new_num))].
Definition v1 : validator := {| v_name := ""; v_root := o1; v_refs := refs1; v_same := [] |}.
Definition v2 : validator := {| v_name := "Other"; v_root := CInt None (num_minimum (f64_of_Z 3) new_num);
  v_refs := [("r", CInt None (num_minimum (f64_of_Z 3) new_num))]; v_same := ["r"] |}.

Lemma np s : plain s = true -> no_percent s.
Proof.
  intros P a b ->. rewrite plain_app in P. apply andb_true_iff in P as [_ P]. cbn in P. discriminate.
Qed.
Ltac npt := apply np; reflexivity.

Lemma case_merge : merge_refs [v1; v2] = refs1.
Proof. reflexivity. Qed.
Theorem case_names : names_ok [v1; v2].
Proof.
  split.
  - vm_compute. repeat constructor; cbn; intuition discriminate.
  - intros n [<-|[<-|[]]]; (split; [reflexivity|]; split; [reflexivity|]; intros _; split; [discriminate|]);
      rewrite case_merge; cbn [refs1 List.length]; intros [|[|i]] L; try lia; discriminate.
Qed.
Theorem case_contents : contents_ok [v1; v2].
Proof.
  assert (R : forall n c, sget n refs1 = Some c -> emittable true c).
  { intros n c H. unfold refs1 in H. cbn [sget] in H. destruct (String.eqb n "r"); [|destruct (String.eqb n "s"); [|discriminate]]; inversion H; subst.
    - cbn. exact I.
    - cbn. repeat split; vm_compute; discriminate. }
  split; [|rewrite case_merge; exact R].
  intros v [<-|[<-|[]]].
  - split; [|intros r c []].
    cbn. repeat (split || (left; reflexivity) || npt || (vm_compute; repeat constructor; cbn; intuition discriminate) || exact I || reflexivity || (vm_compute; discriminate)).
  - split; [cbn; auto|]. intros r c [<-|[]] H. inversion H. reflexivity.
Qed.
Theorem case_faithful : (forall v, In v [v1; v2] -> faithful (v_root v)) /\ (forall n c, sget n (merge_refs [v1; v2]) = Some c -> faithful c).
Proof.
  assert (N : faithful (CInt None (num_minimum (f64_of_Z 3) new_num))).
  { cbn. repeat split; try discriminate. intros _. left. vm_compute. reflexivity. }
  split.
  - intros v [<-|[<-|[]]]; [|exact N].
    cbn. repeat (split || reflexivity || exact I || lia || (left; discriminate) || discriminate).
  - rewrite case_merge. intros n c H. unfold refs1 in H. cbn [sget] in H.
    destruct (String.eqb n "r"); [|destruct (String.eqb n "s"); [|discriminate]]; inversion H; subst; [exact N|].
    cbn. split; [split; [reflexivity|split; [reflexivity|vm_compute; reflexivity]]|]. repeat split; try discriminate. intros _. left. vm_compute. reflexivity.
Qed.
(** hence the generated pair behaves like the original pair *)
Theorem case_equivalent : forall w, exists s w' st j1 j2, process G0 [v1; v2] w = GOk (s, w') /\ run_go s = Some st /\
  sget "V0" (e_vars st) = Some (VJ j1) /\ sget "Other" (e_vars st) = Some (VJ j2) /\
  Same E0 (own_refs v1) o1 (run_refs st) (j_root j1) /\ Same E0 (own_refs v2) (v_root v2) (run_refs st) (j_root j2).
Proof.
  intros w. destruct case_faithful as [F1 F2].
  destruct (generated_code_equivalent E0 G0 [v1; v2] case_names case_contents F1 F2 w) as (s & w' & st & P & R & B).
  destruct (B 0%nat v1 eq_refl) as (j1 & A1 & _ & A3 & _).
  { intros n _. rewrite case_merge. reflexivity. }
  destruct (B 1%nat v2 eq_refl) as (j2 & B1 & _ & B3 & _).
  { intros n H. exfalso. inversion H as [|? ? ? I]. contradiction I. }
  exists s, w', st, j1, j2. auto 10.
Qed.

(** ** C49 *)
Definition order_free_full : Prop := forall G c w w', same_out (emit G "" c w) (emit G "" c w').
(** two patterns with one source: which constraint is written depends on the order *)
Definition twice : constr := CObj (obj_pattern (1%nat, "^x") CNull (obj_pattern (2%nat, "^x") CEmpty new_obj)).
Theorem order_free_refuted : ~ order_free_full.
Proof. intros H. specialize (H G0 twice [] [1%nat]). vm_compute in H. discriminate. Qed.
(** a root registered under two names *)
Definition process_order_free_full : Prop := forall G vs w w', (forall v, In v vs -> distinct_sources (v_root v)) ->
  (forall n c, sget n (merge_refs vs) = Some c -> distinct_sources c) -> same_out (process G vs w) (process G vs w').
Definition both : validator := {| v_name := "Root"; v_root := CBool None; v_refs := [("a", CBool None); ("b", CBool None)]; v_same := ["a"; "b"] |}.
Theorem process_order_free_refuted : ~ process_order_free_full.
Proof.
  intros H. specialize (H G0 [both] [] [0; 0; 1]%nat). assert (X : same_out (process G0 [both] []) (process G0 [both] [0; 0; 1]%nat)).
  { apply H.
    - intros v [<-|[]]. exact I.
    - intros n c. cbn. destruct (String.eqb n "a"); [|destruct (String.eqb n "b"); [|discriminate]]; intros E; inversion E; exact I. }
  vm_compute in X. discriminate.
Qed.
Theorem case_steady : one_same [v1; v2] /\ (forall v, In v [v1; v2] -> distinct_sources (v_root v)) /\
  (forall n c, sget n (merge_refs [v1; v2]) = Some c -> distinct_sources c).
Proof.
  split; [|split].
  - intros v [<-|[<-|[]]] r r' I1 I2 _ _; [contradiction|]. destruct I1 as [<-|[]], I2 as [<-|[]]. reflexivity.
  - intros v [<-|[<-|[]]]; [|exact I]. cbn. repeat (split || exact I). repeat constructor; cbn; intuition discriminate.
  - rewrite case_merge. intros n c. cbn. destruct (String.eqb n "r"); [|destruct (String.eqb n "s"); [|discriminate]]; intros E; inversion E; exact I.
Qed.
