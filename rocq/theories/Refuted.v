(** Properties a user would expect that the code does not have.  Each [..._full] is the
    expected statement; the theorem after it refutes it with a concrete run.  The exact
    guarded versions are proved elsewhere and named in MANIFEST.json. *)
From Verif Require Import Base GoFloat FloatSpec FloatProofs GoValue Maybe Formats HostSpec Constraint StructInfo Validate Fuel Reach ReadOnly Preserve Spec SpecSound SpecObj SpecMain Terminate Scalars Structure Composite.
Open Scope Z_scope.
Open Scope string_scope.

(** An environment for the witnesses.  Patterns used here contain no metacharacters, for
    which Go's regexp.MatchString is substring search. *)
Fixpoint contains (p s : string) : bool :=
  String.prefix p s || match s with EmptyString => false | String _ r => contains p r end.

Definition env0 (refs : string -> option constr) : env :=
  {| e_rx := contains; e_time := fun _ => inr "bad time"; e_email := fun _ => Some "bad address"; e_uri := fun _ => true;
     e_ip := fun s => String.eqb s "fe80::1" || String.eqb s "127.0.0.1"; e_ffmt := fun _ => "f"; e_sprint := fun _ => "?";
     e_refs := refs |}.
Definition no_refs : string -> option constr := fun _ => None.
Definition one_ref (n : string) (c : constr) : string -> option constr := fun m => if String.eqb m n then Some c else None.

Definition jobj (m : list (string * gval)) : gval := {{"map[string]interface {}", "interface {}"}} m.
Definition jarr (l : list gval) : gval := GSlice "[]interface {}" true (Some l).
Definition num (z : Z) : gval := gfloat (f64_of_Z z).
Definition str : constr := CStr None new_str.
Definition str_def (d : gval) : constr := CStr (Some d) new_str.
Definition number : constr := CNum None new_num.

Lemma run_it E n c v w o : validate n E c v w = o -> rs o <> OOF -> Runs E c v w o.
Proof. intros. exists n. auto. Qed.
Ltac run n := apply (run_it _ n); [vm_compute; reflexivity|discriminate].

(** ** C03 *)
Definition every_pattern_full : Prop := forall E o T ET m w v' w' k x p c,
  ssorted (o_props o) -> ssorted m -> Runs E (CObj o) ({{T,ET}} m) w (Pass, v', w') ->
  sget k m = Some x -> sget k (o_props o) = None -> In (p, c) (o_pats o) -> e_rx E (snd p) k = true ->
  ~ Fails E c x.

Definition o_c03 : objcfg := obj_pattern (0%nat, "a") number (obj_pattern (1%nat, "b") str new_obj).

Theorem every_pattern_refuted : ~ every_pattern_full.
Proof.
  intros H.
  assert (R : Runs (env0 no_refs) (CObj o_c03) (jobj [("ab", gstr "x")]) [1%nat] (Pass, jobj [("ab", gstr "x")], [])) by run 5%nat.
  refine (H _ _ _ _ _ _ _ _ "ab" (gstr "x") (0%nat, "a") number _ _ R eq_refl eq_refl _ eq_refl _).
  - vm_compute. repeat constructor.
  - vm_compute. repeat constructor.
  - vm_compute. auto.
  - exists [], "value is not a float", (gstr "x"), []. run 1%nat.
Qed.

(** the same input is accepted or rejected depending on the iteration order *)
Theorem pattern_order_matters : exists E c v w1 w2,
  (exists v' w', Runs E c v w1 (Pass, v', w')) /\ (exists m v' w', Runs E c v w2 (Fail m, v', w')).
Proof.
  exists (env0 no_refs), (CObj o_c03), (jobj [("ab", gstr "x")]), [1%nat], []. split.
  - eexists _, _. run 5%nat.
  - eexists _, _, _. run 5%nat.
Qed.

(** ** C04 *)
Definition failure_leaves_no_trace_full : Prop := forall E c v w m v' w',
  Runs E c v w (Fail m, v', w') -> v' = v.

Definition o_c04 : objcfg := obj_addProp "a" (str_def (gstr "x")) (obj_addProp "b" (CInt None new_num) new_obj).

Theorem failure_leaves_no_trace_refuted : ~ failure_leaves_no_trace_full.
Proof.
  intros H.
  assert (R : exists m, Runs (env0 no_refs) (CObj o_c04) (jobj [("b", gstr "s")]) [] (Fail m, jobj [("a", gstr "x"); ("b", gstr "s")], []))
    by (eexists; run 5%nat).
  destruct R as [m R]. apply H in R. discriminate.
Qed.

(** an alternative that accepts the caller's value does not guarantee that Any accepts it *)
Definition any_complete_full : Prop := forall E l c v w r v' w',
  In c l -> Decides E c v true -> Runs E (CAny l) v w (r, v', w') -> r = Pass.

Definition alts_c04 : list constr := [CObj o_c04; CObj (obj_addProp "b" str new_obj)].

Lemma runs_fix E c v b : (exists n, forall w, exists r w', validate n E c v w = (r, v, w') /\ if b : bool then r = Pass else exists m, r = Fail m) ->
  Decides E c v b.
Proof.
  intros [n H] w r v' w' HR. destruct (H w) as (r0 & w0 & H0 & Hr).
  assert (R0 : Runs E c v w (r0, v, w0)).
  { exists n. split; auto. cbn. destruct b; [subst; discriminate|destruct Hr as [? ->]; discriminate]. }
  pose proof (Runs_det _ _ _ _ _ _ HR R0) as Q. injection Q as -> -> ->. auto.
Qed.

Theorem any_complete_refuted : ~ any_complete_full.
Proof.
  intros H.
  assert (R : exists m v', Runs (env0 no_refs) (CAny alts_c04) (jobj [("b", gstr "s")]) [] (Fail m, v', []))
    by (eexists _, _; run 6%nat).
  destruct R as (m & v' & R).
  assert (D : Decides (env0 no_refs) (CObj (obj_addProp "b" str new_obj)) (jobj [("b", gstr "s")]) true).
  - apply runs_fix. exists 5%nat. intros w. exists Pass.
    destruct w as [|[|k1] [|[|k2] w]]; eexists; (split; [vm_compute; reflexivity|reflexivity]).
  - specialize (H _ alts_c04 _ _ _ _ _ _ (or_intror (or_introl eq_refl)) D R). discriminate.
Qed.

(** the verdict of Any depends on the iteration order *)
Theorem any_order_matters : exists E c v w1 w2,
  (exists v' w', Runs E c v w1 (Pass, v', w')) /\ (exists m v' w', Runs E c v w2 (Fail m, v', w')).
Proof.
  exists (env0 no_refs), (CAny alts_c04), (jobj [("b", gstr "s")]), [1%nat], []. split.
  - eexists _, _. run 6%nat.
  - eexists _, _, _. run 6%nat.
Qed.

(** ** C05 *)
Definition no_data_lost_full : Prop := forall E c v w r v' w',
  Runs E c v w (r, v', w') -> ext (declared E c) v v'.

(** Validate(&x) with x an interface{} holding a map: the entry is overwritten *)
Definition c_c05 : constr := CObj (obj_addProp "a" (str_def (gstr "default")) new_obj).
Definition v_c05 : gval := GPtr "*interface {}" 1 (Some (true, jobj [("a", gstr "data")])).

Theorem no_data_lost_refuted : ~ no_data_lost_full.
Proof.
  intros H.
  assert (R : exists m, Runs (env0 no_refs) c_c05 v_c05 [] (Fail m, GPtr "*interface {}" 1 (Some (true, jobj [("a", gstr "default")])), []))
    by (eexists; run 5%nat).
  destruct R as [m R]. apply H in R. inversion R as [| | |? ? ? ? ? R1| |]; subst.
  inversion R1 as [| |? ? ? ? ? ? ? H1 H2 H3| | |]; subst.
  specialize (H2 "a" (gstr "data") (gstr "default") eq_refl eq_refl). inversion H2.
Qed.

(** a nil default removes an entry of a map[string]MaybeString that is present but invalid *)
Definition c_c05' : constr := CObj (obj_addProp "a" (str_def GNil) new_obj).
Definition v_c05' (m : list (string * gval)) : gval := GMap "map[string]jsval.MaybeString" KString false "jsval.MaybeString" (Some m).
Theorem nil_default_removes_entry :
  exists m, Runs (env0 no_refs) c_c05' (v_c05' [("a", GMaybe (MString false "old"))]) [] (Fail m, v_c05' [], []).
Proof. eexists. run 5%nat. Qed.

(** ** C08 *)
Definition required_full : Prop := forall E o T ET m w r v' w' k,
  ssorted (o_props o) -> ssorted m -> Runs E (CObj o) ({{T,ET}} m) w (r, v', w') ->
  is_required o k = true -> sget k m = None -> r <> Pass.

Theorem required_refuted : ~ required_full.
Proof.
  intros H.
  assert (R : Runs (env0 no_refs) (CObj (obj_required ["a"] new_obj)) (jobj []) [] (Pass, jobj [], [])) by run 5%nat.
  refine (H _ _ _ _ _ _ _ _ _ "a" _ _ R eq_refl eq_refl eq_refl); vm_compute; repeat constructor.
Qed.

(** ** C09 *)
Definition propdeps_full : Prop := forall E o T ET m w v' w' k d,
  ssorted (o_props o) -> ssorted m -> Runs E (CObj o) ({{T,ET}} m) w (Pass, v', w') ->
  In k (keys m) -> In d (prop_deps o k) -> In d (keys m).

Theorem propdeps_refuted : ~ propdeps_full.
Proof.
  intros H.
  assert (R : Runs (env0 no_refs) (CObj (obj_propDep "a" ["b"] (obj_additional CEmpty new_obj))) (jobj [("a", num 1)]) []
                (Pass, jobj [("a", num 1)], [])) by run 5%nat.
  apply (H _ _ _ _ _ _ _ _ "a" "b") in R; [vm_compute in R; intuition discriminate|..]; vm_compute; auto; repeat constructor.
Qed.

(** a dependency that is present is reported missing *)
Definition propdeps_complete_full : Prop := forall E o T ET m w msg v' w' k d,
  ssorted (o_props o) -> ssorted m -> In d (prop_deps o k) -> In d (keys m) ->
  Runs E (CObj o) ({{T,ET}} m) w (Fail msg, v', w') -> msg <> ("required dependency '" +++ d +++ "' is mising").

Theorem propdeps_complete_refuted : ~ propdeps_complete_full.
Proof.
  intros H. pose (o := obj_propDep "a" ["b"] (obj_addProp "a" CEmpty (obj_additional CEmpty new_obj))).
  pose (m := [("a", num 1); ("b", num 1)]).
  assert (R : Runs (env0 no_refs) (CObj o) (jobj m) [] (Fail "required dependency 'b' is mising", jobj m, [])) by run 5%nat.
  refine (H _ o _ _ m _ _ _ _ "a" "b" _ _ _ _ R _); vm_compute; auto; repeat constructor.
Qed.

(** ** C14 *)
Definition positional_full : Prop := forall E a T i l w m v' w',
  a_items a = CNil -> a_add a <> CNil -> a_uniq a = false -> a_min a = -1 -> a_max a = -1 ->
  (forall j x c, nth_error l j = Some x -> nth_error (a_pos a) j = Some c -> Decides E c x true) ->
  (forall j x, nth_error l j = Some x -> nth_error (a_pos a) j = None -> Decides E (a_add a) x true) ->
  ~ Runs E (CArr a) (GSlice T i (Some l)) w (Fail m, v', w').

Theorem positional_refuted : ~ positional_full.
Proof.
  intros H. pose (a := arr_positional [number] (arr_additional str new_arr)). pose (l := [num 1; gstr "x"]).
  assert (R : exists m v', Runs (env0 no_refs) (CArr a) (jarr l) [] (Fail m, v', [])) by (eexists _, _; run 5%nat).
  destruct R as (m & v' & R). refine (H _ a _ _ l _ m v' _ eq_refl _ eq_refl eq_refl eq_refl _ _ R).
  - discriminate.
  - intros [|[|j]] x c H1 H2; cbn in H1, H2; try discriminate.
    all: try (destruct j; discriminate).
    injection H1 as <-. injection H2 as <-. apply runs_fix. exists 1%nat. intros w. exists Pass, w. split; [vm_compute|]; reflexivity.
  - intros [|[|j]] x H1 H2; cbn in H1, H2; try discriminate.
    all: try (destruct j; discriminate).
    injection H1 as <-. apply runs_fix. exists 1%nat. intros w. exists Pass, w. split; [vm_compute|]; reflexivity.
Qed.

(** ** C15 *)
Definition unique_exact_full : Prop := forall E a T i l w out,
  NoDup l -> Runs E (CArr (arr_unique true a)) (GSlice T i (Some l)) w out ->
  Runs E (CArr (arr_unique false a)) (GSlice T i (Some l)) w out.

Theorem unique_exact_refuted : ~ unique_exact_full.
Proof.
  intros H. pose (l := [gstr "[a b]"; jarr [gstr "a"; gstr "b"]]).
  assert (R : Runs (env0 no_refs) (CArr (arr_unique true new_arr)) (jarr l) [] (Fail "duplicate element found", jarr l, [])) by run 5%nat.
  apply H in R.
  - assert (R2 : Runs (env0 no_refs) (CArr (arr_unique false new_arr)) (jarr l) [] (Pass, jarr l, [])) by run 5%nat.
    pose proof (Runs_det _ _ _ _ _ _ R R2). discriminate.
  - repeat constructor; cbn; intuition discriminate.
Qed.

(** ** C25 *)
Definition ipv6_full : Prop := forall E s w r v' w', e_ip E s = true -> In ":"%char (chars s) ->
  Runs E (CStr None (fmt_only "ipv6")) (gstr s) w (r, v', w') -> r = Pass.

Theorem ipv6_refuted : ~ ipv6_full.
Proof.
  intros H.
  assert (R : exists m, Runs (env0 no_refs) (CStr None (fmt_only "ipv6")) (gstr "fe80::1") [] (Fail m, gstr "fe80::1", []))
    by (eexists; run 1%nat).
  destruct R as [m R]. apply H in R; [discriminate|reflexivity|vm_compute; tauto].
Qed.

(** ** C29: reference cycles that do not descend never return *)
(** S is closed under "what Validate calls first on the same value" *)
Definition head_cycle (E : env) (S : constr -> Prop) : Prop := forall c, S c ->
  match c with
  | CRef n => exists c', e_refs E n = Some c' /\ S c'
  | CAny (x :: _) | CAll (x :: _) | COneOf (x :: _) => S x
  | CNot x => x <> CNil /\ S x
  | _ => False
  end.

Theorem cycle_diverges E S : head_cycle E S -> forall n c v w, S c -> rs (validate n E c v w) = OOF.
Proof.
  intros H. induction n as [|n IH]; intros c v w Sc; [reflexivity|].
  pose proof (H c Sc) as Hc. cbn [validate].
  destruct c as [| | | | | | | | | |l|l|l|x|name]; try contradiction.
  - destruct l as [|x l]; [contradiction|]. cbn [any_loop]. specialize (IH x v w Hc).
    destruct (validate n E x v w) as [[[] ?] ?]; try discriminate; auto.
  - destruct l as [|x l]; [contradiction|]. cbn [all_loop]. specialize (IH x v w Hc).
    destruct (validate n E x v w) as [[[] ?] ?]; try discriminate; auto.
  - destruct l as [|x l]; [contradiction|]. cbn [oneof_loop]. specialize (IH x v w Hc).
    destruct (validate n E x v w) as [[[] ?] ?]; try discriminate; auto.
  - destruct Hc as [Nx Hx]. unfold not_validate. specialize (IH x v w Hx).
    destruct (validate n E x v w) as [[[] ?] ?]; try discriminate. destruct x; auto. congruence.
  - destruct Hc as (c' & -> & Hc'). auto.
Qed.

Definition cyclic_reported_full : Prop := forall E name, e_refs E name = Some (CRef name) ->
  forall v w, exists r v' w', Runs E (CRef name) v w (r, v', w').

Theorem cyclic_reported_refuted : ~ cyclic_reported_full.
Proof.
  intros H. pose (E := env0 (one_ref "r" (CRef "r"))).
  destruct (H E "r" eq_refl GNil []) as (r & v' & w' & n & HV & N).
  pose proof (cycle_diverges E (fun c => c = CRef "r")) as D.
  rewrite <- HV in N. apply N. apply D; auto. intros c ->. exists (CRef "r"). auto.
Qed.

(** mutual recursion through combinators diverges too *)
Example cycle_mutual n v w : rs (validate n (env0 (fun m => if String.eqb m "p" then Some (CAll [CRef "q"; number])
   else if String.eqb m "q" then Some (CNot (CRef "p")) else None)) (CRef "p") v w) = OOF.
Proof.
  apply cycle_diverges with (S := fun c => In c [CRef "p"; CAll [CRef "q"; number]; CRef "q"; CNot (CRef "p")]); [|cbn; auto].
  intros c Hc. cbn in Hc. repeat (destruct Hc as [<-|Hc]; [cbn; try (eexists; split; [reflexivity|]); cbn; intuition discriminate|]). destruct Hc.
Qed.

(** C28 needs its guard on defaults: a descending reference cycle that feeds itself with
    object defaults never returns *)
Definition loop_defs : constr :=
  CAll [CObj (obj_addProp "a" (str_def (jobj [])) (obj_additional CEmpty new_obj));
        CObj (obj_addProp "a" (CRef "r") (obj_additional CEmpty new_obj))].

Definition descending_terminates_full : Prop := forall E c, finite_refs E -> guarded E ->
  forall v w, exists r v' w', Runs E c v w (r, v', w').

Lemma loop_run n : let E := env0 (one_ref "r" loop_defs) in
  rs (validate n E (CRef "r") (jobj []) []) = OOF /\ rs (validate n E loop_defs (jobj []) []) = OOF.
Proof.
  cbv zeta. set (E := env0 (one_ref "r" loop_defs)).
  induction n as [n IH] using lt_wf_ind.
  assert (A : rs (validate n E loop_defs (jobj []) []) = OOF).
  { destruct n as [|[|[|n]]]; try reflexivity.
    change (validate (S (S (S n))) E loop_defs (jobj []) []) with
      (match validate (S (S n)) E (CObj (obj_addProp "a" (str_def (jobj [])) (obj_additional CEmpty new_obj))) (jobj []) [] with
       | (Pass, v', w') => match validate (S (S n)) E (CObj (obj_addProp "a" (CRef "r") (obj_additional CEmpty new_obj))) v' w' with
                           | (Pass, v2, w2) => (Pass, v2, w2) | o => o end
       | o => o end).
    assert (V1 : validate (S (S n)) E (CObj (obj_addProp "a" (str_def (jobj [])) (obj_additional CEmpty new_obj))) (jobj []) [] = (Pass, jobj [("a", jobj [])], []))
      by (vm_compute; reflexivity).
    rewrite V1.
    assert (V2 : rs (validate (S (S n)) E (CObj (obj_addProp "a" (CRef "r") (obj_additional CEmpty new_obj))) (jobj [("a", jobj [])]) []) = OOF).
    { assert (Q := proj1 (IH (S n) ltac:(lia))). cbn [validate]. unfold obj_validate.
      cbn [jobj deref1 valueOf elem get_names keys map fst o_min o_max obj_addProp obj_additional new_obj andb Z.ltb Z.compare Pos.compare Pos.compare_cont
           o_props sset sget shuffle shuffle_n List.length next take_nth props_loop get_prop look_prop is_maybe String.eqb Ascii.eqb Bool.eqb].
      change (GMap "map[string]interface {}" KString true "interface {}" (Some [])) with (jobj []).
      cbn [validate] in Q. 
      destruct (validate (S n) E (CRef "r") (jobj []) []) as [[[] ?] ?] eqn:HV; cbn [validate] in HV; rewrite HV in Q |- *; try discriminate. reflexivity. }
    destruct (validate (S (S n)) E (CObj (obj_addProp "a" (CRef "r") (obj_additional CEmpty new_obj))) _ _) as [[[] ?] ?]; try discriminate; auto. }
  split; auto.
  destruct n as [|n]; auto. cbn [validate]. change (e_refs E "r") with (Some loop_defs). cbn iota beta.
  apply (proj2 (IH n ltac:(lia))).
Qed.

(** ** C52 *)
Definition repeatable_full : Prop := forall E c v w v1 w1 w2 r v2 w3,
  Runs E c v w (Pass, v1, w1) -> Runs E c v1 w2 (r, v2, w3) -> r = Pass /\ v2 = v1.

Theorem repeatable_refuted : ~ repeatable_full.
Proof.
  intros H. pose (c := CObj (obj_addProp "a" (str_def (num 5)) new_obj)).
  assert (R1 : Runs (env0 no_refs) c (jobj []) [] (Pass, jobj [("a", num 5)], [])) by run 5%nat.
  assert (R2 : exists m v', Runs (env0 no_refs) c (jobj [("a", num 5)]) [] (Fail m, v', [])) by (eexists _, _; run 5%nat).
  destruct R2 as (m & v' & R2). destruct (H _ _ _ _ _ _ _ _ _ _ R1 R2). discriminate.
Qed.

(** also with a default that satisfies its constraint, because of maxProperties *)
Theorem repeatable_refuted_count : exists E c v v1,
  Passes E c v v1 /\ Fails E c v1 /\ (forall d, declared E c d -> d = gstr "ok").
Proof.
  pose (o := obj_max 0 (obj_addProp "a" (str_def (gstr "ok")) new_obj)).
  exists (env0 no_refs), (CObj o), (jobj []), (jobj [("a", gstr "ok")]). splits.
  - exists [], []. run 5%nat.
  - exists [], "more properties than maxProperties", (jobj [("a", gstr "ok")]), []. run 5%nat.
  - intros d (o' & k & p & R & I & D). inversion R as [|? x ? I1 R1]; subst.
    + cbn in I. destruct I as [I|[]]. injection I as <- <-. inversion D; auto.
    + cbn in I1. destruct I1 as [<-|[<-|[]]]; inversion R1 as [|? ? ? I2 ?]; subst; destruct I2.
Qed.

(** ** Integers beyond 2^53: an exclusive or inclusive bound can be missed *)
Definition integer_bound_full : Prop := forall E c z w v' w',
  0 <= z <= max_int64 -> n_amax c = true -> numcfg_ok c ->
  Runs E (CInt None c) (GInt "int" Kint z) w (Pass, v', w') -> below (n_xmax c) (fval (n_max c)) (xZ z).

Theorem integer_bound_refuted : ~ integer_bound_full.
Proof.
  intros H. pose (c := num_maximum (f64_of_Z (2 ^ 53)) new_num).
  assert (R : Runs (env0 no_refs) (CInt None c) (GInt "int" Kint (2 ^ 53 + 1)) [] (Pass, GInt "int" Kint (2 ^ 53 + 1), [])) by run 1%nat.
  apply H in R.
  - vm_compute in R. apply R. reflexivity.
  - vm_compute. split; discriminate.
  - reflexivity.
  - vm_compute. splits; auto; discriminate.
Qed.

Theorem descending_terminates_refuted : ~ descending_terminates_full.
Proof.
  intros H. pose (E := env0 (one_ref "r" loop_defs)).
  destruct (H E (CRef "r")) with (v := jobj []) (w := @nil nat) as (r & v' & w' & n & HV & N).
  - exists ["r"]. intros n Hn. cbn in Hn. unfold one_ref in Hn. destruct (String.eqb_spec n "r"); [subst; cbn; auto|congruence].
  - assert (NC : forall a b, ~ calls E a b).
    { intros a b (c & Hc & Hs). cbn in Hc. unfold one_ref in Hc. destruct (String.eqb a "r"); [|discriminate].
      injection Hc as <-. inversion Hs as [| |? ? ? I Hs1| | |]; subst. cbn in I.
      destruct I as [<-|[<-|[]]]; inversion Hs1 as [| | | | |? ? ? Hd]; subst; cbn in Hd; inversion Hd. }
    intros n Hn. inversion Hn; subst; eapply NC; eauto.
  - destruct (loop_run n) as [L _]. rewrite <- HV in N. exact (N L).
Qed.
