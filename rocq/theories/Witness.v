(** Concrete cases meeting the hypotheses of the validation theorems: runs of non-trivial
    validators on both sides of each verdict, and the theorems applied to them. *)
From Verif Require Import Base GoFloat FloatSpec FloatProofs GoValue Maybe Formats HostSpec Constraint StructInfo Validate Fuel Reach ReadOnly Preserve Spec SpecSound SpecObj SpecMain Terminate Scalars Structure Composite Refuted DocSpec NoPanic Repeat Local Cases.
Open Scope Z_scope.
Open Scope string_scope.

(** ** Documents: the recursive person validator of Cases.v *)
Definition person_entries : list (string * gval) :=
  [("friends", jarr [jobj [("name", gstr "bob"); ("x-size", num 7)]]); ("name", gstr "ann"); ("tags", jarr [gstr "a"; gstr "b"])].
Lemma person_sorted : ssorted (o_props o_person) /\ ssorted person_entries.
Proof. split; vm_compute; repeat constructor. Qed.

Lemma noind_obj m : (forall k x, In (k, x) m -> noind x) -> (forall k x, In (k, x) m -> is_maybe (RV true x) = false) -> noind (jobj m).
Proof. intros A B. constructor; auto. Qed.
Lemma noind_arr l : (forall x, In x l -> noind x) -> noind (jarr l).
Proof. intros A. constructor; auto. Qed.
Ltac each H := cbn in H; repeat match type of H with _ \/ _ => destruct H as [H|H] end; try (destruct H; fail).
Ltac leaf := apply ni_leaf; exact I.

(** defaults are inserted at two levels and nothing else changes (C05) *)
Example ann_ext : noind ann /\ (forall d, declared env1 root d -> Preserve.plain d) /\
  Runs env1 root ann [] (Pass, ann', []) /\ ext (declared env1 root) ann ann'.
Proof.
  assert (N : noind ann).
  { apply noind_obj; intros k x H; each H; injection H as <- <-; try reflexivity; try leaf.
    - apply noind_arr. intros x H. each H. subst. apply noind_obj; intros k y H; each H; injection H as <- <-; try reflexivity; leaf.
    - apply noind_arr. intros x H. each H; subst; leaf. }
  assert (P : forall d, declared env1 root d -> Preserve.plain d).
  { intros d D. apply person_declares in D. subst. split; [leaf|reflexivity]. }
  destruct ann_passes as [R _]. split; [|split; [|split]]; auto.
  destruct R as (n & R & _). eapply validate_ext; eauto.
Qed.

(** the items validator declares no default: a failing and a passing run change nothing (C04, C06) *)
Example tags_readonly : pure env1 p_tags /\
  (exists m, Runs env1 p_tags (jarr [gstr "a"; gstr "a"]) [] (Fail m, jarr [gstr "a"; gstr "a"], [])) /\
  Runs env1 p_tags (jarr [gstr "a"; gstr "b"]) [] (Pass, jarr [gstr "a"; gstr "b"], []).
Proof. split; [exact pure_tags|]. split; [eexists|]; run 20%nat. Qed.

(** the object theorems on one passing run (C03, C07-C12): the absent "age" has a default, the
    absent "mail" has none, "x-1" is matched by a pattern only *)
Definition o_full : objcfg :=
  obj_max 5 (obj_min 2 (obj_schemaDep "card" (CObj (obj_additional CEmpty (obj_required ["addr"] (obj_addProp "addr" str new_obj))))
   (obj_propDep "mail" ["name"] (obj_additional (CBool None) (obj_pattern (0%nat, "x-") number (obj_required ["name"]
    (obj_addProp "name" p_name (obj_addProp "age" p_age (obj_addProp "mail" p_mail (obj_addProp "card" number (obj_addProp "addr" str new_obj))))))))))).
Definition m_full : list (string * gval) :=
  [("addr", gstr "here"); ("card", num 1); ("extra", GBool "bool" true); ("name", gstr "ann"); ("x-1", num 7)].
Definition m_full' : list (string * gval) :=
  [("addr", gstr "here"); ("age", num 0); ("card", num 1); ("extra", GBool "bool" true); ("name", gstr "ann"); ("x-1", num 7)].

Example full_run : ssorted (o_props o_full) /\ ssorted m_full /\ quiet_deps env1 o_full /\
  Runs env1 (CObj o_full) (jobj m_full) [] (Pass, jobj m_full', []).
Proof.
  split; [vm_compute; repeat constructor|]. split; [vm_compute; repeat constructor|]. split; [|run 9%nat].
  intros k N. unfold schema_dep in *. destruct (sget k (o_sdeps o_full)) as [c|] eqn:S; [|now destruct N].
  cbn in S. destruct (String.eqb_spec k "card") as [->|]; [|destruct (String.ltb k "card"); discriminate].
  injection S as <-. intros d (o & j & p & R & I & D).
  assert (P : In (CObj o) [CObj (obj_additional CEmpty (obj_required ["addr"] (obj_addProp "addr" str new_obj))); str; CEmpty; CNil]).
  { match goal with |- In _ ?L => assert (Q : Deep env1 (fun x => In x L) (CObj (obj_additional CEmpty (obj_required ["addr"] (obj_addProp "addr" str new_obj))))); [|apply Q; exact R];
      apply Deep_list with (S := L); [cbn; auto| |auto] end.
    intros x Hx. each Hx; subst; intros y Hy; each Hy; subst; cbn; auto. }
  each P; try discriminate P. injection P as <-. each I. injection I as <- <-. inversion D.
Qed.

(** one property of it broken at a time *)
Definition broken : list (list (string * gval)) :=
  [ [("addr", gstr "here"); ("card", num 1)];                       (* required name missing *)
    [("card", num 1); ("name", gstr "ann")];                        (* schema dependency of card *)
    [("extra", num 1); ("name", gstr "ann")];                       (* additional property *)
    [("name", gstr "ann"); ("x-1", gstr "7")];                      (* pattern property *)
    [("addr", num 1); ("name", gstr "ann")];                        (* listed property *)
    [("name", gstr "ann")];                                         (* too few *)
    [("a", GBool "bool" true); ("b", GBool "bool" true); ("c", GBool "bool" true); ("d", GBool "bool" true); ("e", GBool "bool" true); ("name", gstr "ann")] ].
Example full_rejects : Forall (fun m => ssorted m /\ Fails env1 (CObj o_full) (jobj m)) broken.
Proof.
  repeat (apply Forall_cons; [split; [vm_compute; repeat constructor|exists []; eexists _, _, _; run 9%nat]|]). apply Forall_nil.
Qed.

(** what the theorems give for these runs *)
Example full_consequences :
  seen env1 o_full m_full "card" /\ seen env1 o_full m_full "x-1" /\ extra env1 o_full "extra" /\
  is_required o_full "age" = false /\ sget "age" m_full' = Some (num 0) /\ sget "mail" m_full' = None /\
  Passes env1 (schema_dep o_full "card") (jobj m_full') (jobj m_full').
Proof.
  destruct full_run as (S1 & S2 & Q & R).
  assert (C : seen env1 o_full m_full "card") by (split; [|left]; vm_compute; auto 10).
  splits; auto.
  - split; [vm_compute; auto 10|]. right. exists (0%nat, "x-"), number. split; [vm_compute; auto|reflexivity].
  - split; [reflexivity|]. intros p c H. each H. injection H as <- <-. reflexivity.
  - eapply (schemadeps_enforced _ _ _ _ _ _ _ _ "card" S1 S2 Q R C); [reflexivity|discriminate].
Qed.

(** property dependencies (C09) *)
Definition o_dep : objcfg := obj_propDep "a" ["b"] (obj_addProp "a" number (obj_addProp "b" number new_obj)).
Example dep_case : prop_deps o_dep "a" = ["b"] /\
  Runs env1 (CObj o_dep) (jobj [("a", num 1); ("b", num 2)]) [1]%nat (Pass, jobj [("a", num 1); ("b", num 2)], []) /\
  Runs env1 (CObj o_dep) (jobj [("b", num 2)]) [] (Pass, jobj [("b", num 2)], []) /\
  Fails env1 (CObj o_dep) (jobj [("a", num 1)]).
Proof. split; [reflexivity|]. split; [run 9%nat|]. split; [run 9%nat|]. exists []. eexists _, _, _. run 9%nat. Qed.

(** required names that were never added are ignored (C08); unused additional constraint (C11) *)
Example unlisted_case : ~ In "zzz" (keys (o_props o_full)) /\
  Runs env1 (CObj (obj_required ["zzz"] o_full)) (jobj m_full) [] (Pass, jobj m_full', []) /\
  (forall k, In k (keys person_entries) -> ~ extra env1 o_person k) /\
  Runs env1 (CObj (obj_additional CNull o_person)) (jobj person_entries) [] (Pass, ann', []).
Proof.
  split; [vm_compute; intuition discriminate|]. split; [run 9%nat|]. split; [|run 20%nat].
  intros k H [X _]. each H; subst; discriminate X.
Qed.

(** ** Arrays (C13-C15) *)
Definition a_tags : arrcfg := arr_max 3 (arr_min 1 (arr_unique true (arr_items str new_arr))).
Example items_case : a_items a_tags <> CNil /\
  Runs env1 (CArr a_tags) (jarr [gstr "a"; gstr "b"]) [] (Pass, jarr [gstr "a"; gstr "b"], []) /\
  Forall (fun v => Fails env1 (CArr a_tags) v)
    [jarr []; jarr [gstr "a"; gstr "b"; gstr "c"; gstr "d"]; jarr [gstr "a"; num 1]; jarr [gstr "a"; gstr "a"]; gstr "a"; GNil; jobj []].
Proof.
  split; [discriminate|]. split; [run 9%nat|].
  repeat (apply Forall_cons; [exists []; eexists _, _, _; run 9%nat|]). apply Forall_nil.
Qed.

Definition a_pair : arrcfg := arr_additional number (arr_positional [str; number] new_arr).
Example pair_case : a_items a_pair = CNil /\
  Runs env1 (CArr a_pair) (jarr [gstr "a"; num 1; num 2]) [] (Pass, jarr [gstr "a"; num 1; num 2], []) /\
  Forall (fun v => Fails env1 (CArr a_pair) v)
    [jarr [gstr "a"; num 1; gstr "b"]; jarr [num 1]; jarr [gstr "a"; gstr "b"]] /\
  Fails env1 (CArr (arr_additional CNil a_pair)) (jarr [gstr "a"; num 1; num 2]).
Proof.
  split; [reflexivity|]. split; [run 9%nat|]. split.
  - repeat (apply Forall_cons; [exists []; eexists _, _, _; run 9%nat|]). apply Forall_nil.
  - exists []. eexists _, _, _. run 9%nat.
Qed.

Example unique_case : NoDup ["a"; "b"; "ab"] /\
  Runs env1 (CArr (arr_unique true new_arr)) (GSlice "[]string" false (Some (map gstr ["a"; "b"; "ab"]))) []
    (Pass, GSlice "[]string" false (Some (map gstr ["a"; "b"; "ab"])), []) /\
  Fails env1 (CArr (arr_unique true new_arr)) (jarr [num 1; num 2; num 1]).
Proof.
  split; [repeat constructor; cbn; intuition discriminate|]. split; [run 9%nat|]. exists []. eexists _, _, _. run 9%nat.
Qed.

(** ** Combinators, Reduce, references (C16, C17, C30) *)
Lemma decide_yes E c v : (forall n w, validate (S n) E c v w = (Pass, v, w)) -> Decides E c v true.
Proof. intros H w r v' w' R. apply runs_succ in R. destruct R as [n R]. rewrite H in R. now injection R as <- <- <-. Qed.
Lemma decide_no E c v m : (forall n w, validate (S n) E c v w = (Fail m, v, w)) -> Decides E c v false.
Proof. intros H w r v' w' R. apply runs_succ in R. destruct R as [n R]. rewrite H in R. injection R as <- <- <-. eauto. Qed.
Example combinators_case :
  Forall2 (fun c b => Decides env1 c (num 3) b) [str; number; CInt None new_num; CNull] [false; true; true; false] /\
  Decides env1 (CAny [str; number; CInt None new_num; CNull]) (num 3) true /\
  Decides env1 (CAll [str; number; CInt None new_num; CNull]) (num 3) false /\
  Decides env1 (COneOf [str; number; CInt None new_num; CNull]) (num 3) false /\
  Decides env1 (COneOf [str; number; CNull]) (num 3) true /\
  Decides env1 (CNot str) (num 3) true /\ Decides env1 (CNot number) (num 3) false.
Proof.
  assert (S0 : Decides env1 str (num 3) false) by (eapply decide_no; reflexivity).
  assert (S1 : Decides env1 number (num 3) true) by (apply decide_yes; reflexivity).
  assert (S2 : Decides env1 (CInt None new_num) (num 3) true) by (apply decide_yes; reflexivity).
  assert (S3 : Decides env1 CNull (num 3) false) by (eapply decide_no; reflexivity).
  assert (F : Forall2 (fun c b => Decides env1 c (num 3) b) [str; number; CInt None new_num; CNull] [false; true; true; false])
    by (repeat (apply Forall2_cons; [assumption|]); apply Forall2_nil).
  split; [exact F|]. splits.
  - exact (any_decides _ _ _ _ F).
  - exact (all_decides _ _ _ _ F).
  - exact (oneof_decides _ _ _ _ F).
  - apply (oneof_decides env1 (num 3) [str; number; CNull] [false; true; false]). repeat (apply Forall2_cons; [assumption|]); apply Forall2_nil.
  - apply (not_decides env1 (num 3) str false); [discriminate|auto].
  - apply (not_decides env1 (num 3) number true); [discriminate|auto].
Qed.

Example reduce_case : reduce (CAny [person]) = person /\ reduce (CAll []) = CAll [] /\ reduce (COneOf [str; number]) = COneOf [str; number] /\
  Runs env1 (CAny [person]) ann [] (Pass, ann', []) /\ Runs env1 (reduce (CAny [person])) ann [] (Pass, ann', []).
Proof. splits; try reflexivity; run 20%nat. Qed.

Example ref_case : e_refs env1 "person" = Some person /\ e_refs env1 "nobody" = None /\
  Runs env1 (CRef "person") ann [] (Pass, ann', []) /\ Runs env1 person ann [] (Pass, ann', []) /\
  Runs env1 (CRef "nobody") ann [] (Fail "reference 'nobody' not found", ann, []).
Proof. splits; try reflexivity; run 20%nat. Qed.

(** references the constraint does not mention are irrelevant (C59) *)
Definition more_refs (n : string) : option constr := if String.eqb n "person" then Some person else Some CNull.
Example local_case : agree env1 (one_ref "person" person) more_refs root /\ more_refs "other" <> one_ref "person" person "other" /\
  Runs (set_refs env1 more_refs) root ann [] (Pass, ann', []).
Proof.
  splits; [|discriminate|run 20%nat].
  intros n R. assert (P : In (CRef n) parts).
  { assert (Q : Deep env1 (fun x => In x parts) root) by (apply Deep_list with (S := parts); [cbn; auto|apply parts_closed|auto]).
    apply Q. exact R. }
  each P; try discriminate P. injection P as <-. reflexivity.
Qed.

(** no panic, whatever the fuel and the order (C27) *)
Example ann_calm : sane env1 root /\ jdoc ann /\ forall n w, calm (fst (fst (validate n env1 root ann w))).
Proof.
  assert (S0 : sane env1 root).
  { destruct person_wf as ((N & W) & _). split; auto. intros x R. destruct (W x R) as [|[H _]]; auto. }
  assert (D : jdoc ann) by (apply doc_jdoc, ann_doc). splits; auto. intros. now apply validate_no_panic.
Qed.

(** JSVal.Validate (C50) *)
Example jsval_case : Runs env1 root dup [] (Fail "object property 'tags' validation failed: duplicate element found", jobj [("age", num 0); ("name", gstr "ann"); ("tags", jarr [gstr "a"; gstr "a"])], []) /\
  fst (fst (jsval_validate 20 env1 "V0" "0xc0" root dup [])) = Fail "validator V0 failed: object property 'tags' validation failed: duplicate element found" /\
  fst (fst (jsval_validate 20 env1 "" "0xc0" root ann [])) = Pass.
Proof. splits; [run 20%nat|vm_compute; reflexivity|vm_compute; reflexivity]. Qed.

(** ** Scalars (C18-C26, C56) *)
Definition half : f64 := S754_finite false (2 ^ 52) (-53).
Definition two_half : f64 := S754_finite false (5 * 2 ^ 50) (-51).
Definition c_num : numcfg := num_multipleOf half (num_exclMin true (num_minimum (f64_of_Z 0) (num_maximum (f64_of_Z 10) new_num))).
Example num_case : numcfg_ok c_num /\ float_in (gfloat two_half) two_half /\ valid64 two_half = true /\
  number_meaning c_num (fval two_half) /\
  fst (fst (validate 1 env1 (CNum None c_num) (gfloat two_half) [])) = Pass /\
  Forall (fun f => valid64 f = true /\ ~ number_meaning c_num (fval f) /\ exists m, fst (fst (validate 1 env1 (CNum None c_num) (gfloat f) [])) = Fail m)
    [f64_of_Z 0; f64_of_Z 11; f64_of_Z (-1); S754_finite false (2 ^ 52) (-54); S754_nan; S754_infinity true] /\
  (forall f, ~ float_in (gstr "2.5") f).
Proof.
  assert (K : numcfg_ok c_num) by (unfold numcfg_ok; splits; try reflexivity; intros ? X; discriminate X).
  assert (Y : forall f, valid64 f = true -> fst (fst (validate 1 env1 (CNum None c_num) (gfloat f) [])) = Pass -> number_meaning c_num (fval f)).
  { intros f V P. destruct (number_exact 0 env1 None c_num (gfloat f) f [] K (fi_64 _ _) V) as [[_ H]|[[m H] _]]; [exact H|congruence]. }
  assert (N : forall f m, valid64 f = true -> fst (fst (validate 1 env1 (CNum None c_num) (gfloat f) [])) = Fail m ->
    valid64 f = true /\ ~ number_meaning c_num (fval f) /\ exists m, fst (fst (validate 1 env1 (CNum None c_num) (gfloat f) [])) = Fail m).
  { intros f m V P. splits; eauto. destruct (number_exact 0 env1 None c_num (gfloat f) f [] K (fi_64 _ _) V) as [[H _]|[_ H]]; [congruence|exact H]. }
  split; [exact K|]. split; [constructor|]. split; [reflexivity|]. split; [apply Y; vm_compute; reflexivity|].
  split; [vm_compute; reflexivity|]. split; [|intros f H; inversion H].
  repeat (apply Forall_cons; [eapply N; vm_compute; reflexivity|]). apply Forall_nil.
Qed.

Definition c_int : numcfg := num_minimum (f64_of_Z 0) (num_maximum (f64_of_Z 10) new_num).
Example int_case : numcfg_ok c_int /\ int_in (GInt "int8" Kint8 7) 7 /\ number_meaning c_int (xZ 7) /\
  ~ number_meaning c_int (xZ 11) /\ float_in (gfloat two_half) two_half /\ ~ integral (fval two_half) /\
  fst (fst (validate 1 env1 (CInt None c_int) (GInt "int8" Kint8 7) [])) = Pass /\
  (exists m, fst (fst (validate 1 env1 (CInt None c_int) (GUint "uint64" Kuint64 11) [])) = Fail m) /\
  (exists m, fst (fst (validate 1 env1 (CInt None c_int) (gfloat two_half) [])) = Fail m) /\
  (exists m, fst (fst (validate 1 env1 (CInt None c_int) (gstr "7") [])) = Fail m).
Proof.
  assert (K : numcfg_ok c_int) by (unfold numcfg_ok; splits; try reflexivity; intros ? X; discriminate X).
  split; [exact K|]. split; [constructor|]. split.
  { destruct (integer_int_exact 0 env1 None c_int (GInt "int8" Kint8 7) 7 [] K (ii_int _ _ _)) as [[_ H]|[[m H] _]]; [vm_compute; discriminate|exact H|].
    vm_compute in H. discriminate H. }
  split.
  { destruct (integer_int_exact 0 env1 None c_int (GInt "int" Kint 11) 11 [] K (ii_int _ _ _)) as [[H _]|[_ H]]; [vm_compute; discriminate| |exact H].
    vm_compute in H. discriminate H. }
  split; [constructor|]. split.
  { intros H. destruct (integer_float_exact 0 env1 None new_num (gfloat two_half) two_half []) as [[P _]|[_ P]];
      [unfold numcfg_ok; splits; try reflexivity; intros ? X; discriminate X|constructor|reflexivity|vm_compute in P; discriminate P|].
    apply P. split; [auto|]. unfold number_meaning; splits; intros; discriminate. }
  split; [vm_compute; reflexivity|]. splits; eexists; vm_compute; reflexivity.
Qed.

Definition e_list : list gval := [gstr "on"; num 1; GNil; GInt "int" Kint 1].
Example enum_case : Forall scalar_lit e_list /\ comparables e_list /\
  Forall (fun v => Exists (fun e => go_equal e v) e_list /\ fst (fst (validate 1 env1 (CEnum e_list) v [])) = Pass) [gstr "on"; num 1; GNil] /\
  Forall (fun v => ~ Exists (fun e => go_equal e v) e_list /\ exists m, fst (fst (validate 1 env1 (CEnum e_list) v [])) = Fail m)
    [gstr "off"; num 2; GInt "int8" Kint8 1; GStr "main.Mode" "on"; jarr []].
Proof.
  assert (S0 : Forall scalar_lit e_list) by (repeat constructor).
  split; [exact S0|]. split; [intros e H; each H; subst; reflexivity|]. split.
  - repeat (apply Forall_cons; [match goal with |- Exists _ _ /\ fst (fst (validate _ _ _ ?v _)) = _ =>
      destruct (enum_exact 0 env1 e_list v [] S0) as [[P H]|[[m P] _]]; [split; assumption|vm_compute in P; discriminate P] end|]).
    apply Forall_nil.
  - repeat (apply Forall_cons; [match goal with |- ~ Exists _ _ /\ (exists m, fst (fst (validate _ _ _ ?v _)) = _) =>
      destruct (enum_exact 0 env1 e_list v [] S0) as [[P H]|[P H]]; [vm_compute in P; discriminate P|split; assumption] end|]).
    apply Forall_nil.
Qed.

Definition c_str : strcfg := str_enum [gstr "ab"; gstr "abc"; gstr "b"] (str_maxLength 3 (str_minLength 2 (str_regexp "ab" new_str))).
Example str_case : str_enum_ok c_str /\ string_in (gstr "abc") "abc" /\ string_in (GPtr "*string" 1 (Some (false, gstr "ab"))) "ab" /\
  string_meaning env1 c_str "abc" /\ Forall (fun s => ~ string_meaning env1 c_str s) ["b"; "abcd"; "xab"] /\
  fst (fst (validate 1 env1 (CStr None c_str) (GPtr "*string" 1 (Some (false, gstr "ab"))) [])) = Pass /\
  (forall s, ~ string_in (num 1) s).
Proof.
  assert (K : str_enum_ok c_str) by (intros l H; injection H as <-; repeat constructor).
  split; [exact K|]. split; [constructor|]. split; [constructor|]. split; [|split; [|split; [reflexivity|intros s H; inversion H]]].
  - destruct (string_exact 0 env1 None c_str (gstr "abc") "abc" [] K (si_str _ _)) as [[_ H]|[[m H] _]]; [exact H|vm_compute in H; discriminate H].
  - repeat (apply Forall_cons; [match goal with |- ~ string_meaning _ _ ?s =>
      destruct (string_exact 0 env1 None c_str (gstr s) s [] K (si_str _ _)) as [[H _]|[_ H]]; [vm_compute in H; discriminate H|exact H] end|]).
    apply Forall_nil.
Qed.

(** formats (C23-C25): accepted and rejected texts, and what the specification then says *)
Example host_case :
  Forall (fun s => hostname s /\ fst (fst (validate 1 env1 (CStr None (fmt_only "hostname")) (gstr s) [])) = Pass) ["example.com"; "a-1._x."; "x"] /\
  Forall (fun s => ~ hostname s) [""; "."; "a..b"; "-a.b"; "a-.b"; "1.2"; "a b"].
Proof.
  split.
  - repeat (apply Forall_cons; [match goal with |- hostname ?s /\ _ =>
      destruct (hostname_exact 0 env1 None (gstr s) s [] (si_str _ _)) as [[P H]|[[m P] _]]; [split; assumption|vm_compute in P; discriminate P] end|]).
    apply Forall_nil.
  - repeat (apply Forall_cons; [match goal with |- ~ hostname ?s =>
      destruct (hostname_exact 0 env1 None (gstr s) s [] (si_str _ _)) as [[P _]|[_ H]]; [vm_compute in P; discriminate P|exact H] end|]).
    apply Forall_nil.
Qed.
Definition env_ip : env :=
  {| e_rx := contains; e_time := e_time env1; e_email := e_email env1; e_uri := e_uri env1;
     e_ip := fun s => existsb (String.eqb s) ["127.0.0.1"; "::1"; "fe80::1"]; e_ffmt := e_ffmt env1; e_sprint := e_sprint env1; e_refs := no_refs |}.
Example ip_case : fst (fst (validate 1 env_ip (CStr None (fmt_only "ipv4")) (gstr "127.0.0.1") [])) = Pass /\
  fst (fst (validate 1 env_ip (CStr None (fmt_only "ipv6")) (gstr "::1") [])) = Pass /\
  over (DIGITS +++ ".") "127.0.0.1" /\ over (DIGITS +++ ":") "::1" /\ In ":"%char (chars "::1") /\
  ~ over (DIGITS +++ ":") "fe80::1" /\ e_ip env_ip "fe80::1" = true.
Proof.
  split; [reflexivity|]. split; [reflexivity|]. split.
  { destruct (ipv4_exact 0 env_ip None (gstr "127.0.0.1") "127.0.0.1" [] (si_str _ _)) as [(_ & H & _)|[[m P] _]]; [exact H|vm_compute in P; discriminate P]. }
  split.
  { destruct (ipv6_exact 0 env_ip None (gstr "::1") "::1" [] (si_str _ _)) as [(_ & H & _)|[[m P] _]]; [exact H|vm_compute in P; discriminate P]. }
  split; [left; reflexivity|]. split; [|reflexivity].
  destruct (ipv6_exact 0 env_ip None (gstr "fe80::1") "fe80::1" [] (si_str _ _)) as [(P & _)|[_ H]]; [vm_compute in P; discriminate P|].
  intros O. apply H. split; [exact O|reflexivity].
Qed.

(** null and booleans (C26) *)
Example null_case :
  Forall (fun v => fst (fst (validate 1 env1 CNull v [])) = Pass) [GNil; GSlice "[]int" false None; GMap "map[string]int" KString false "int" None; GPtr "*int" 0 None] /\
  Forall (fun v => exists m, fst (fst (validate 1 env1 CNull v [])) = Fail m) [gstr ""; num 0; jarr []; GPtr "*int" 1 (Some (false, GInt "int" Kint 0))] /\
  fst (fst (validate 1 env1 (CBool None) (GBool "main.Flag" true) [])) = Pass /\
  exists m, fst (fst (validate 1 env1 (CBool None) (gstr "true") [])) = Fail m.
Proof.
  split; [|split; [|split; [reflexivity|eexists; reflexivity]]].
  - repeat constructor.
  - repeat (apply Forall_cons; [eexists; reflexivity|]). apply Forall_nil.
Qed.
