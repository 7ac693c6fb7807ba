(** generateCode of generator.go, run from its source text, on any constraint. *)
From Verif Require Import Base GoFloat GoValue Maybe Formats Constraint ConstrInd StructInfo Validate Builder GoText GoLang Generator SrcSyntax SrcText SrcTextG SrcProg SrcGen SrcProgG SrcStepG SrcGenFun SrcGenEnum SrcGenStr SrcGenLoop SrcGenTree SrcGenObj SrcGenCode.
Open Scope string_scope.
Open Scope list_scope.
Open Scope Z_scope.

(** The constraints inside c that the generator writes code for; it skips schema dependencies
    (generateObjectCode, generator.go:384-469). *)
Definition visits (c : constr) : list constr :=
  match c with
  | CObj o => o_add o :: map snd (o_pats o) ++ map snd (o_props o)
  | c => subs c
  end.
Lemma visits_subs c x : In x (visits c) -> In x (subs c).
Proof.
  destruct c; try exact (fun h => h). cbn [visits subs]. intros [Hx|Hx]; [now left|right].
  rewrite app_assoc. apply in_or_app. now left.
Qed.
(** d is c or code for it is written inside the code for c *)
Inductive under : constr -> constr -> Prop :=
| under_self c : under c c
| under_sub c x d : In x (visits c) -> under x d -> under c d.
(** No positional item of an array makes the generator report an error.  generateArrayCode drops
    such an error (generator.go:492-496), and then the model forgets how many map orders the
    failed item had used up. *)
Definition tame (G : genv) (cm : string) (c : constr) : Prop :=
  forall a, under c (CArr a) -> forall x, In x (a_pos a) -> forall w m, emit G cm x w <> GErr m.

Section Gen.
Variable G : genv.
Variable cm : string.
Variables refs refnames : qv.
Notation gen_at := (gen_at G cm refs refnames).
Definition gen_from (c : constr) : Prop := exists K, forall k, (K <= k)%nat -> gen_at k c.

Lemma from_all l : (forall x, In x l -> gen_from x) -> exists K, forall k, (K <= k)%nat -> forall x, In x l -> gen_at k x.
Proof.
  induction l as [|y l IH]; intro H; [exists O; intros k _ x []|].
  destruct (H y (or_introl eq_refl)) as [K1 H1].
  destruct IH as [K2 H2]; [intros x Hx; apply H; now right|].
  exists (Nat.max K1 K2). intros k Hk x [<-|Hx]; [apply H1; lia|apply H2; [lia|exact Hx]].
Qed.
Lemma tame_sub c x : In x (visits c) -> tame G cm c -> tame G cm x.
Proof. intros Hx Ht a Ha. apply Ht. eapply under_sub; eauto. Qed.

Theorem gen_code c : tame G cm c -> gen_from c.
Proof.
  induction c as [c IH] using constr_subs_ind. intro Ht.
  destruct (from_all (visits c)) as [K HK].
  { intros x Hx. apply IH; [now apply visits_subs|]. eapply tame_sub; eauto. }
  exists (S (S (S (S K)))). intros k Hk.
  destruct k as [|[|[|[|k]]]]; try lia. assert (Hle : (K <= k)%nat) by lia. clear Hk.
  destruct c.
  - apply code_nil.
  - apply code_empty.
  - apply code_null.
  - apply code_bool.
  - apply code_str.
  - apply code_num.
  - apply code_int.
  - apply code_arr; [apply HK; [lia|now left]|apply HK; [lia|right; now left]|].
    intros x Hx. split; [apply HK; [lia|right; now right]|]. apply (Ht _ (under_self _) x Hx).
  - apply code_obj; [apply HK; [lia|now left]| |].
    + intros x Hx. apply HK; [lia|]. cbn [visits]. right. apply in_or_app. now right.
    + intros x Hx. apply HK; [lia|]. cbn [visits]. right. apply in_or_app. now left.
  - apply code_enum.
  - apply code_any. intros x Hx. apply HK; [lia|exact Hx].
  - apply code_all. intros x Hx. apply HK; [lia|exact Hx].
  - apply code_oneof. intros x Hx. apply HK; [lia|exact Hx].
  - apply code_not. apply HK; [lia|now left].
  - apply code_ref.
Qed.
End Gen.

(** What generateCode, as written in generator.go, does with a constraint and an empty writer. *)
Definition source_generate (G : genv) (cm : string) (k : nat) (c : constr) (w : orc) : qev (list qv) :=
  qcall (prog_g G) k "generateCode" [ctxv cm QNil QNil; QBuf 0; QC c] (mk [] [""] [] w).

(** The source of generator.go writes the text the model gives, takes the map orders in the same
    way, reports an error where the model does and panics where the model does. *)
Theorem generate_source G cm c w : tame G cm c ->
  exists K, forall k, (K <= k)%nat ->
  match emit G cm c w with
  | GOk (x, w') => source_generate G cm k c w = QOk [QNil] (mk [] [x] [] w')
  | GErr m => exists m' t w', source_generate G cm k c w = QOk [QErr m'] (mk [] [t] [] w') /\ starts m m' = true
  | GPanic _ => exists m', source_generate G cm k c w = QPn m'
  end.
Proof.
  intro Ht. destruct (gen_code G cm QNil QNil c Ht) as [K HK]. exists K. intros k Hk.
  specialize (HK k Hk 0%nat "" [""] [] [] w (Nat.lt_0_succ _)).
  unfold source_generate. change (bufput 0 "" [""]) with [""] in HK. unfold gives in HK.
  destruct (emit G cm c w) as [[x w']|m|m]; [|exact HK..].
  change (bufput 0 ("" +++ x) [""]) with [x] in HK. exact HK.
Qed.

(** A concrete case: an object with a pattern property, a default, an enumeration, a tuple
    array with a reference, requirements and dependencies. *)
Definition sample_genv : genv := {| g_print := fun _ => true; g_bad := fun _ _ => "BAD" |}.
Definition sample_tree : constr :=
  CObj {| o_add := CEmpty;
          o_pats := [((1%nat, "^a"), CNull); ((2%nat, "^b"), CBool (Some (GBool "bool" true)))];
          o_props := [("x", CStr (Some (GStr "string" "hi"))
                              {| s_max := 5; s_min := 1; s_rx := Some "a+"; s_fmt := "email"; s_enum := Some [GStr "string" "a"; GInt "int" Kint 5] |});
                      ("y", CArr {| a_items := CNil; a_pos := [CNull; CRef "foo"]; a_add := CEmpty; a_min := 1; a_max := 2; a_uniq := true |})];
          o_propdeps := [("x", ["y"; "z"])]; o_req := [("x", tt); ("y", tt)]; o_min := -1; o_max := -1; o_sdeps := [] |}.
Lemma tame_intro G cm c : (forall x, In x (visits c) -> tame G cm x) ->
  match c with CArr a => forall x, In x (a_pos a) -> forall w m, emit G cm x w <> GErr m | _ => True end -> tame G cm c.
Proof. intros Hs Hc a Ha. inversion Ha as [?|? y ? Hy Hu]; subst; [exact Hc|exact (Hs y Hy a Hu)]. Qed.
Example sample_tame : tame sample_genv "M" sample_tree.
Proof.
  assert (leaf : forall c, visits c = [] -> tame sample_genv "M" c).
  { intros c E. apply tame_intro; [rewrite E; intros x []|]. destruct c; try exact I. discriminate E. }
  apply tame_intro; [|exact I].
  intros x [<-|[<-|[<-|[<-|[<-|[]]]]]]; try (apply leaf; reflexivity).
  apply tame_intro.
  - intros x [<-|[<-|[<-|[<-|[]]]]]; apply leaf; reflexivity.
  - intros x [<-|[<-|[]]] w m; vm_compute; discriminate.
Qed.
Example sample_source : exists x, source_generate sample_genv "M" 30 sample_tree [1; 2; 3]%nat = QOk [QNil] (mk [] [x] [] [])
  /\ starts "jsval.Object()" x = true /\ (200 < String.length x)%nat.
Proof. eexists. split; [vm_compute; reflexivity|]. split; vm_compute; [reflexivity|repeat constructor]. Qed.
