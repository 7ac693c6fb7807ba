(** Expressions of the fluent API and the Validate methods, both run from their Go source. *)
From Verif Require Import Base GoFloat GoValue Maybe Formats Constraint StructInfo Validate Fuel Fluent Reach Spec SpecMain DocSpec Builder Preserve Terminate Refuted Cases SrcSyntax SrcText SrcTextB SrcExec SrcProg SrcAccess SrcDefault SrcSorted SrcMain SrcCases SrcStore SrcProgB SrcStepB SrcSetters SrcSetObj SrcRep SrcBuildO SrcRepFun SrcEnd SrcFluent.
Open Scope string_scope.
Open Scope list_scope.
Open Scope nat_scope.

(** the arguments of the calls of Default in the expression itself *)
Definition own (f : fl) : list gval :=
  match f with
  | FBool l => l
  | FStr l => flat_map (fun c => match c with SDefault g => [g] | _ => [] end) l
  | FNum l | FInt l => flat_map (fun c => match c with NDefault g => [g] | _ => [] end) l
  | _ => []
  end.
Inductive Within : fl -> fl -> Prop :=
| wi_here f : Within f f
| wi_kid f g x : In g (kids f) -> Within g x -> Within f x.
(** the default values it gives, at any depth, list the keys of their maps in order *)
Definition tidy (f : fl) : Prop := forall g d, Within f g -> In d (own g) -> in_order d.
Lemma tidy_kid f g : tidy f -> In g (kids f) -> tidy g.
Proof. intros H Hg x d Hx. apply H. econstructor; eassumption. Qed.

Lemma last_bool l d0 : fold_left (fun _ g => Some g) l d0 = d0 \/ exists d : gval, In d l /\ fold_left (fun _ g => Some g) l d0 = Some d.
Proof.
  revert d0. induction l as [|x l IH]; intro d0; [now left|]. cbn [fold_left]. right. destruct (IH (Some x)) as [->|(d & H & ->)]; [exists x; now split; [left|]|].
  exists d. split; [now right|reflexivity].
Qed.
Lemma last_str l d : fst (str_chain l) = Some d -> In d (flat_map (fun c => match c with SDefault g => [g] | _ => [] end) l).
Proof.
  rewrite (proj1 (str_chain_exact l)). induction l as [|c l IH]; cbn [last_arg flat_map]; [discriminate|].
  destruct (last_arg s_default l) as [y|]; intro H; apply in_or_app; [right; apply IH; exact H|]. left. destruct c; cbn in H; try discriminate. injection H as ->. now left.
Qed.
Lemma last_num l d : fst (num_chain l) = Some d -> In d (flat_map (fun c => match c with NDefault g => [g] | _ => [] end) l).
Proof.
  assert (Q : fst (num_chain l) = last_arg n_default l) by (pose proof (num_chain_exact l) as X; destruct (num_chain l); apply X).
  rewrite Q. clear Q. induction l as [|c l IH]; cbn [last_arg flat_map]; [discriminate|].
  destruct (last_arg n_default l) as [y|]; intro H; apply in_or_app; [right; apply IH; exact H|]. left. destruct c; cbn in H; try discriminate. injection H as ->. now left.
Qed.
Lemma obj_sorted l : ssorted (o_props (obj_chain l)).
Proof.
  induction l as [|c l IH] using rev_ind; [constructor|]. unfold obj_chain in *. rewrite fold_left_app. cbn [fold_left].
  destruct c; cbn [Fluent.obj_step]; try exact IH. cbn [obj_addProp o_props]. now apply sset_sorted.
Qed.
Lemma in_pat_set k c l q y : In (q, y) (pat_set k c l) -> y = c \/ In (q, y) l.
Proof.
  induction l as [|[k' y'] l IH]; cbn [pat_set]; [intros [[= <- <-]|[]]; now left|].
  destruct (fst k ?= fst k')%nat; cbn; intros [[= <- <-]|H]; auto. destruct (IH H); auto.
Qed.

Section Children.
  Variable E : Constraint.env.
  (** what the children of an array or an object are *)
  Lemma arr_children l x : In x (children E (CArr (arr_chain (map den_a l)))) -> x = CNil \/ x = CEmpty \/ exists g, In g (flat_map akids l) /\ x = den g.
  Proof.
    assert (K : forall l, (a_items (arr_chain (map den_a l)) = CNil \/ exists g, In g (flat_map akids l) /\ a_items (arr_chain (map den_a l)) = den g) /\
      (a_add (arr_chain (map den_a l)) = CEmpty \/ exists g, In g (flat_map akids l) /\ a_add (arr_chain (map den_a l)) = den g) /\
      forall y, In y (a_pos (arr_chain (map den_a l))) -> exists g, In g (flat_map akids l) /\ y = den g).
    { clear. intro l. induction l as [|c l IH] using rev_ind; [split; [now left|split; [now left|intros y []]]|].
      unfold arr_chain in *. rewrite map_app, fold_left_app. cbn [fold_left map]. rewrite flat_map_app. cbn [flat_map]. rewrite app_nil_r.
      set (a := fold_left arr_step (map den_a l) new_arr) in *. destruct IH as (I1 & I2 & I3).
      assert (old : forall y, (exists g, In g (flat_map akids l) /\ y = den g) -> exists g, In g (flat_map akids l ++ akids c) /\ y = den g)
        by (intros y (g & Hg & ->); exists g; split; [apply in_or_app; now left|reflexivity]).
      assert (new : forall g, In g (akids c) -> exists g', In g' (flat_map akids l ++ akids c) /\ den g = den g')
        by (intros g Hg; exists g; split; [apply in_or_app; now right|reflexivity]).
      assert (J1 : a_items a = CNil \/ exists g, In g (flat_map akids l ++ akids c) /\ a_items a = den g) by (destruct I1; auto).
      assert (J2 : a_add a = CEmpty \/ exists g, In g (flat_map akids l ++ akids c) /\ a_add a = den g) by (destruct I2; auto).
      assert (J3 : forall y, In y (a_pos a) -> exists g, In g (flat_map akids l ++ akids c) /\ y = den g) by auto.
      destruct c as [f|fs|f|n|n|b]; cbn [den_a arr_step arr_items arr_positional arr_additional arr_min arr_max arr_unique a_items a_add a_pos]; (split; [|split]); auto.
      - right. apply new. now left.
      - intros y Hy. apply in_map_iff in Hy as (g & <- & Hg). now apply new.
      - right. apply new. now left. }
    destruct (K l) as (K1 & K2 & K3). cbn [children]. intros [<-|[<-|H]]; [destruct K1; auto|destruct K2; auto|]. right. right. now apply K3.
  Qed.
  Lemma obj_children l x : In x (children E (CObj (obj_chain (map den_o l)))) -> x = CNil \/ x = CEmpty \/ exists g, In g (flat_map okids l) /\ x = den g.
  Proof.
    assert (K : forall l, (o_add (obj_chain (map den_o l)) = CNil \/ exists g, In g (flat_map okids l) /\ o_add (obj_chain (map den_o l)) = den g) /\
      (forall q y, In (q, y) (o_pats (obj_chain (map den_o l))) -> exists g, In g (flat_map okids l) /\ y = den g) /\
      (forall q y, In (q, y) (o_props (obj_chain (map den_o l))) -> exists g, In g (flat_map okids l) /\ y = den g) /\
      (forall q y, In (q, y) (o_sdeps (obj_chain (map den_o l))) -> exists g, In g (flat_map okids l) /\ y = den g)).
    { clear. intro l. induction l as [|c l IH] using rev_ind; [split; [now left|split; [intros q y []|split; intros q y []]]|].
      unfold obj_chain in *. rewrite map_app, fold_left_app. cbn [fold_left map]. rewrite flat_map_app. cbn [flat_map]. rewrite app_nil_r.
      set (a := fold_left Fluent.obj_step (map den_o l) new_obj) in *. destruct IH as (I1 & I2 & I3 & I4).
      assert (old : forall y, (exists g, In g (flat_map okids l) /\ y = den g) -> exists g, In g (flat_map okids l ++ okids c) /\ y = den g)
        by (intros y (g & Hg & ->); exists g; split; [apply in_or_app; now left|reflexivity]).
      assert (new : forall g, In g (okids c) -> exists g', In g' (flat_map okids l ++ okids c) /\ den g = den g')
        by (intros g Hg; exists g; split; [apply in_or_app; now right|reflexivity]).
      assert (J1 : o_add a = CNil \/ exists g, In g (flat_map okids l ++ okids c) /\ o_add a = den g) by (destruct I1; auto).
      assert (J2 : forall q y, In (q, y) (o_pats a) -> exists g, In g (flat_map okids l ++ okids c) /\ y = den g) by eauto.
      assert (J3 : forall q y, In (q, y) (o_props a) -> exists g, In g (flat_map okids l ++ okids c) /\ y = den g) by eauto.
      assert (J4 : forall q y, In (q, y) (o_sdeps a) -> exists g, In g (flat_map okids l ++ okids c) /\ y = den g) by eauto.
      destruct c as [xs|n|n|f|p f|p f|p xs|p f]; cbn [den_o Fluent.obj_step obj_required obj_min obj_max obj_additional obj_addProp obj_pattern obj_propDep obj_schemaDep o_add o_pats o_props o_sdeps];
        (split; [|split; [|split]]); auto.
      - right. apply new. now left.
      - intros q y Hy. apply in_sset in Hy as [->|Hy]; [apply new; now left|eauto].
      - intros q y Hy. apply in_pat_set in Hy as [->|Hy]; [apply new; now left|eauto].
      - intros q y Hy. apply in_sset in Hy as [->|Hy]; [apply new; now left|eauto]. }
    destruct (K l) as (K1 & K2 & K3 & K4). cbn [children]. intros [<-|H]; [destruct K1; auto|]. right. right.
    apply in_app_or in H as [H|H]; [|apply in_app_or in H as [H|H]]; apply in_map_iff in H as ([q y] & <- & H); eauto.
  Qed.

  (** the references of the validator, if any, are expressions too *)
  Hypothesis refs : forall n c, e_refs E n = Some c -> exists g, c = den g /\ tidy g.
  Definition expressed (x : constr) : Prop := x = CNil \/ exists f, x = den f /\ tidy f.
  Lemma expressed_den f : tidy f -> expressed (den f). Proof. right. eauto. Qed.
  Lemma tidy_empty : expressed CEmpty.
  Proof. right. exists FEmpty. split; [reflexivity|]. intros g d W. inversion W as [|? ? ? Hg]; subst; [intros []|destruct Hg]. Qed.
  Lemma expressed_child f : tidy f -> forall x, In x (children E (den f)) -> expressed x.
  Proof.
    induction f as [f IH] using fl_kids. intros T x Hx.
    assert (kid : forall g, In g (kids f) -> expressed (den g)) by (intros g Hg; apply expressed_den; eapply tidy_kid; eassumption).
    destruct f as [| |l|l|l|l|l|l|l|f|W l red|n]; cbn [den kids] in *; try solve [destruct Hx].
    - unfold int_chain in Hx. destruct (num_chain l). destruct (int_chain_is_int l); destruct Hx.
    - apply arr_children in Hx as [->|[->|(g & Hg & ->)]]; [now left|apply tidy_empty|now apply kid].
    - apply obj_children in Hx as [->|[->|(g & Hg & ->)]]; [now left|apply tidy_empty|now apply kid].
    - destruct Hx as [<-|[]]. apply kid. now left.
    - assert (Hl : In x (children E (wmk W (map den l))) -> expressed x).
      { intro H. assert (In x (map den l)) as H' by (destruct W; exact H). apply in_map_iff in H' as (g & <- & Hg). now apply kid. }
      fold (wmk W) in Hx. destruct red; [|auto]. destruct l as [|g [|g' l]]; [auto| |auto]. cbn [map] in Hx.
      apply (IH g); [now left| |exact Hx]. eapply tidy_kid; [exact T|now left].
    - cbn [children] in Hx. destruct (e_refs E n) as [c|] eqn:R; [|destruct Hx]. destruct Hx as [<-|[]]. destruct (refs _ _ R) as (g & -> & Hg). now apply expressed_den.
  Qed.
  Lemma expressed_here f : tidy f -> canonical (den f).
  Proof.
    induction f as [f IH] using fl_kids. intro T. pose proof (fun d => T f d (wi_here f)) as Hd.
    destruct f as [| |l|l|l|l|l|l|l|f|W l red|n]; cbn [den kids own] in *; try exact I.
    - destruct (last_bool l None) as [->|(d & H & ->)]; [exact I|]. now apply Hd.
    - destruct (fst (str_chain l)) as [d|] eqn:Q; [|exact I]. now apply Hd, last_str.
    - destruct (fst (num_chain l)) as [d|] eqn:Q; [|exact I]. now apply Hd, last_num.
    - unfold int_chain. pose proof (last_num l) as HL. destruct (num_chain l) as [[d|] c]; cbn [fst] in HL; destruct (int_chain_is_int l); try exact I; apply Hd, HL; reflexivity.
    - exact (sorted_keys _ (obj_sorted (map den_o l))).
    - fold (wmk W). assert (Hl : canonical (wmk W (map den l))) by (destruct W; exact I). destruct red; [|auto]. destruct l as [|g [|g' l]]; [auto| |auto]. cbn [map].
      apply IH; [now left|]. eapply tidy_kid; [exact T|now left].
  Qed.
  Lemma fluent_canonical f : tidy f -> Deep E canonical (den f).
  Proof.
    intros T x R. assert (H : forall a b, Reach E a b -> expressed a -> expressed b).
    { clear f T x R. induction 1 as [|a b c Hb R IH]; [auto|]. intros [->|(f & -> & T)]; [destruct Hb|]. apply IH. now apply expressed_child in Hb. }
    destruct (H _ _ R (expressed_den f T)) as [->|(g & -> & Tg)]; [exact I|now apply expressed_here].
  Qed.
End Children.

(** ** An expression, then Validate, both as written *)
Section Run.
  Context (E : Constraint.env) (hit : string -> bool) (D : bv -> resolver) (tn : nat -> string) (V : bv).
  (** the text of the constructors and setters returns one value, leaves what was in the
      store before as it was, and the value stands for one constraint, the one Fluent.v gives *)
  Theorem fluent_source f k e h w : exists v h',
    ev D tn V k f (st e h w) = BOk [v] (st e h' w) /\
    (forall x, x < List.length h -> cell x h' = cell x h) /\
    rep V (List.length h) (List.length h') h' v (den f) /\
    (forall lo hi c, rep V lo hi h' v c -> c = den f).
  Proof.
    destruct (src_fluent D tn V k f e h w) as (v & h' & H1 & [_ H2] & H3). exists v, h'. split; [exact H1|]. split; [exact H2|]. split; [exact H3|].
    intros lo hi c H. exact (rep_one V _ _ _ _ h' v _ _ H H3).
  Qed.
  (** what stands in the store is then run by the text of Validate as the documented rules say *)
  Theorem fluent_end_to_end f k e h w : (forall n c, e_refs E n = Some c -> exists g, c = den g /\ tidy g) -> tidy f -> regular E (den f) ->
    exists v h', ev D tn V k f (st e h w) = BOk [v] (st e h' w) /\
    forall lo hi c, rep V lo hi h' v c ->
    forall x o u r x', DocSpec.doc x -> SrcRuns E hit c x o u r x' ->
      (r = Pass /\ Satisfies E (den f) x /\ ~ Violates E (den f) x) \/ ((exists m, r = Fail m) /\ Violates E (den f) x /\ ~ Satisfies E (den f) x).
  Proof.
    intros HR T Hreg. destruct (fluent_source f k e h w) as (v & h' & H1 & _ & _ & H4). exists v, h'. split; [exact H1|].
    intros lo hi c Hc x o u r x' Hx. rewrite (H4 _ _ _ Hc). apply source_documented; [now apply fluent_canonical|exact Hreg|exact Hx].
  Qed.
End Run.

(** ** The validator of Cases.v, written with the fluent API *)
Definition person_fl : fl :=
  FObj [OcProp "friends" (FArr [AcItems (FRef "person"); AcMax 3]); OcProp "id" (FCombo WOneOf [FStr []; FNum []] true);
        OcProp "tags" (FCombo WAny [FArr [AcItems (FStr []); AcUnique true]] true); OcProp "mail" (FStr [SFormat "email"]);
        OcProp "age" (FInt [NDefault (num 0); NMinimum (f64_of_Z 0)]); OcProp "name" (FStr [SMinLength 1; SMaxLength 20]);
        OcRequired ["name"]; OcPat (0, "x-") (FNum []); OcPropDep "mail" ["name"]].
Example person_said : den person_fl = person /\ den (FRef "person") = root.
Proof. split; reflexivity. Qed.
Example person_run : exists h', ev (fun _ _ => ROther) (fun _ => "") (BPtr 0 []) 20 person_fl (st [] [BStruct "JSVal" []] []) = BOk [BPtr 6 []] (st [] h' []) /\ List.length h' = 19.
Proof. eexists. split; [vm_compute; reflexivity|reflexivity]. Qed.
Example person_tidy : tidy person_fl /\ tidy (FRef "person") /\ forall n c, e_refs env1 n = Some c -> exists g, c = den g /\ tidy g.
Proof.
  assert (L : forall f d, Within person_fl f -> In d (own f) -> in_order d).
  { intros f d W. remember person_fl as p eqn:Q. assert (S : In p [person_fl] \/ In p (kids person_fl) \/ In p (flat_map kids (kids person_fl))) by (left; now left). clear Q.
    revert S. induction W as [f|f g x Hg W IH]; intros S Hd.
    - cbn in S. repeat match type of S with _ \/ _ => destruct S as [S|S] end; try (destruct S; fail); subst f; cbn in Hd;
        repeat match type of Hd with _ \/ _ => destruct Hd as [Hd|Hd] end; try (destruct Hd; fail). subst d. now apply order_test_sound.
    - apply IH; [|exact Hd]. destruct S as [[<-|[]]|[S|S]]; [right; left; exact Hg|right; right; apply in_flat_map; eauto|].
      cbn in S. repeat match type of S with _ \/ _ => destruct S as [S|S] end; try (destruct S; fail); subst f; cbn in Hg; repeat match type of Hg with _ \/ _ => destruct Hg as [Hg|Hg] end; try (destruct Hg; fail). right. right. rewrite <- Hg. cbn. tauto. }
  split; [exact L|]. split; [intros g d W; inversion W as [|? ? ? Hg]; subst; [intros []|destruct Hg]|].
  intros n c Hn. change (one_ref "person" person n = Some c) in Hn. revert Hn. unfold one_ref. destruct (String.eqb n "person"); [|discriminate]. intro H. exists person_fl. split; [|exact L]. rewrite (proj1 person_said). congruence.
Qed.
(** written with the fluent API and run from the source, it accepts ann *)
Example person_end_to_end o u k : exists v h', ev (fun _ _ => ROther) (fun _ => "") (BPtr 0 []) k person_fl (st [] [] []) = BOk [v] (st [] h' []) /\
  forall lo hi c, rep (BPtr 0 []) lo hi h' v c -> (exists r x', SrcRuns env1 never c ann o u r x') /\ forall r x', SrcRuns env1 never c ann o u r x' -> r = Pass.
Proof.
  destruct person_tidy as (T1 & _ & T2).
  assert (Hp : regular env1 person).
  { destruct person_regular as [_ H]. split; [discriminate|]. apply (Deep_child _ _ root); [now left|exact H]. }
  assert (Hr : regular env1 (den person_fl)) by (rewrite (proj1 person_said); exact Hp).
  destruct (fluent_end_to_end env1 never (fun _ _ => ROther) (fun _ => "") (BPtr 0 []) person_fl k [] [] [] T2 T1 Hr) as (v & h' & H1 & H2). exists v, h'.
  split; [exact H1|]. intros lo hi c Hc. specialize (H2 lo hi c Hc ann o u).
  assert (Q : c = person).
  { destruct (fluent_source (fun _ _ => ROther) (fun _ => "") (BPtr 0 []) person_fl k [] [] []) as (v1 & h1 & E1 & _ & _ & E2). rewrite E1 in H1. injection H1 as -> ->. rewrite <- (proj1 person_said). exact (E2 _ _ _ Hc). }
  split.
  - rewrite Q. destruct person_terminates as (F & G & Sm). apply (source_terminates env1 never person ann o u); try assumption; [|exact (proj1 (proj2 person_canonical))|].
    + apply (Deep_child _ _ root); [now left|exact (proj1 person_canonical)].
    + apply (small_child _ root); [exact Sm|now left].
  - intros r x' R. destruct (H2 r x' (proj1 ann_doc) R) as [[-> _]|[_ [_ N]]]; [reflexivity|]. destruct N. rewrite (proj1 person_said).
    assert (R0 : Runs env1 person ann [] (Pass, ann', [])) by (apply (run_it _ 20); [vm_compute; reflexivity|discriminate]).
    destruct (documented_run _ _ _ _ _ _ _ Hp (proj1 ann_doc) R0) as [(_ & H & _)|([? H] & _)]; [exact H|discriminate].
Qed.
