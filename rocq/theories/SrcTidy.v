(** Running a generated file leaves constraints in canonical form, so the text of Validate can be
    run on them (C75). *)
From Verif Require Import Base GoFloat GoValue Maybe Formats Constraint StructInfo Validate Reach ConstrInd Local Builder GoText GoLang GoEval SrcSorted SrcEnd.
From Verif Require GenTheorems.
Open Scope string_scope.
Open Scope list_scope.
Open Scope Z_scope.

(** every constraint in the tree has its properties in the order of their names, and a default
    that is in canonical form *)
Definition neat1 (c : constr) : Prop :=
  match c with
  | CObj o => ssorted (o_props o)
  | CBool (Some d) | CStr (Some d) _ | CNum (Some d) _ | CInt (Some d) _ => in_order d
  | _ => True
  end.
Inductive neat : constr -> Prop := neat_intro c : neat1 c -> (forall x, In x (subs c) -> neat x) -> neat c.
Lemma neat_canonical c : neat c -> canonical c.
Proof. intros [c' H _]. destruct c'; try exact H. cbn in *. now apply sorted_keys. Qed.
Lemma neat_deep E f c : (forall n x, f n = Some x -> neat x) -> neat c -> Deep (set_refs E f) canonical c.
Proof.
  intros Hf Hc x R. apply neat_canonical. induction R as [c|c y x Hy R IH]; [exact Hc|]. apply IH.
  destruct Hc as [c _ Hs]. destruct c; try (apply Hs; exact Hy). cbn [children set_refs e_refs] in Hy.
  destruct (f name) eqn:Ef; [|destruct Hy]. destruct Hy as [<-|[]]. exact (Hf _ _ Ef).
Qed.

Definition neat_v (v : value) : Prop :=
  match v with
  | VC c => neat c
  | VCs l => forall c, In c l -> neat c
  | VJ j => neat (j_root j)
  | _ => True
  end.
Record neat_s (s : estate) : Prop := {
  ns_vars : forall x v, sget x (e_vars s) = Some v -> neat_v v;
  ns_refs : forall n c, GenTheorems.run_refs s n = Some c -> neat c }.

Lemma neat_leaf c : neat1 c -> subs c = [] -> neat c.
Proof. intros H E. constructor; [exact H|]. rewrite E. intros x []. Qed.
Lemma neat_nil : neat CNil.
Proof. now apply neat_leaf. Qed.
Lemma call_fun_neat f l v : (forall x, In x l -> neat_v x) -> call_fun f l = Some v -> neat_v v.
Proof.
  intros H. destruct l as [|x [|y r]]; cbn [call_fun].
  - repeat (match goal with |- (if ?b then _ else _) = _ -> _ => destruct b end);
      intros E; inversion E; subst; cbn; try (apply neat_leaf; reflexivity || exact I).
    + constructor; [constructor|]. cbn. intros x [<-|[]]. now apply neat_leaf.
    + constructor; [exact I|]. cbn. intros x [<-|[<-|[]]]; now apply neat_leaf.
  - destruct x; try discriminate.
    + destruct (f =? "Not")%string; [|discriminate]. intros [= <-]. constructor; [exact I|]. intros x [<-|[]]. apply (H (VC c)). now left.
    + destruct (f =? "Reference")%string; [|discriminate]. intros [= <-]. now apply neat_leaf.
  - destruct x; discriminate.
Qed.

Lemma in_sset {A} k (x : A) m y : In y (map snd (sset k x m)) -> y = x \/ In y (map snd m).
Proof.
  induction m as [|[a b] m IH]; cbn; [intuition|]. destruct (String.compare k a); cbn; intuition.
Qed.
Lemma in_pat_set k x m y : In y (map snd (pat_set k x m)) -> y = x \/ In y (map snd m).
Proof.
  induction m as [|[a b] m IH]; cbn; [intuition|]. destruct (Nat.compare (fst k) (fst a)); cbn; intuition.
Qed.
Lemma as_iface_leaf v x : as_iface v = Some x -> in_order x.
Proof.
  destruct v; cbn; try discriminate; intro H.
  - destruct (in_int z); [|discriminate]. injection H as <-. now apply io_leaf.
  - destruct (dec_f64 n k); [|discriminate]. injection H as <-. now apply io_leaf.
  - injection H as <-. now apply io_leaf.
  - injection H as <-. now apply io_leaf.
Qed.
Lemma neat_inv c : neat c -> neat1 c /\ forall x, In x (subs c) -> neat x.
Proof. now intros [c' H1 H2]. Qed.
Lemma obj_method_neat o m l n o' n' : neat (CObj o) -> (forall x, In x l -> neat_v x) -> obj_method o m l n = Some (o', n') -> neat (CObj o').
Proof.
  intros Ho Hl. apply neat_inv in Ho as [H1 H2]. cbn [subs] in H2.
  assert (Hk : forall c, In (VC c) l -> neat c) by (intros c Hc; exact (Hl _ Hc)).
  unfold obj_method.
  repeat match goal with |- (if ?b then _ else _) = _ -> _ => destruct b end; try discriminate.
  - destruct (all_some as_string l); [|discriminate]. intros [= <- _]. constructor; [exact H1|exact H2].
  - destruct l as [|[] [|]]; try discriminate. intros [= <- _]. constructor; [exact H1|]. cbn. intros x [<-|Hx]; [apply Hk; now left|apply H2; now right].
  - destruct l as [|[] [|[] [|]]]; try discriminate. intros [= <- _]. constructor; [now apply sset_sorted|]. cbn. intros x [<-|Hx]; [apply H2; now left|].
    apply in_app_or in Hx as [Hx|Hx]; [apply H2; right; apply in_or_app; now left|]. apply in_app_or in Hx as [Hx|Hx]; [|apply H2; right; rewrite app_assoc; apply in_or_app; now right].
    apply in_sset in Hx as [->|Hx]; [apply Hk; right; now left|]. apply H2. right. apply in_or_app; right. apply in_or_app; now left.
  - destruct l as [|[] [|[] [|]]]; try discriminate. intros [= <- _]. constructor; [exact H1|]. cbn. intros x [<-|Hx]; [apply H2; now left|].
    apply in_app_or in Hx as [Hx|Hx]; [|apply H2; right; apply in_or_app; now right].
    apply in_pat_set in Hx as [->|Hx]; [apply Hk; right; now left|]. apply H2. right. apply in_or_app; now left.
  - destruct l as [|[] r]; try discriminate. destruct (all_some as_string r); [|discriminate]. intros [= <- _]. constructor; [exact H1|exact H2].
  - destruct l as [|[] [|[] [|]]]; try discriminate. intros [= <- _]. constructor; [exact H1|]. cbn. intros x [<-|Hx]; [apply H2; now left|].
    rewrite app_assoc in Hx. apply in_app_or in Hx as [Hx|Hx]; [apply H2; right; rewrite app_assoc; apply in_or_app; now left|].
    apply in_sset in Hx as [->|Hx]; [apply Hk; right; now left|]. apply H2. right. rewrite app_assoc. apply in_or_app; now right.
  - destruct l as [|v [|]]; try discriminate. destruct (as_int v); [|discriminate]. intros [= <- _]. constructor; [exact H1|exact H2].
  - destruct l as [|v [|]]; try discriminate. destruct (as_int v); [|discriminate]. intros [= <- _]. constructor; [exact H1|exact H2].
Qed.
Lemma arr_method_neat a m l a' : neat (CArr a) -> (forall x, In x l -> neat_v x) -> arr_method a m l = Some a' -> neat (CArr a').
Proof.
  intros Ha Hl. apply neat_inv in Ha as [_ H2]. cbn [subs] in H2.
  assert (H0 : neat (a_items a)) by (apply H2; now left). assert (H3 : neat (a_add a)) by (apply H2; right; now left).
  assert (H4 : forall x, In x (a_pos a) -> neat x) by (intros x Hx; apply H2; right; now right).
  destruct l as [|v [|]]; [discriminate| |destruct v; discriminate]. specialize (Hl v (or_introl eq_refl)).
  destruct v; cbn [arr_method]; try discriminate;
    repeat match goal with |- (if ?b then _ else _) = _ -> _ => destruct b end; try discriminate; intros [= <-];
    (constructor; [exact I|]; cbn; intros x [<-|[<-|Hx]]; auto).
Qed.
Lemma str_method_neat d c m l x : neat (CStr d c) -> str_method d c m l = Some x -> neat x.
Proof.
  intros Hc. apply neat_inv in Hc as [H1 _]. unfold str_method.
  repeat match goal with
  | |- (if ?b then _ else _) = _ -> _ => destruct b
  | |- match ?l with [] => _ | _ :: _ => _ end = _ -> _ => destruct l; try discriminate
  end; try discriminate;
  match goal with |- option_map _ ?o = _ -> _ => destruct o eqn:Eo; [|discriminate] end; intros [= <-]; (apply neat_leaf; [|reflexivity]); try exact H1.
  eapply as_iface_leaf; eauto.
Qed.
Lemma num_method_neat (i : bool) d c m l x : neat (if i then CInt d c else CNum d c) -> num_method i d c m l = Some x -> neat x.
Proof.
  intros Hc. assert (H1 : match d with Some d => in_order d | None => True end) by (apply neat_inv in Hc as [H1 _]; now destruct i, d).
  unfold num_method.
  repeat match goal with
  | |- (if ?b then _ else _) = _ -> _ => destruct b
  | |- match ?l with [] => _ | _ :: _ => _ end = _ -> _ => destruct l; try discriminate
  | |- match ?v with VInt _ => _ | VDec _ _ => _ | VString _ => _ | VBool _ => _ | VC _ => _ | VCs _ => _ | VM => _ | VJ _ => _ | VUnit => _ end = _ -> _ => destruct v; try discriminate
  end; try discriminate;
  try (match goal with |- option_map _ ?o = _ -> _ => destruct o eqn:Eo; [|discriminate] end); intros [= <-]; destruct i; (apply neat_leaf; [|reflexivity]); try exact H1;
  eapply as_iface_leaf; eauto.
Qed.

Lemma neat_bool d : match d with Some x => in_order x | None => True end -> neat (CBool d).
Proof. intro H. apply neat_leaf; [|reflexivity]. destruct d; exact H. Qed.
Lemma add_child_neat c l : (forall x, In x l -> neat x) -> neat c -> forall x, In x (add_child c l) -> neat x.
Proof. intros Hl Hc x Hx. apply in_app_or in Hx as [Hx|[<-|[]]]; auto. Qed.
Lemma call_method_neat v m l s v' s' : neat_v v -> (forall x, In x l -> neat_v x) -> neat_s s -> call_method v m l s = Some (v', s') -> neat_v v' /\ neat_s s'.
Proof.
  intros Hv Hl Hs. unfold call_method.
  destruct v as [| | | |c| | |j|]; try discriminate.
  - cbn [neat_v] in Hv. destruct c as [| | |d|d c|d c|d c|a|o|e|l0|l0|l0|x|nm]; try discriminate.
    + destruct l as [|x [|]]; try discriminate. destruct (m =? "Default")%string; [|discriminate]. cbn [option_map].
      destruct (as_iface x) eqn:Ei; [|discriminate]. intros [= <- <-]. split; [|exact Hs]. apply neat_bool. eapply as_iface_leaf; eauto.
    + destruct (str_method d c m l) eqn:E; [|discriminate]. intros [= <- <-]. split; [|exact Hs]. eapply str_method_neat; eauto.
    + destruct (num_method false d c m l) eqn:E; [|discriminate]. intros [= <- <-]. split; [|exact Hs]. eapply num_method_neat with (i := false); eauto.
    + destruct (num_method true d c m l) eqn:E; [|discriminate]. intros [= <- <-]. split; [|exact Hs]. eapply num_method_neat with (i := true); eauto.
    + destruct (arr_method a m l) eqn:E; [|discriminate]. intros [= <- <-]. split; [|exact Hs]. eapply arr_method_neat; eauto.
    + destruct (obj_method o m l (e_next s)) as [[o' n']|] eqn:E; [|discriminate]. intros [= <- <-]. split; [eapply obj_method_neat; eauto|].
      destruct Hs as [S1 S2]. split; assumption.
    + destruct l as [|[] [|]]; try discriminate. destruct (m =? "Add")%string; [|discriminate]. intros [= <- <-]. split; [|exact Hs].
      apply neat_inv in Hv as [_ H2]. constructor; [exact I|]. apply add_child_neat; [exact H2|]. apply (Hl (VC c)). now left.
    + destruct l as [|[] [|]]; try discriminate. destruct (m =? "Add")%string; [|discriminate]. intros [= <- <-]. split; [|exact Hs].
      apply neat_inv in Hv as [_ H2]. constructor; [exact I|]. apply add_child_neat; [exact H2|]. apply (Hl (VC c)). now left.
    + destruct l as [|[] [|]]; try discriminate. destruct (m =? "Add")%string; [|discriminate]. intros [= <- <-]. split; [|exact Hs].
      apply neat_inv in Hv as [_ H2]. constructor; [exact I|]. apply add_child_neat; [exact H2|]. apply (Hl (VC c)). now left.
    + destruct l as [|[] [|]]; try discriminate. destruct (m =? "RefersTo")%string; [|discriminate]. intros [= <- <-]. split; [|exact Hs]. now apply neat_leaf.
  - destruct l as [|[] [|[] [|]]]; try discriminate. destruct (e_cmap s) as [r|] eqn:Er; [|discriminate]. destruct (m =? "SetReference")%string; [|discriminate].
    intros [= <- <-]. split; [exact I|]. destruct Hs as [S1 S2]. split; [exact S1|]. intros n x. unfold GenTheorems.run_refs in *. cbn [e_cmap] in *. rewrite Er in S2.
    destruct (String.eqb_spec n s0) as [->|Hn]; [rewrite sget_sset_same; intros [= <-]; apply (Hl (VC c)); right; now left|rewrite sget_sset_other by assumption; apply S2].
  - destruct l as [|[] [|]]; try discriminate.
    + destruct (m =? "SetName")%string; [|discriminate]. intros [= <- <-]. now split.
    + destruct (m =? "SetRoot")%string; [|discriminate]. intros [= <- <-]. split; [|exact Hs]. apply (Hl (VC c)). now left.
    + destruct (m =? "SetConstraintMap")%string; [|discriminate]. intros [= <- <-]. now split.
Qed.
Lemma all_constr_neat l cs : (forall x, In x l -> neat_v x) -> all_some as_constr l = Some cs -> forall c, In c cs -> neat c.
Proof.
  revert cs. induction l as [|v l IH]; intros cs Hl; cbn [all_some]; [intros [= <-] c []|].
  destruct v; try discriminate. cbn [as_constr]. destruct (all_some as_constr l) as [r|] eqn:E; [|discriminate]. intros [= <-] x [<-|Hx].
  - apply (Hl (VC c)). now left.
  - eapply IH; eauto. intros y Hy. apply Hl. now right.
Qed.
Lemma number_neat s v : number_value s = Some v -> neat_v v.
Proof.
  unfold number_value. destruct (split_dot "" s) as [[a b]|].
  - destruct (digits a), (digits b); try discriminate. intros [= <-]. exact I.
  - destruct (digits s); [|discriminate]. intros [= <-]. exact I.
Qed.
Theorem eval_neat : forall e s v s', neat_s s -> eval e s = Some (v, s') -> neat_v v /\ neat_s s'.
Proof.
  fix IH 1.
  assert (IHs : forall l s vs s', neat_s s -> evals eval l s = Some (vs, s') -> (forall x, In x vs -> neat_v x) /\ neat_s s').
  { fix IHl 1. intros [|e l] s vs s' Hs; cbn [evals].
    - intros [= <- <-]. split; [intros x []|exact Hs].
    - destruct (eval e s) as [[v s1]|] eqn:Ee; [|discriminate]. destruct (IH e s v s1 Hs Ee) as [Hv Hs1].
      fold (evals eval). destruct (evals eval l s1) as [[vs1 s2]|] eqn:El; [|discriminate]. destruct (IHl l s1 vs1 s2 Hs1 El) as [Hvs Hs2].
      intros [= <- <-]. split; [|exact Hs2]. intros x [<-|Hx]; auto. }
  intros e s v s' Hs. destruct e as [x|t|t|e1|r x|f l|p t l|p t].
  - cbn [eval]. destruct (x =? "true")%string; [intros [= <- <-]; now split|]. destruct (x =? "false")%string; [intros [= <- <-]; now split|].
    destruct (sget x (e_vars s)) eqn:E; [|discriminate]. intros [= <- <-]. split; [|exact Hs]. eapply ns_vars; eauto.
  - intros [= <- <-]. now split.
  - cbn [eval]. destruct (number_value t) eqn:E; [|discriminate]. intros [= <- <-]. split; [|exact Hs]. eapply number_neat; eauto.
  - cbn [eval]. destruct (eval e1 s) as [[v1 s1]|] eqn:E; [|discriminate]. destruct (IH e1 s v1 s1 Hs E) as [_ H1].
    destruct v1; try discriminate; intros [= <- <-]; now split.
  - cbn [eval]. destruct (is_pkg r); [|discriminate]. destruct (x =? "EmptyConstraint")%string; [intros [= <- <-]; split; [now apply neat_leaf|exact Hs]|].
    destruct (x =? "NullConstraint")%string; [|discriminate]. intros [= <- <-]. split; [now apply neat_leaf|exact Hs].
  - destruct f as [|?|?|?|r m|?|?|?]; try discriminate. cbn [eval]. destruct (is_pkg r).
    + destruct (evals eval l s) as [[vs s1]|] eqn:El; [|discriminate]. destruct (IHs l s vs s1 Hs El) as [Hvs Hs1].
      destruct (call_fun m vs) eqn:Ec; [|discriminate]. intros [= <- <-]. split; [|exact Hs1]. eapply call_fun_neat; eauto.
    + destruct (eval r s) as [[v1 s1]|] eqn:Er; [|discriminate]. destruct (IH r s v1 s1 Hs Er) as [Hv1 Hs1].
      destruct (evals eval l s1) as [[vs s2]|] eqn:El; [|discriminate]. destruct (IHs l s1 vs s2 Hs1 El) as [Hvs Hs2].
      intro Hc. eapply call_method_neat; eauto.
  - cbn [eval]. destruct ((p =? "jsval") && (t =? "Constraint"))%string; [|discriminate].
    destruct (evals eval l s) as [[vs s1]|] eqn:El; [|discriminate]. destruct (IHs l s vs s1 Hs El) as [Hvs Hs1].
    destruct (all_some as_constr vs) eqn:Ea; [|discriminate]. intros [= <- <-]. split; [|exact Hs1]. cbn [neat_v]. eapply all_constr_neat; eauto.
  - cbn [eval]. destruct ((p =? "jsval") && (t =? "ConstraintMap"))%string; [|discriminate]. destruct (e_cmap s) eqn:E; [discriminate|].
    intros [= <- <-]. split; [exact I|]. destruct Hs as [S1 S2]. split; [exact S1|]. intros n c. discriminate.
Qed.
Lemma exec_neat ds t s s' : neat_s s -> exec ds t s = Some s' -> neat_s s'.
Proof.
  intros Hs. destruct t as [f e|e]; cbn [exec].
  - destruct f as [x|?|?|?|? ?|? ?|? ? ?|? ?]; try discriminate. destruct (find _ ds); [|discriminate]. destruct (eval e s) as [[v s1]|] eqn:E; [|discriminate].
    destruct (eval_neat e s v s1 Hs E) as [Hv [S1 S2]]. destruct (fits d v); [|discriminate]. intros [= <-]. split; [|exact S2]. cbn [e_vars].
    intros y u. destruct (String.eqb_spec y x) as [->|Hn]; [rewrite sget_sset_same; intros [= <-]; exact Hv|rewrite sget_sset_other by assumption; apply S1].
  - destruct e as [?|?|?|?|? ?|f l|? ? ?|? ?]; try discriminate. destruct (eval (ECall f l) s) as [[v s1]|] eqn:E; [|discriminate].
    intros [= <-]. apply (eval_neat _ _ _ _ Hs E).
Qed.
Lemma execs_neat ds l : forall s s', neat_s s -> execs ds l s = Some s' -> neat_s s'.
Proof.
  induction l as [|t l IH]; intros s s' Hs; cbn [execs]; [now intros [= <-]|]. destruct (exec ds t s) as [s1|] eqn:E; [|discriminate].
  apply IH. eapply exec_neat; eauto.
Qed.
(** whatever the text, if it runs *)
Theorem run_neat text s : run_go text = Some s -> neat_s s.
Proof.
  unfold run_go, run_file. destruct (parse_go text) as [f|]; [|discriminate]. destruct (_ && _); [|discriminate]. apply execs_neat.
  split; [intros x v; discriminate|intros n c; discriminate].
Qed.
Theorem run_canonical E text s x j : run_go text = Some s -> sget x (e_vars s) = Some (VJ j) ->
  Deep (set_refs E (GenTheorems.run_refs s)) canonical (j_root j).
Proof.
  intros Hr Hx. destruct (run_neat text s Hr) as [S1 S2]. apply neat_deep; [exact S2|]. exact (S1 x _ Hx).
Qed.
