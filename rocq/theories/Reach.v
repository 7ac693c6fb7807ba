(** Which constraints a constraint can reach, and which defaults they declare:
    the vocabulary for the guards of the theorems. *)
From Verif Require Import Base GoFloat GoValue Constraint.

Definition children (E : env) (c : constr) : list constr :=
  match c with
  | CArr a => a_items a :: a_add a :: a_pos a
  | CObj o => o_add o :: map snd (o_pats o) ++ map snd (o_props o) ++ map snd (o_sdeps o)
  | CAny l | CAll l | COneOf l => l
  | CNot x => [x]
  | CRef n => match e_refs E n with Some x => [x] | None => [] end
  | _ => []
  end.

(** c' occurs in c, possibly through references *)
Inductive Reach (E : env) : constr -> constr -> Prop :=
| reach_refl c : Reach E c c
| reach_step c x c' : In x (children E c) -> Reach E x c' -> Reach E c c'.

(** the default declared by a constraint, following references *)
Inductive Default (E : env) : constr -> gval -> Prop :=
| def_bool d : Default E (CBool (Some d)) d
| def_str d s : Default E (CStr (Some d) s) d
| def_num d s : Default E (CNum (Some d) s) d
| def_int d s : Default E (CInt (Some d) s) d
| def_ref n c d : e_refs E n = Some c -> Default E c d -> Default E (CRef n) d.

(** d is the declared default of some property reachable from c *)
Definition declared (E : env) (c : constr) (d : gval) : Prop :=
  exists o k p, Reach E c (CObj o) /\ In (k, p) (o_props o) /\ Default E p d.

(** no property reachable from c declares a default *)
Definition pure (E : env) (c : constr) : Prop := forall d, ~ declared E c d.

(** every constraint reachable from c satisfies P *)
Definition Deep (E : env) (P : constr -> Prop) (c : constr) : Prop := forall x, Reach E c x -> P x.

Lemma reach_trans E a b c : Reach E a b -> Reach E b c -> Reach E a c.
Proof. induction 1; auto. intros R. econstructor; eauto. Qed.

Lemma reach_child E c x : In x (children E c) -> Reach E c x.
Proof. intros H. econstructor; [exact H|constructor]. Qed.

Lemma declared_child E c x d : In x (children E c) -> declared E x d -> declared E c d.
Proof.
  intros H (o & k & p & R & I & D). exists o, k, p. repeat split; auto. econstructor; eauto.
Qed.

Lemma pure_child E c x : In x (children E c) -> pure E c -> pure E x.
Proof. intros H P d D. apply (P d). eapply declared_child; eauto. Qed.

Lemma Deep_child E P c x : In x (children E c) -> Deep E P c -> Deep E P x.
Proof. intros H D y R. apply D. econstructor; eauto. Qed.

Lemma Deep_here E P c : Deep E P c -> P c.
Proof. intros D. apply D. constructor. Qed.

(** membership in children *)
Lemma child_prop E o k c : In (k, c) (o_props o) -> In c (children E (CObj o)).
Proof.
  intros H. cbn. right. apply in_or_app. right. apply in_or_app. left.
  apply in_map_iff. exists (k, c). auto.
Qed.
Lemma child_pat E o k c : In (k, c) (o_pats o) -> In c (children E (CObj o)).
Proof. intros H. cbn. right. apply in_or_app. left. apply in_map_iff. exists (k, c). auto. Qed.
Lemma child_add E o : In (o_add o) (children E (CObj o)).
Proof. cbn. auto. Qed.
Lemma child_sdep E o k : schema_dep o k <> CNil -> In (schema_dep o k) (children E (CObj o)).
Proof.
  unfold schema_dep. destruct (sget k (o_sdeps o)) as [c|] eqn:S; [|congruence]. intros _.
  cbn. right. apply in_or_app. right. apply in_or_app. right.
  apply in_map_iff. exists (k, c). split; auto. now apply sget_in.
Qed.
Lemma child_items E a : In (a_items a) (children E (CArr a)).
Proof. cbn. auto. Qed.
Lemma child_aadd E a : In (a_add a) (children E (CArr a)).
Proof. cbn. auto. Qed.
Lemma child_pos E a c : In c (a_pos a) -> In c (children E (CArr a)).
Proof. cbn. auto. Qed.
Lemma child_ref E n c : e_refs E n = Some c -> In c (children E (CRef n)).
Proof. cbn. intros ->. cbn. auto. Qed.
