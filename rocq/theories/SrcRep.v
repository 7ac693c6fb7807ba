(** Constraint trees in the store. *)
From Verif Require Import Base GoFloat GoValue Maybe Formats Constraint StructInfo Validate Builder SrcSyntax SrcText SrcTextB SrcProg SrcStore SrcProgB SrcStepB SrcSetters.
Open Scope string_scope.
Open Scope list_scope.
Open Scope nat_scope.

(** the field enums of a constraint *)
Inductive erep (lo hi : nat) (h : list bv) : bv -> option (list gval) -> Prop :=
| e_none : erep lo hi h BNil None
| e_some b v l : lo <= b < hi -> cell b h = Some (enum_struct v) -> slice_items v = Some (map BIf l) -> erep lo hi h (BPtr b []) (Some l).

(** [rep V lo hi h v c]: the value [v] (of the interface type Constraint) is the constraint
    [c] in the store [h], using cells from [lo] to [hi] only; references look names up
    in [V]. *)
Section Rep.
  Variables (V : bv) (lo hi : nat) (h : list bv).
  Inductive rep : bv -> constr -> Prop :=
  | r_nil : rep BNil CNil
  | r_empty : rep empty_struct CEmpty
  | r_null : rep null_struct CNull
  | r_bool a d : lo <= a < hi -> cell a h = Some (bool_struct d) -> rep (BPtr a []) (CBool d)
  | r_str a d c e : lo <= a < hi -> cell a h = Some (str_struct d c e) -> erep lo hi h e (s_enum c) -> rep (BPtr a []) (CStr d c)
  | r_num a d c e : lo <= a < hi -> cell a h = Some (num_struct d c e) -> erep lo hi h e (n_enum c) -> rep (BPtr a []) (CNum d c)
  | r_int a d c e : lo <= a < hi -> cell a h = Some (int_struct d c e) -> erep lo hi h e (n_enum c) -> rep (BPtr a []) (CInt d c)
  (** a pointer to the NumberConstraint embedded in an IntegerConstraint *)
  | r_emb a d c e : lo <= a < hi -> cell a h = Some (int_struct d c e) -> erep lo hi h e (n_enum c) -> rep (BPtr a ["NumberConstraint"]) (CNum d c)
  | r_arr a x vi vp va l : lo <= a < hi -> cell a h = Some (arr_struct x vi vp va) ->
      rep vi (a_items x) -> slice_items vp = Some l -> reps l (a_pos x) -> rep va (a_add x) -> rep (BPtr a []) (CArr x)
  | r_obj a o va m l1 l2 l3 l4 l5 : lo <= a < hi -> cell a h = Some (obj_struct (o_min o) (o_max o) va m) ->
      rep va (o_add o) ->
      lo <= om_pats m < hi -> cell (om_pats m) h = Some (BMapI l1) -> rreps l1 (o_pats o) ->
      lo <= om_props m < hi -> cell (om_props m) h = Some (BMapI l2) -> sreps l2 (o_props o) ->
      lo <= om_deps m < hi -> cell (om_deps m) h = Some (BMapI l3) ->
        Forall2 (fun e p => fst e = BStr (fst p) /\ slice_items (snd e) = Some (map BStr (snd p))) l3 (o_propdeps o) ->
      lo <= om_req m < hi -> cell (om_req m) h = Some (BMapI l4) -> l4 = map (fun p => (BStr (fst p), BUnit)) (o_req o) ->
      lo <= om_sdeps m < hi -> cell (om_sdeps m) h = Some (BMapI l5) -> sreps l5 (o_sdeps o) ->
      rep (BPtr a []) (CObj o)
  | r_enum a v l : lo <= a < hi -> cell a h = Some (enum_struct v) -> slice_items v = Some (map BIf l) -> rep (BPtr a []) (CEnum l)
  | r_any a v l cs : lo <= a < hi -> cell a h = Some (combo_struct "AnyConstraint" v) -> slice_items v = Some l -> reps l cs -> rep (BPtr a []) (CAny cs)
  | r_all a v l cs : lo <= a < hi -> cell a h = Some (combo_struct "AllConstraint" v) -> slice_items v = Some l -> reps l cs -> rep (BPtr a []) (CAll cs)
  | r_oneOf a v l cs : lo <= a < hi -> cell a h = Some (combo_struct "OneOfConstraint" v) -> slice_items v = Some l -> reps l cs -> rep (BPtr a []) (COneOf cs)
  | r_not a v c : lo <= a < hi -> cell a h = Some (not_struct v) -> rep v c -> rep (BPtr a []) (CNot c)
  | r_ref a x : lo <= a < hi -> cell a h = Some (ref_struct V x) -> rep (BPtr a []) (CRef x)
  with reps : list bv -> list constr -> Prop :=
  | rs_nil : reps [] []
  | rs_cons v c vs cs : rep v c -> reps vs cs -> reps (v :: vs) (c :: cs)
  with sreps : list (bv * bv) -> list (string * constr) -> Prop :=
  | ss_nil : sreps [] []
  | ss_cons k v c vs cs : rep v c -> sreps vs cs -> sreps ((BStr k, v) :: vs) ((k, c) :: cs)
  with rreps : list (bv * bv) -> list ((nat * string) * constr) -> Prop :=
  | rr_nil : rreps [] []
  | rr_cons k v c vs cs : rep v c -> rreps vs cs -> rreps ((BRx k, v) :: vs) ((k, c) :: cs).
End Rep.
Scheme rep_mut := Induction for rep Sort Prop
  with reps_mut := Induction for reps Sort Prop
  with sreps_mut := Induction for sreps Sort Prop
  with rreps_mut := Induction for rreps Sort Prop.
Combined Scheme rep_all from rep_mut, reps_mut, sreps_mut, rreps_mut.

(** it is kept as long as the cells it uses are *)
Lemma erep_keep lo hi lo' hi' h h' e o : erep lo hi h e o -> lo' <= lo -> hi <= hi' ->
  (forall a, lo <= a < hi -> cell a h' = cell a h) -> erep lo' hi' h' e o.
Proof. intros [|b v l Hb Hc Hv] H1 H2 Hk; [constructor|]. econstructor; [lia| |exact Hv]. now rewrite Hk. Qed.
Section Keep.
  Variables (V : bv) (lo hi lo' hi' : nat) (h h' : list bv).
  Hypothesis Hlo : lo' <= lo.
  Hypothesis Hhi : hi <= hi'.
  Hypothesis Hk : forall a, lo <= a < hi -> cell a h' = cell a h.
  Lemma reps_keep_all :
    (forall v c, rep V lo hi h v c -> rep V lo' hi' h' v c) /\ (forall l cs, reps V lo hi h l cs -> reps V lo' hi' h' l cs) /\
    (forall l cs, sreps V lo hi h l cs -> sreps V lo' hi' h' l cs) /\ (forall l cs, rreps V lo hi h l cs -> rreps V lo' hi' h' l cs).
  Proof.
    apply (rep_all V lo hi h (fun v c _ => rep V lo' hi' h' v c) (fun l cs _ => reps V lo' hi' h' l cs)
      (fun l cs _ => sreps V lo' hi' h' l cs) (fun l cs _ => rreps V lo' hi' h' l cs)); intros; try (constructor; assumption);
      try (econstructor; first [eassumption | lia | (rewrite Hk; [eassumption|lia]) | (eapply erep_keep; eassumption)]).
  Qed.
End Keep.
Lemma rep_keep V lo hi lo' hi' h h' v c : rep V lo hi h v c -> lo' <= lo -> hi <= hi' ->
  (forall a, lo <= a < hi -> cell a h' = cell a h) -> rep V lo' hi' h' v c.
Proof. intros H H1 H2 H3. now apply (reps_keep_all V lo hi lo' hi' h h' H1 H2 H3). Qed.
Lemma reps_keep V lo hi lo' hi' h h' v c : reps V lo hi h v c -> lo' <= lo -> hi <= hi' ->
  (forall a, lo <= a < hi -> cell a h' = cell a h) -> reps V lo' hi' h' v c.
Proof. intros H H1 H2 H3. now apply (reps_keep_all V lo hi lo' hi' h h' H1 H2 H3). Qed.
Lemma sreps_keep V lo hi lo' hi' h h' v c : sreps V lo hi h v c -> lo' <= lo -> hi <= hi' ->
  (forall a, lo <= a < hi -> cell a h' = cell a h) -> sreps V lo' hi' h' v c.
Proof. intros H H1 H2 H3. now apply (reps_keep_all V lo hi lo' hi' h h' H1 H2 H3). Qed.
Lemma rreps_keep V lo hi lo' hi' h h' v c : rreps V lo hi h v c -> lo' <= lo -> hi <= hi' ->
  (forall a, lo <= a < hi -> cell a h' = cell a h) -> rreps V lo' hi' h' v c.
Proof. intros H H1 H2 H3. now apply (reps_keep_all V lo hi lo' hi' h h' H1 H2 H3). Qed.

Lemma reps_app V lo hi h l1 l2 c1 c2 : reps V lo hi h l1 c1 -> reps V lo hi h l2 c2 -> reps V lo hi h (l1 ++ l2) (c1 ++ c2).
Proof. revert c1. induction l1 as [|v l1 IH]; intros c1 H1 H2; inversion H1; subst; cbn; [exact H2|]. constructor; [assumption|]. now apply IH. Qed.
Lemma reps_length V lo hi h l c : reps V lo hi h l c -> List.length l = List.length c.
Proof. revert c. induction l as [|v l1 IH]; intros c1 H1; inversion H1; subst; cbn; [reflexivity|]. f_equal. now apply IH. Qed.
Lemma sreps_put V lo hi h l cs k v c : sreps V lo hi h l cs -> rep V lo hi h v c -> sreps V lo hi h (kput (BStr k) v l) (sset k c cs).
Proof.
  revert cs. induction l as [|[k' v'] l IH]; intros cs H1 H2; inversion H1; subst; cbn [kput sset kcmp].
  - constructor; [exact H2|constructor].
  - destruct (String.compare k k0); constructor; try assumption.
    now apply IH.
Qed.
Lemma rreps_put V lo hi h l cs k v c : rreps V lo hi h l cs -> rep V lo hi h v c -> rreps V lo hi h (kput (BRx k) v l) (pat_set k c cs).
Proof.
  revert cs. induction l as [|[k' v'] l IH]; intros cs H1 H2; inversion H1; subst; cbn [kput pat_set kcmp].
  - constructor; [exact H2|constructor].
  - destruct (Nat.compare (fst k) (fst k0)); constructor; try assumption.
    now apply IH.
Qed.
(** the names of the references used *)
Definition ref_map (R : Builder.names) : list (bv * bv) := map (fun e => (BStr (fst e), BUnit)) R.
Lemma ref_put x R : kput (BStr x) BUnit (ref_map R) = ref_map (sset x tt R).
Proof. unfold ref_map. induction R as [|[y []] R IH]; cbn; [reflexivity|]. destruct (String.compare x y); cbn; [reflexivity|reflexivity|]. now rewrite IH. Qed.
