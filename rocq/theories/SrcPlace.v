(** Places in the object that ObjectConstraint.Validate works on, and the maps of names
    it keeps (object.go:337-368). *)
From Verif Require Import Base GoFloat GoValue Maybe Formats Constraint StructInfo Validate Reach ReadOnly SrcSyntax SrcText SrcExec SrcProg SrcStep SrcAccess SrcProps SrcSet.
Open Scope string_scope.
Open Scope list_scope.
Open Scope Z_scope.

(** the reflect.Value of the object: v, or what v points to *)
Definition rv_of (d : gval) : loc := match d with GPtr _ _ _ => LElem (LVal LRoot) | _ => LVal LRoot end.
Lemma rv_read d : rread (rv_of d) d = deref1 d.
Proof. destruct d; reflexivity. Qed.
Lemma prop_read d k i x : get_prop (deref1 d) k = Some (RV i x) -> rread (prop_loc (rv_of d) (deref1 d) k) d = RV i x.
Proof.
  pose proof (rv_read d) as Hr. remember (deref1 d) as r. destruct r as [|[] g]; try discriminate.
  destruct g as [| | | | | | |T kk ifc ET m| | | | |]; try discriminate; cbn [get_prop prop_loc].
  - destruct kk; try discriminate; (destruct m as [m|]; [|discriminate]); (destruct (sget k m) eqn:E; [|discriminate]); intro H; injection H as <- <-;
      rewrite (rread_key _ _ _ _ _ _ _ _ Hr), E; reflexivity.
  - destruct (extract _); [|discriminate]. destruct (field_name _ _); [|discriminate]. destruct (field_by_name _ _) as [[? [? ?]]|] eqn:E; [|discriminate]. 
    intro H; injection H as <- <-. rewrite (rread_fld _ _ _ _ Hr), E. reflexivity.
Qed.
Lemma prop_none d k : get_prop (deref1 d) k = Some RZero -> prop_loc (rv_of d) (deref1 d) k = LImm RZero.
Proof.
  destruct (deref1 d) as [|[] g]; try reflexivity.
  destruct g as [| | | | | | |T kk ifc ET m| | | | |]; try reflexivity; cbn [get_prop prop_loc].
  - destruct m as [m|]; [|reflexivity]. destruct kk; try discriminate; (destruct (sget k m) eqn:E; [discriminate|reflexivity]).
  - destruct (extract _); [|reflexivity]. destruct (field_name _ _); [|reflexivity]. destruct (field_by_name _ _) as [[? [? ?]]|] eqn:E; [discriminate|reflexivity]. 
Qed.
Lemma rv_write d i x y : deref1 d = RV i x -> rwrite (rv_of d) y d = match d with GPtr T a (Some (i, _)) => GPtr T a (Some (i, y)) | _ => y end.
Proof. destruct d as [| | | | | | | |T a [[j z]|]| | | |]; try reflexivity; discriminate. Qed.
Lemma prop_write d k i x y : get_prop (deref1 d) k = Some (RV i x) -> rwrite (prop_loc (rv_of d) (deref1 d) k) y d = put_prop d k y.
Proof.
  pose proof (rv_read d) as Hr. pose proof (rv_write d) as Hw. remember (deref1 d) as r eqn:Er. destruct r as [|[] g]; try discriminate.
  assert (Hput : forall z, put_target k y g = z -> rwrite (rv_of d) z d = put_prop d k y).
  { intros z <-. rewrite (Hw false g _ eq_refl). destruct d as [| | | | | | | |T a [[j z]|]| | | |]; unfold deref1, valueOf, elem in Er; try discriminate Er; injection Er as Eg; try (rewrite Eg; reflexivity); subst; reflexivity. }
  destruct g as [| | | | | | |T kk ifc ET m| | | | |]; try discriminate; cbn [get_prop prop_loc].
  - destruct kk; try discriminate; (destruct m as [m|]; [|discriminate]); (destruct (sget k m) eqn:E; [|discriminate]); intros _;
      rewrite (rwrite_key _ _ _ _ _ _ _ _ _ Hr); apply Hput; reflexivity.
  - destruct (extract _) eqn:E1; [|discriminate]. destruct (field_name _ _) eqn:E2; [|discriminate]. destruct (field_by_name _ _) as [[path [? ?]]|] eqn:E; [|discriminate]. 
    intros _. rewrite (rwrite_fld _ _ _ _ _ Hr), E. apply Hput. unfold put_target. rewrite E1, E2, E. reflexivity.
Qed.
Lemma set_place cx d p g : set_at cx (deref_loc (rv_of d) (deref1 d)) d p g = set_prop (cx_E cx) d p g.
Proof.
  assert (Hid : forall r, gmapres (fun y : gval => y) r = r) by (intros []; reflexivity).
  destruct d as [| |T []|T []|T []| | | |T a [[[] z]|]| | | |T []]; try reflexivity; try (etransitivity; [|apply Hid]; reflexivity).
  - destruct z as [| |? []|? []|? []| | | | | | | |? []]; reflexivity.
  - destruct z as [| |? []|? []|? []| | | |T2 a2 [[[] z]|]| | | |? []]; reflexivity.
Qed.
Definition no_pointer (d : gval) : bool := match d with GPtr _ _ _ => false | _ => true end.
Lemma set_path_struct path y T fs : path <> [] -> no_pointer (set_path path y (GStruct T fs)) = true.
Proof. destruct path; [contradiction|reflexivity]. Qed.
Lemma rv_same d d' : no_pointer d = true -> no_pointer d' = true -> rv_of d' = rv_of d.
Proof. destruct d, d'; try discriminate; reflexivity. Qed.
Lemma put_rv d k y : rv_of (put_prop d k y) = rv_of d.
Proof.
  destruct d as [| | | | | | |T kk ifc ET [m|]|T a [[[] z]|]|T fs| | |]; try reflexivity.
  unfold put_prop, put_target. destruct (extract _); [|reflexivity]. destruct (field_name _ _); [|reflexivity].
  destruct (field_by_name _ _) as [[path [fi x]]|] eqn:E; [|reflexivity]. apply field_by_name_path in E.
  apply rv_same; [reflexivity|]. apply set_path_struct. tauto.
Qed.
Lemma set_target_rv E addr d k g d' : no_pointer d = true -> set_target E addr d k g = GOk d' -> no_pointer d' = true.
Proof.
  intros Hd H. destruct d as [| |T []|T []|T []| | |T kk ifc ET m| |T fs| | |T []]; try discriminate.
  - destruct (is_gnil g) eqn:Hg.
    + destruct g; try discriminate Hg. destruct kk; try discriminate; injection H as <-; reflexivity.
    + rewrite set_map in H by (intro X; subst; discriminate Hg). destruct kk; try discriminate; (destruct (ifc || _); [|discriminate]); (destruct m; [|discriminate]); injection H as <-; reflexivity.
  - rewrite set_struct in H by reflexivity. destruct (extract _); [|discriminate]. destruct (field_name _ _); [|discriminate].
    destruct (field_by_name _ _) as [[path [fi x]]|] eqn:F; [|discriminate]. apply field_by_name_path in F as (_ & _ & F).
    assert (Hs : forall y, no_pointer (set_path path y (GStruct T fs)) = true) by (intro y; apply set_path_struct; exact F).
    unfold set_field in H. destruct (is_gnil g) eqn:Hg; [destruct g; discriminate|].
    set (dv := coerce g (f_iface fi) x) in *.
    assert (H2 : (if is_maybe (RV (f_iface fi) x) then
          match x with
          | GMaybe m =>
              if addr then match m_set (e_time E) m dv with inl m' => GOk (set_path path (GMaybe m') (GStruct T fs)) | inr e => GErr e end
              else GPanic "reflect: Set using unaddressable value"
          | GPtr T' a (Some (i, GMaybe m)) =>
              match m_set (e_time E) m dv with inl m' => GOk (set_path path (GPtr T' a (Some (i, GMaybe m'))) (GStruct T fs)) | inr e => GErr e end
          | _ => GPanic "nil Maybe"
          end
        else if negb addr then GPanic "reflect: Set using unaddressable value"
        else if f_iface fi || String.eqb (typ dv) (typ x) then GOk (set_path path dv (GStruct T fs)) else GPanic "reflect: Set: value not assignable") = GOk d')
      by (destruct g; try discriminate; exact H).
    clear H. destruct (is_maybe _).
    + destruct x as [| | | | | | | |? ? [[? []]|]| | | |]; try discriminate H2; [destruct (m_set _ _ _); [|discriminate]; injection H2 as <-; apply Hs|].
      destruct addr; [|discriminate]. destruct (m_set _ _ _); [|discriminate]; injection H2 as <-; apply Hs.
    + destruct addr; [|discriminate]. cbn [negb] in H2. destruct (_ || _); [|discriminate]. injection H2 as <-. apply Hs.
Qed.
Lemma set_rv E d k g d' : set_prop E d k g = GOk d' -> rv_of d' = rv_of d.
Proof.
  destruct (no_pointer d) eqn:Hp.
  - intro H. assert (H' : set_target E false d k g = GOk d') by (destruct d; try discriminate; exact H).
    apply rv_same; [exact Hp|]. exact (set_target_rv _ _ _ _ _ _ Hp H').
  - destruct d as [| | | | | | | |T a [[[] z]|]| | | |]; try discriminate; unfold set_prop; intro H.
    + assert (H' : exists y, d' = GPtr T a (Some (true, y))); [|destruct H' as [y ->]; reflexivity].
      destruct z; try discriminate H; destruct (set_target _ _ _ _ _); try discriminate H; injection H as <-; eexists; reflexivity.
    + assert (H' : exists y, d' = GPtr T a (Some (false, y))); [|destruct H' as [y ->]; reflexivity].
      destruct z as [| | | | | | | |T2 a2 [[[] z]|]| | | |]; try discriminate H; destruct (set_target _ _ _ _ _); try discriminate H; injection H as <-; eexists; reflexivity.
Qed.

(** ** Maps as sets of names *)
Definition slt_by {A} (key : A -> string) (a b : A) : Prop := slt (key a) (key b).
Section Sorting.
  Context {A : Type}.
  Variables (key : A -> string) (f : A -> val * val).
  Hypothesis Hf : forall a, fst (f a) = VStr (key a).
  Fixpoint ins (a : A) (l : list A) : list A :=
    match l with [] => [a] | b :: r => match String.compare (key a) (key b) with Gt => b :: ins a r | _ => a :: l end end.
  Definition isort (l : list A) : list A := fold_right ins [] l.
  Lemma ins_map a l : insert_key (f a) (map f l) = map f (ins a l).
  Proof. induction l as [|b l IH]; [reflexivity|]. cbn [map insert_key ins]. rewrite !Hf, IH. destruct (String.compare _ _); reflexivity. Qed.
  Lemma isort_map l : by_key (map f l) = map f (isort l).
  Proof. induction l as [|a l IH]; [reflexivity|]. cbn [map isort fold_right]. unfold by_key in *. cbn [fold_right]. rewrite IH. apply ins_map. Qed.
  Lemma ins_perm a l : Permutation (a :: l) (ins a l).
  Proof.
    induction l as [|b l IH]; [apply Permutation_refl|]. cbn [ins]. destruct (String.compare _ _); try apply Permutation_refl.
    eapply Permutation_trans; [apply perm_swap|]. constructor. exact IH.
  Qed.
  Lemma isort_perm l : Permutation l (isort l).
  Proof. induction l as [|a l IH]; [constructor|]. cbn [isort fold_right]. eapply Permutation_trans; [constructor; exact IH|]. apply ins_perm. Qed.
  Lemma ins_sorted a l : ~ In (key a) (map key l) -> StronglySorted (slt_by key) l -> StronglySorted (slt_by key) (ins a l).
  Proof.
    intros Hn H. induction H as [|b l H IH Hb]; [constructor; constructor|]. cbn [ins].
    destruct (String.compare (key a) (key b)) eqn:E.
    - exfalso. apply Hn. left. symmetry. now apply String.compare_eq_iff.
    - constructor; [constructor; assumption|]. constructor; [exact E|]. rewrite Forall_forall in Hb |- *. intros x Hx. eapply slt_trans; [exact E|exact (Hb x Hx)].
    - constructor.
      + apply IH. intro X. apply Hn. right. exact X.
      + rewrite Forall_forall in Hb |- *. intros x Hx. apply (Permutation_in _ (Permutation_sym (ins_perm a l))) in Hx. destruct Hx as [<-|Hx]; [|exact (Hb x Hx)].
        unfold slt_by, slt. rewrite String.compare_antisym, E. reflexivity.
  Qed.
  Lemma isort_sorted l : NoDup (map key l) -> StronglySorted (slt_by key) (isort l).
  Proof.
    induction l as [|a l IH]; intro H; [constructor|]. cbn [isort fold_right]. inversion H as [|? ? H1 H2]; subst. apply ins_sorted; [|apply IH; exact H2].
    intro X. apply H1. eapply Permutation_in; [|exact X]. apply Permutation_map, Permutation_sym, isort_perm.
  Qed.
  Lemma sorted_keys l : StronglySorted (slt_by key) l -> NoDup (map key l).
  Proof.
    induction 1 as [|a l H IH Ha]; [constructor|]. cbn [map]. constructor; [|exact IH]. intro X. apply in_map_iff in X as (b & E & X).
    rewrite Forall_forall in Ha. specialize (Ha b X). unfold slt_by in Ha. rewrite E in Ha. exact (slt_irrefl _ Ha).
  Qed.
  Lemma sorted_unique l l' : Permutation l l' -> StronglySorted (slt_by key) l -> StronglySorted (slt_by key) l' -> l = l'.
  Proof.
    intros HP H1. revert l' HP. induction H1 as [|a l H1 IH Ha]; intros l' HP H2.
    - apply Permutation_nil in HP. congruence.
    - destruct H2 as [|b l' H2 Hb]; [apply Permutation_sym, Permutation_nil in HP; congruence|].
      assert (X : In a (b :: l')) by (eapply Permutation_in; [exact HP|left; reflexivity]).
      assert (Y : In b (a :: l)) by (eapply Permutation_in; [apply Permutation_sym; exact HP|left; reflexivity]).
      rewrite Forall_forall in Ha, Hb.
      assert (a = b) as <-.
      { destruct X as [X|X]; [congruence|]. destruct Y as [Y|Y]; [congruence|]. exfalso. exact (slt_irrefl _ (slt_trans _ _ _ (Ha _ Y) (Hb _ X))). }
      f_equal. apply IH; [exact (Permutation_cons_inv HP)|exact H2].
  Qed.
  Lemma by_key_sorted l l' : Permutation l l' -> StronglySorted (slt_by key) l' -> by_key (map f l) = map f l'.
  Proof.
    intros HP HS. rewrite isort_map. f_equal. apply sorted_unique; [|apply isort_sorted|exact HS].
    - eapply Permutation_trans; [apply Permutation_sym, isort_perm|exact HP].
    - apply (Permutation_NoDup (Permutation_map key (Permutation_sym HP))). apply sorted_keys. exact HS.
  Qed.
End Sorting.

(** map[string]struct{} *)
Definition name_set (l : list string) : list (val * val) := map (fun k => (VStr k, VUnit)) l.
Lemma name_get k l : m_get (VStr k) (name_set l) = if mem k l then Some VUnit else None.
Proof. induction l as [|x l IH]; [reflexivity|]. cbn [name_set map m_get key_eqb mem existsb]. destruct (String.eqb k x); [reflexivity|exact IH]. Qed.
Lemma name_del k l : m_del (VStr k) (name_set l) = name_set (remove_s k l).
Proof.
  unfold remove_s. induction l as [|x l IH]; [reflexivity|]. cbn [name_set map m_del key_eqb filter].
  destruct (String.eqb k x); cbn [negb]; [exact IH|]. cbn [map]. f_equal. exact IH.
Qed.
Lemma name_put k l : ~ In k l -> m_put (VStr k) VUnit (name_set l) = name_set (l ++ [k]).
Proof.
  induction l as [|x l IH]; intro H; [reflexivity|]. cbn [name_set map m_put key_eqb app]. destruct (String.eqb_spec k x) as [->|N]; [exfalso; apply H; left; reflexivity|].
  f_equal. apply IH. intro X. apply H. right. exact X.
Qed.
(** the map holds exactly these names *)
Definition holds_names (m : list (val * val)) (l : list string) : Prop := exists ns, m = name_set ns /\ Permutation ns l.
Lemma remove_perm k a b : Permutation a b -> Permutation (remove_s k a) (remove_s k b).
Proof.
  unfold remove_s. induction 1 as [|x a b H IH|x y a|a b c H1 IH1 H2 IH2]; [constructor| | |eapply Permutation_trans; eassumption]; cbn [filter].
  - destruct (negb (k =? x)%string); [constructor|]; exact IH.
  - destruct (negb (k =? x)%string), (negb (k =? y)%string); try apply perm_swap; apply Permutation_refl.
Qed.
Lemma holds_del m l k : holds_names m l -> holds_names (m_del (VStr k) m) (remove_s k l).
Proof. intros (ns & -> & H). exists (remove_s k ns). split; [apply name_del|]. apply remove_perm. exact H. Qed.
Lemma mem_perm k a b : Permutation a b -> mem k a = mem k b.
Proof.
  intro H. destruct (mem k a) eqn:E, (mem k b) eqn:E2; try reflexivity; exfalso.
  - apply mem_In in E. apply (Permutation_in _ H) in E. apply mem_In in E. congruence.
  - apply mem_In in E2. apply (Permutation_in _ (Permutation_sym H)) in E2. apply mem_In in E2. congruence.
Qed.
Lemma holds_get m l k : holds_names m l -> m_get (VStr k) m = if mem k l then Some VUnit else None.
Proof. intros (ns & -> & H). rewrite name_get, (mem_perm _ _ _ H). reflexivity. Qed.
Lemma holds_sorted m l : holds_names m l -> StronglySorted slt l -> by_key m = name_set l.
Proof. intros (ns & -> & H) HS. exact (by_key_sorted (fun k => k) (fun k => (VStr k, VUnit)) (fun _ => eq_refl) ns l H HS). Qed.
Lemma holds_length m l : holds_names m l -> List.length m = List.length l.
Proof. intros (ns & -> & H). unfold name_set. rewrite map_length. apply Permutation_length. exact H. Qed.
Lemma remove_sorted k l : StronglySorted slt l -> StronglySorted slt (remove_s k l).
Proof.
  unfold remove_s. induction 1 as [|x l H IH Hx]; [constructor|]. cbn [filter]. destruct (negb (k =? x)%string); [|exact IH]. constructor; [exact IH|].
  rewrite Forall_forall in *. intros y Hy. apply filter_In in Hy as [Hy _]. exact (Hx y Hy).
Qed.
Lemma sorted_nodup l : StronglySorted slt l -> NoDup l.
Proof. intro H. rewrite <- (map_id l). exact (sorted_keys (fun k : string => k) l H). Qed.
