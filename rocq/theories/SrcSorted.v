(** Documents whose maps are in canonical form (a representation invariant: every Go map
    has it) stay so while they are validated. *)
From Verif Require Import Base GoFloat GoValue Maybe Formats Constraint StructInfo Validate Reach ReadOnly Frame Preserve.
Open Scope string_scope.
Open Scope list_scope.
Open Scope Z_scope.

Definition leaf (v : gval) : bool :=
  match v with
  | GSlice _ _ (Some _) | GMap _ _ _ _ (Some _) | GPtr _ _ (Some _) | GStruct _ _ => false
  | _ => true
  end.
Inductive in_order : gval -> Prop :=
| io_leaf v : leaf v = true -> in_order v
| io_slice T i l : (forall x, In x l -> in_order x) -> in_order (GSlice T i (Some l))
| io_map T kk i ET m : ssorted m -> (forall k x, In (k, x) m -> in_order x) -> in_order (GMap T kk i ET (Some m))
| io_ptr T a i x : in_order x -> in_order (GPtr T a (Some (i, x)))
| io_struct T fs : (forall e, In e fs -> in_order (snd e)) -> in_order (GStruct T fs).
(** a sufficient test *)
Fixpoint order_test (v : gval) : bool :=
  match v with
  | GSlice _ _ (Some l) => forallb order_test l
  | GMap _ _ _ _ (Some m) =>
      (fix go (m : list (string * gval)) := match m with [] => true | e :: r => order_test (snd e) && forallb (fun f => match String.compare (fst e) (fst f) with Lt => true | _ => false end) r && go r end) m
  | GPtr _ _ (Some (_, x)) => order_test x
  | GStruct _ fs => forallb (fun e => order_test (snd e)) fs
  | _ => true
  end.
Lemma order_test_sound v : order_test v = true -> in_order v.
Proof.
  induction v using gval_ind'; cbn [order_test]; intro Ht; try (apply io_leaf; reflexivity).
  - apply io_slice. intros x Hx. rewrite forallb_forall in Ht. rewrite Forall_forall in H. exact (H x Hx (Ht x Hx)).
  - assert (ssorted m /\ forall k x, In (k, x) m -> in_order x) as [H1 H2]; [|apply io_map; assumption].
    induction m as [|[k0 x0] m IH]; [split; [constructor|intros ? ? []]|].
    inversion H as [|? ? Hx Hm]; subst. apply andb_prop in Ht as [Ht Hr]. apply andb_prop in Ht as [Ht Hl].
    destruct (IH Hm Hr) as [Is Ii]. split.
    + constructor; [exact Is|]. apply Forall_forall. intros y Hy. apply in_map_iff in Hy as (f & <- & Hf).
      rewrite forallb_forall in Hl. specialize (Hl f Hf). unfold slt. cbn [fst] in *. destruct (String.compare k0 (fst f)); [discriminate|reflexivity|discriminate].
    + intros k' x' [E|Hin]; [injection E as <- <-; exact (Hx Ht)|exact (Ii _ _ Hin)].
  - apply io_ptr. exact (IHv Ht).
  - apply io_struct. intros e He. rewrite forallb_forall in Ht. rewrite Forall_forall in H. exact (H e He (Ht e He)).
Qed.

Lemma io_get_path path : forall v x, in_order v -> get_path path v = Some x -> in_order x.
Proof.
  induction path as [|i p IH]; intros v x N G; cbn in *; [congruence|].
  destruct v; try discriminate. destruct (nth_error fs i) as [[fi y]|] eqn:NE; [|discriminate].
  apply (IH y x); auto. inversion N as [? H| | | |? ? H]; subst; [discriminate H|].
  apply (H (fi, y)). eapply nth_error_In; eauto.
Qed.
Lemma io_set_path path : forall v x x', in_order v -> get_path path v = Some x -> in_order x' -> in_order (set_path path x' v).
Proof.
  induction path as [|i p IH]; intros v x x' N G N'; cbn in *; [auto|].
  destruct v; try discriminate. destruct (nth_error fs i) as [[fi y]|] eqn:NE; [|discriminate].
  inversion N as [? H| | | |? ? H]; subst; [discriminate H|].
  apply io_struct. intros e He. apply in_set_nth_field in He. destruct He as [He|(z & Hz & ->)]; [auto|].
  rewrite NE in Hz. injection Hz as -> <-. eapply IH; eauto.
  apply (H (fst e, y)). eapply nth_error_In; eauto.
Qed.
Lemma io_prop1 v k i x : in_order v -> get_prop (RV false v) k = Some (RV i x) -> in_order x.
Proof.
  intros N. destruct v; cbn [get_prop]; try discriminate.
  - destruct kk; try discriminate; destruct m as [m|]; try discriminate;
    destruct (sget k m) eqn:S; try discriminate; intros [= -> ->];
    (inversion N as [? H| |? ? ? ? ? Hm Hq| |]; subst; [discriminate H|]); apply sget_in in S; eauto.
  - destruct (extract (GStruct T fs)) as [props|] eqn:X; try discriminate.
    destruct (field_name props k) as [fn|] eqn:F; try discriminate.
    destruct (field_by_name (GStruct T fs) fn) as [[path [fi y]]|] eqn:B; try discriminate.
    intros [= <- ->]. apply field_by_name_path in B. eapply io_get_path; [eauto|]. apply B.
Qed.
Lemma io_put1 v k i x x' : in_order v -> get_prop (RV false v) k = Some (RV i x) -> in_order x' -> in_order (put_target k x' v).
Proof.
  intros N. destruct v; cbn [get_prop put_target]; try discriminate; auto.
  - destruct m as [m|]; auto. intros G H. inversion N as [? Hl| |? ? ? ? ? Hm Hq| |]; subst; [discriminate Hl|].
    apply io_map; [unfold ssorted; rewrite supd_keys; exact Hm|]. intros j y Hy; apply in_supd in Hy; destruct Hy as [->|Hy]; eauto.
  - destruct (extract (GStruct T fs)) as [props|] eqn:X; try discriminate.
    destruct (field_name props k) as [fn|] eqn:F; try discriminate.
    destruct (field_by_name (GStruct T fs) fn) as [[path [fi y]]|] eqn:B; try discriminate.
    intros [= <- ->] H. apply field_by_name_path in B. eapply io_set_path; [exact N|apply B|exact H].
Qed.
Lemma deref_io v : (exists T a x, v = GPtr T a (Some (false, x)) /\ deref1 v = RV false x) \/ (is_ptr v = false /\ deref1 v = RV false v) \/
  (deref1 v = RZero) \/ exists T a x, v = GPtr T a (Some (true, x)) /\ deref1 v = RV true x.
Proof.
  destruct v as [| | | | | | | |T a [[[] x]|]| | | |]; try (right; left; split; reflexivity); try (right; right; left; reflexivity).
  - right. right. right. exists T, a, x. split; reflexivity.
  - left. exists T, a, x. split; reflexivity.
Qed.
Lemma ptr_io T a i x : in_order (GPtr T a (Some (i, x))) -> in_order x.
Proof. intro H. inversion H as [? Hl| | | |]; subst; [discriminate Hl|assumption]. Qed.
Lemma io_prop v k i x : in_order v -> get_prop (deref1 v) k = Some (RV i x) -> in_order x.
Proof.
  intros N G. destruct (deref_io v) as [(T & a & y & -> & D)|[[_ D]|[D|(T & a & y & -> & D)]]]; rewrite D in G; try discriminate G.
  - apply ptr_io in N. exact (io_prop1 _ _ _ _ N G).
  - exact (io_prop1 _ _ _ _ N G).
Qed.
Lemma io_put v k i x x' : in_order v -> get_prop (deref1 v) k = Some (RV i x) -> in_order x' -> in_order (put_prop v k x').
Proof.
  intros N G H. destruct (deref_io v) as [(T & a & y & -> & D)|[[P D]|[D|(T & a & y & -> & D)]]]; rewrite D in G; try discriminate G.
  - apply ptr_io in N. cbn [put_prop]. apply io_ptr. exact (io_put1 _ _ _ _ _ N G H).
  - replace (put_prop v k x') with (put_target k x' v) by (destruct v; try reflexivity; discriminate P). exact (io_put1 _ _ _ _ _ N G H).
Qed.
Lemma io_coerce d i f : in_order d -> in_order (coerce d i f).
Proof.
  intro H. destruct i; [exact H|]. 
  assert (Ht : forall f', in_order (to_field d f')).
  { intro f'. destruct f' as [| | | |T [] ?| | | | | | | |], d as [| | | |? [] ?| | | | | | | |]; try exact H; apply io_leaf; reflexivity. }
  destruct f; try apply Ht. destruct m; try apply Ht; destruct d; try exact H; apply io_leaf; reflexivity.
Qed.
Lemma io_set1 E addr v k d v' : in_order v -> in_order d -> set_target E addr v k d = GOk v' -> in_order v'.
Proof.
  intros N Nd. destruct v; cbn [set_target]; try discriminate.
  - destruct kk; try discriminate; destruct (is_gnil d) eqn:Hn.
    all: try (destruct d; try discriminate Hn; intros [= <-]; destruct m as [m|]; [|apply io_leaf; reflexivity];
      inversion N as [? Hl| |? ? ? ? ? Hm Hq| |]; subst; [discriminate Hl|]; apply io_map; [apply sdel_sorted; exact Hm|intros j y Hy; unfold sdel in Hy; apply filter_In in Hy as [Hy _]; eauto]).
    all: intro S; assert (S' : (if ifc || String.eqb (typ d) ET then match m with None => GPanic "assignment to entry in nil map" | Some l => GOk (GMap T _ ifc ET (Some (sset k d l))) end else GPanic "SetMapIndex: value not assignable") = GOk v') by (destruct d; try discriminate Hn; exact S);
      clear S; destruct (_ || _); [|discriminate]; destruct m as [m|]; [|discriminate]; injection S' as <-;
      inversion N as [? Hl| |? ? ? ? ? Hm Hq| |]; subst; [discriminate Hl|]; apply io_map; [apply sset_sorted; exact Hm|intros j y Hy; apply in_sset in Hy; destruct Hy as [->|Hy]; eauto].
  - destruct (extract _) as [props|]; [|discriminate]. destruct (field_name _ _) as [fn|]; [|discriminate].
    destruct (field_by_name _ _) as [[path [fi f]]|] eqn:B; [|discriminate]. apply field_by_name_path in B.
    assert (Hp : forall y, in_order y -> in_order (set_path path y (GStruct T fs))) by (intros y Hy; eapply io_set_path; [exact N|apply B|exact Hy]).
    intro S. assert (S' : (let dv := coerce d (f_iface fi) f in
                      if is_maybe (RV (f_iface fi) f) then
                        match f with
                        | GMaybe m =>
                            if addr then
                              match m_set (e_time E) m dv with
                              | inl m' => GOk (set_path path (GMaybe m') (GStruct T fs))
                              | inr e => GErr e
                              end
                            else GPanic "reflect: Set using unaddressable value"
                        | GPtr T' a (Some (i, GMaybe m)) =>
                            match m_set (e_time E) m dv with
                            | inl m' => GOk (set_path path (GPtr T' a (Some (i, GMaybe m'))) (GStruct T fs))
                            | inr e => GErr e
                            end
                        | _ => GPanic "nil Maybe"
                        end
                      else if negb addr then GPanic "reflect: Set using unaddressable value"
                      else if f_iface fi || String.eqb (typ dv) (typ f)
                      then GOk (set_path path dv (GStruct T fs))
                      else GPanic "reflect: Set: value not assignable") = GOk v') by (destruct d; try discriminate; exact S).
    clear S. cbv zeta in S'. destruct (is_maybe _).
    + destruct f as [| | | | | | | |T' a [[i [| | | | | | | | | |mm| |]]|]| |mm| |]; try discriminate S'.
      * destruct (m_set _ _ _); [|discriminate]. injection S' as <-. apply Hp. apply io_ptr. apply io_leaf. reflexivity.
      * destruct addr; [|discriminate]. destruct (m_set _ _ _); [|discriminate]. injection S' as <-. apply Hp. apply io_leaf. reflexivity.
    + destruct (negb addr); [discriminate|]. destruct (_ || _); [|discriminate]. injection S' as <-. apply Hp. apply io_coerce. exact Nd.
Qed.
Lemma io_set E v k d v' : in_order v -> in_order d -> set_prop E v k d = GOk v' -> in_order v'.
Proof.
  intros N Nd. 
  destruct v as [| | | | | | | |T a [[[] x]|]| | | |]; cbn [set_prop]; try apply (io_set1 _ _ _ _ _ _ N Nd); try discriminate.
  - apply ptr_io in N. destruct x; try discriminate;
    (destruct (set_target E false _ k d) as [y'| |] eqn:S; cbn [gmapres]; intro H; try discriminate; injection H as <-; apply io_ptr; exact (io_set1 _ _ _ _ _ _ N Nd S)).
  - apply ptr_io in N. destruct x as [| | | | | | | |T2 a2 [[[] x]|]| | | |]; try discriminate;
    try (destruct (set_target E true _ k d) as [y'| |] eqn:S; cbn [gmapres]; intro H; try discriminate; injection H as <-; apply io_ptr; try (apply ptr_io in N; apply io_ptr); exact (io_set1 _ _ _ _ _ _ N Nd S)).
Qed.
Lemma extract_sorted v : forall props, extract v = Some props -> ssorted props.
Proof.
  destruct v; cbn [extract]; try discriminate; [|intros props [= <-]; constructor].
  assert (G : forall fs acc props, ssorted acc -> extract_list extract fs acc = Some props -> ssorted props).
  { clear. induction fs as [|[fi x] fs IH]; intros acc props Ha; cbn [extract_list]; [congruence|].
    destruct (f_anon fi).
    - destruct (f_iface fi); [discriminate|]. destruct (extract x) as [info|]; [|discriminate]. apply IH.
      clear - Ha. revert acc Ha. induction info as [|e info IH]; intros acc Ha; [exact Ha|]. apply IH. apply sset_sorted. exact Ha.
    - destruct (negb _); [apply IH; exact Ha|]. destruct (String.eqb _ _); [apply IH; exact Ha|]. apply IH. apply sset_sorted. exact Ha. }
  intros props. apply G. constructor.
Qed.
Lemma prop_names_sorted props v l : ssorted props -> prop_names props v = Some l -> StronglySorted slt l /\ incl l (keys props).
Proof.
  unfold ssorted. revert l. induction props as [|[k p] props IH]; intros l Hs.
  - intros [= <-]. split; [constructor|intros x []].
  - inversion Hs as [|? ? Hs' Hk]; subst. change (prop_names ((k, p) :: props) v) with
      (match prop_names props v with None => None | Some l =>
        if p_maybe p then match field_by_name v (p_field p) with
          | Some (_, (fi, x)) => match maybe_of (RV (f_iface fi) x) with Some m => if m_valid m then Some (k :: l) else Some l | None => None end
          | None => None end else Some (k :: l) end).
    destruct (prop_names props v) as [l0|]; [|discriminate]. destruct (IH l0 Hs' eq_refl) as [I1 I2].
    assert (Hk' : forall l, Some (k :: l0) = Some l -> StronglySorted slt l /\ incl l (keys ((k, p) :: props))).
    { intros l' [= <-]. split.
      - constructor; [exact I1|]. apply Forall_forall. intros x Hx. rewrite Forall_forall in Hk. exact (Hk x (I2 x Hx)).
      - intros x [<-|Hx]; [left; reflexivity|right; exact (I2 x Hx)]. }
    assert (Hk2 : forall l, Some l0 = Some l -> StronglySorted slt l /\ incl l (keys ((k, p) :: props))).
    { intros l' [= <-]. split; [exact I1|]. intros x Hx. right. exact (I2 x Hx). }
    destruct (p_maybe p); [|apply Hk']. destruct (field_by_name _ _) as [[? [fi x]]|]; [|discriminate]. destruct (maybe_of _) as [m|]; [|discriminate]. destruct (m_valid m); [apply Hk'|apply Hk2].
Qed.
Lemma io_elem r i x : (forall j y, r = RV j y -> in_order y) -> elem r = RV i x -> in_order x.
Proof.
  intros Hr He. destruct r as [|j y]; [discriminate|]. specialize (Hr _ _ eq_refl).
  destruct j; destruct y as [| | | | | | | |T a [[j2 y]|]| | | |]; try discriminate He; injection He as <- <-; try exact Hr. exact (ptr_io _ _ _ _ Hr).
Qed.
Lemma io_names v l : in_order v -> get_names (deref1 v) = GOk l -> StronglySorted slt l.
Proof.
  intros N. unfold get_names.
  assert (Hd : forall j y, deref1 v = RV j y -> in_order y).
  { intros j y. unfold deref1. apply io_elem. intros j' y' Hv. destruct v; inversion Hv; subst; exact N. }
  destruct (elem (deref1 v)) as [|i x] eqn:He; [discriminate|]. pose proof (io_elem _ _ _ Hd He) as Nx. clear Hd He N v.
  assert (Hst : forall s, match extract s with None => GPanic "reflect: NumField of non-struct type" | Some props =>
      match prop_names props s with None => GPanic "reflect: call of Valid" | Some l => GOk l end end = GOk l -> StronglySorted slt l).
  { intros s. destruct (extract s) as [props|] eqn:X; [|discriminate]. destruct (prop_names props s) as [l'|] eqn:Pn; [|discriminate]. intros [= <-].
    exact (proj1 (prop_names_sorted _ _ _ (extract_sorted _ _ X) Pn)). }
  destruct i; [discriminate|]. destruct x; try discriminate; try (intro H; exact (Hst _ H)).
  destruct m as [m|].
  - inversion Nx as [? Hl| |? ? ? ? ? Hm Hq| |]; subst; [discriminate Hl|].
    assert (Hz : match keys m with [] => GOk [] | _ => GErr "panic: can only handle maps with string keys" end = GOk l -> StronglySorted slt l) by (destruct (keys m); [intros [= <-]; constructor|discriminate]).
    destruct kk; try exact Hz; intros [= <-]; exact Hm.
  - destruct kk; intros [= <-]; constructor.
  - exact (Hst (GTime t)).
Qed.
Lemma io_maybe m : in_order (m_value m).
Proof. destruct m; apply io_leaf; reflexivity. Qed.
Lemma io_slice_elems T i l : in_order (GSlice T i (Some l)) -> Forall in_order l.
Proof. intro H. inversion H as [? Hl| | | |]; subst; [discriminate Hl|]. apply Forall_forall. assumption. Qed.

(** constraints whose property maps are in canonical form, with defaults that are *)
Definition canonical (c : constr) : Prop :=
  match c with
  | CObj o => StronglySorted (fun a b => slt (fst a) (fst b)) (o_props o)
  | CBool (Some d) | CStr (Some d) _ | CNum (Some d) _ | CInt (Some d) _ => in_order d
  | _ => True
  end.
Lemma default_in_order E c d : Deep E canonical c -> Default E c d -> in_order d.
Proof.
  intros H D. induction D as [d|d s|d s|d s|n c d Hn D IH]; try exact (H _ (reach_refl _ _)).
  apply IH. intros x Hx. apply H. eapply reach_step; [|exact Hx]. cbn [children]. rewrite Hn. left. reflexivity.
Qed.
Theorem validate_in_order E n c v w r v' w' : Deep E canonical c -> in_order v -> validate n E c v w = (r, v', w') -> in_order v'.
Proof.
  intros Hc Hv Hr.
  refine (proj1 (validate_pres E (Deep E canonical) in_order (fun _ _ => True) _ _ _ _ _ _ _ _ n c v w r v' w' Hc Hv Hr)); auto.
  - intros c' x HP Hx y Hy. apply HP. eapply reach_step; eauto.
  - intros; eapply io_prop; eauto.
  - intros; split; [eapply io_put; eauto|auto].
  - intros o k c' d x x' pv Ho Hin D Ix G L S. split; [|auto]. eapply io_set; [exact Ix| |exact S]. apply (default_in_order E c'); [|exact D].
    intros y Hy. apply Ho. eapply reach_step; [|exact Hy]. cbn [children]. right. apply in_or_app. right. apply in_or_app. left. apply (in_map snd _ _ Hin).
  - intros T i l. apply io_slice_elems.
  - intros T i l l' _ F. split; [|auto]. apply io_slice. intros x Hx. clear - F Hx. induction F as [|a b l l' [Hb _] F IH]; [destruct Hx|]. destruct Hx as [<-|Hx]; [exact Hb|exact (IH Hx)].
Qed.
