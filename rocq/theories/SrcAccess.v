(** Running the source of the functions through which objects are read: structinfo.go
    FieldName and PropNames, object.go IsPropRequired, GetPropDependencies,
    GetSchemaDependency, getPropNames, getProp. *)
From Verif Require Import Base GoFloat GoValue Maybe Formats Constraint StructInfo Validate SrcSyntax SrcText SrcExec SrcProg SrcStep.
Open Scope string_scope.
Open Scope list_scope.
Open Scope Z_scope.

Lemma m_get_entries {A} (f : A -> val) k m : m_get (VStr k) (entries f m) = option_map f (sget k m).
Proof.
  induction m as [|[k' x] m IH]; [reflexivity|]. cbn [entries map fst snd m_get key_eqb sget]. fold (entries f m).
  destruct (String.eqb k k'); [reflexivity|exact IH].
Qed.

Lemma take_map {A B} (f : A -> B) : forall i x l, take_nth i (f x) (map f l) = let (y, r) := take_nth i x l in (f y, map f r).
Proof.
  induction i as [|i IH]; intros x l; [reflexivity|]. destruct l as [|y l]; [reflexivity|]. cbn [map take_nth]. rewrite IH. now destruct (take_nth i y l).
Qed.
Lemma shuffle_map_ {A B} (f : A -> B) l w : shuffle w (map f l) = let (p, w') := shuffle w l in (map f p, w').
Proof.
  unfold shuffle. rewrite map_length. generalize (List.length l) as n. intros n. revert w l. induction n as [|n IH]; intros w l; [destruct l; reflexivity|].
  destruct l as [|x l]; [reflexivity|]. cbn [map shuffle_n]. destruct (next w) as [k w1]. rewrite take_map. destruct (take_nth k x l) as [y r].
  rewrite IH. destruct (shuffle_n n w1 r) as [p w2]. reflexivity.
Qed.
(** a loop over a map *)
Lemma range_aux cx call f line k v def x body m e d w u l u' :
  aux (cx_site cx f line) = true -> shuffle u (arrange (cx_site cx f line) m) = (l, u') ->
  range_value cx call f line k v def x body (VMap m) {| env_ := e; doc := d; ord_w := w; ord_u := u |} =
  rounds (run_list (exec cx call f) body) x def k v l {| env_ := e; doc := d; ord_w := w; ord_u := u' |}.
Proof. intros H1 H2. unfold range_value, items. rewrite H1. cbn [ord_u]. rewrite H2. reflexivity. Qed.
Lemma range_main cx call f line k v def x body m e d w u l w' :
  aux (cx_site cx f line) = false -> shuffle w (arrange (cx_site cx f line) m) = (l, w') ->
  range_value cx call f line k v def x body (VMap m) {| env_ := e; doc := d; ord_w := w; ord_u := u |} =
  rounds (run_list (exec cx call f) body) x def k v l {| env_ := e; doc := d; ord_w := w'; ord_u := u |}.
Proof. intros H1 H2. unfold range_value, items. rewrite H1. cbn [ord_w]. rewrite H2. reflexivity. Qed.

(** The order in which the loops over maps run: the choices come from the stream [ord_w],
    and are applied to the keys in order (the properties of the constraint, the names of
    the document), to the patterns as listed, and to the names seen in reverse; loops whose
    order makes no difference use the other stream. *)
Fixpoint insert_key (p : val * val) (l : list (val * val)) : list (val * val) :=
  match l with
  | [] => [p]
  | q :: r =>
      match fst p, fst q with
      | VStr a, VStr b => match String.compare a b with Gt => q :: insert_key p r | _ => p :: l end
      | _, _ => p :: l
      end
  end.
Definition by_key (l : list (val * val)) : list (val * val) := fold_right insert_key [] l.
Definition site_of (line : Z) : site :=
  if (line =? 373) || (line =? 441) || (line =? 469) then {| aux := false; arrange := by_key |}
  else if line =? 437 then {| aux := false; arrange := fun l => l |}
  else if line =? 477 then {| aux := false; arrange := @rev _ |}
  else {| aux := true; arrange := fun l => l |}.
Definition orders (f : string) (line : Z) : site :=
  if String.eqb f "ObjectConstraint.Validate" then site_of line else {| aux := true; arrange := fun l => l |}.

Lemma sorted_perm_eq (l l' : list string) : Permutation l l' -> StronglySorted slt l -> StronglySorted slt l' -> l = l'.
Proof.
  intros HP H1. revert l' HP. induction H1 as [|a l H1 IH Ha]; intros l' HP H2.
  - apply Permutation_nil in HP. congruence.
  - destruct H2 as [|b l' H2 Hb]; [apply Permutation_sym, Permutation_nil in HP; congruence|].
    assert (a = b) as <-.
    { destruct (String.eqb_spec a b) as [|N]; [assumption|exfalso].
      assert (Ia : In a l') by (assert (X : In a (b :: l')) by (eapply Permutation_in; [exact HP|left; reflexivity]); destruct X; [congruence|assumption]).
      assert (Ib : In b l) by (assert (X : In b (a :: l)) by (eapply Permutation_in; [apply Permutation_sym; exact HP|left; reflexivity]); destruct X; [congruence|assumption]).
      rewrite Forall_forall in Ha, Hb. exact (slt_irrefl a (slt_trans _ _ _ (Ha _ Ib) (Hb _ Ia))). }
    f_equal. apply IH; [exact (Permutation_cons_inv HP)|exact H2].
Qed.

Section Access.
  Variable cx : ctx.

  Lemma required_call k o p s :
    call_in funcs cx (S k) "ObjectConstraint.IsPropRequired" [VObj (CObj o); VStr p] s = Ok [VBool (is_required o p)] s.
  Proof.
    destruct s as [e d w u], o as [oadd opats oprops opdeps oreq omin omax osdeps]. open_call. steps. rewrite m_get_entries. unfold is_required.
    cbn [o_req]; destruct (sget _ _); cbn [option_map]; steps; reflexivity.
  Qed.
  Lemma propdeps_call k o p s :
    call_in funcs cx (S k) "ObjectConstraint.GetPropDependencies" [VObj (CObj o); VStr p] s =
    Ok [match sget p (o_propdeps o) with Some l => VList (values VStr l) | None => VNil end] s.
  Proof.
    destruct s as [e d w u], o as [oadd opats oprops opdeps oreq omin omax osdeps]. open_call. steps. rewrite m_get_entries.
    cbn [o_propdeps]; destruct (sget _ _); cbn [option_map]; steps; reflexivity.
  Qed.
  Lemma schemadep_call k o p s :
    call_in funcs cx (S k) "ObjectConstraint.GetSchemaDependency" [VObj (CObj o); VStr p] s =
    Ok [match sget p (o_sdeps o) with Some c => VConstr c | None => VNil end] s.
  Proof.
    destruct s as [e d w u], o as [oadd opats oprops opdeps oreq omin omax osdeps]. open_call. steps. rewrite m_get_entries.
    cbn [o_sdeps]; destruct (sget _ _); cbn [option_map]; steps; reflexivity.
  Qed.
  Lemma field_name_call k props p s :
    call_in funcs cx (S k) "StructInfo.FieldName" [VSI props; VStr p] s =
    Ok (match field_name props p with Some f => [VStr f; VBool true] | None => [VStr ""; VBool false] end) s.
  Proof.
    destruct s as [e d w u]. open_call. steps. rewrite m_get_entries. unfold field_name.
    destruct (sget p props); cbn [option_map]; steps; reflexivity.
  Qed.

  (** object.go:291-321 *)
  Definition prop_loc (l : loc) (r : rval) (p : string) : loc :=
    match r with
    | RV false (GMap _ _ _ _ (Some m)) => match sget p m with Some _ => LKey l p | None => LImm RZero end
    | RV false (GStruct _ _ as x) | RV false (GMaybe _ as x) | RV false (GTime _ as x) =>
        match extract x with
        | None => LImm RZero
        | Some props =>
            match field_name props p with
            | None => LImm RZero
            | Some f => match field_by_name x f with Some _ => LFld l f | None => LImm RZero end
            end
        end
    | _ => LImm RZero
    end.
  Definition or_panic {A} (x : ev A) (o : option A) (s : st) : Prop :=
    match o with Some a => x = Ok a s | None => exists m, x = Ab (Panic m) s end.

  Lemma get_prop_call k o l p e d w u r : rread l d = r ->
    or_panic (call_in funcs cx (S (S k)) "ObjectConstraint.getProp" [VObj (CObj o); VRv l; VStr p] {| env_ := e; doc := d; ord_w := w; ord_u := u |})
      (option_map (fun _ => [VRv (prop_loc l r p)]) (get_prop r p)) {| env_ := e; doc := d; ord_w := w; ord_u := u |}.
  Proof.
    intro Hr. open_call.
    destruct (same_str (kind r) "map") eqn:Hm.
    { destruct r as [|[] [| |T []|T []|T []| | |T kk ifc ET m| | | | |T []]]; try discriminate Hm. steps.
      cbn [get_prop]. destruct kk; try (steps; eexists; reflexivity); (destruct m as [m|]; [|steps; reflexivity]);
        cbn [prop_loc]; destruct (sget p m); steps; reflexivity. }
    destruct (same_str (kind r) "struct") eqn:Hs.
    2: { steps. destruct r as [|[] [| |T []|T []|T []| | |T kk ifc ET m| | | | |T []]]; try discriminate Hm; try discriminate Hs; reflexivity. }
    assert (exists g, r = RV false g) as (g & Eg) by (destruct r as [|[] g]; try discriminate Hs; exists g; reflexivity). rewrite Eg in *.
    replace (get_prop (RV false g) p) with (match extract g with None => None | Some props => Some (match field_name props p with None => RZero | Some f =>
      match field_by_name g f with None => RZero | Some (_, (fi, x)) => RV (f_iface fi) x end end) end)
      by (destruct g as [| |T []|T []|T []| | |T kk ifc ET m| | | | |T []]; try discriminate Hs; cbn [get_prop];
          destruct (extract _) as [props|]; try reflexivity; destruct (field_name props p) as [f|]; try reflexivity; destruct (field_by_name _ f) as [(? & ? & ?)|]; reflexivity).
    replace (prop_loc l (RV false g) p) with (match extract g with None => LImm RZero | Some props => match field_name props p with None => LImm RZero | Some f =>
      match field_by_name g f with None => LImm RZero | Some _ => LFld l f end end end)
      by (destruct g as [| |T []|T []|T []| | |T kk ifc ET m| | | | |T []]; try discriminate Hs; reflexivity).
    steps. destruct (extract g) as [props|] eqn:Hx.
    2: { steps. rewrite Hx. steps. eexists. reflexivity. }
    destruct (cx_hit cx (typ g)); steps; rewrite ?Hx; steps; rewrite field_name_call; destruct (field_name props p) as [f|]; steps; try reflexivity;
      (destruct (field_by_name g f) as [[path [fi x]]|]; steps; reflexivity).
  Qed.

  (** structinfo.go:41-59 *)
  Lemma prop_names_cons k p props g :
    prop_names ((k, p) :: props) g =
    match prop_names props g with
    | None => None
    | Some l =>
        if p_maybe p then
          match field_by_name g (p_field p) with
          | Some (_, (fi, x)) => match maybe_of (RV (f_iface fi) x) with Some m => if m_valid m then Some (k :: l) else Some l | None => None end
          | None => None
          end
        else Some (k :: l)
    end.
  Proof. reflexivity. Qed.
  Definition same_names (a b : option (list string)) : Prop :=
    match a, b with
    | Some a, Some b => Permutation a b
    | None, None => True
    | _, _ => False
    end.
  Lemma prop_names_perm props ps g : Permutation props ps -> same_names (prop_names props g) (prop_names ps g).
  Proof.
    unfold same_names. induction 1 as [|[k p] l l' H IH|[k p] [k' p'] l|l l' l'' H1 IH1 H2 IH2].
    - constructor.
    - rewrite !prop_names_cons. destruct (prop_names l g), (prop_names l' g); try contradiction IH; try exact I.
      destruct (p_maybe p); [|constructor; exact IH]. destruct (field_by_name _ _) as [[? [? ?]]|]; [|exact I].
      destruct (maybe_of _) as [m|]; [|exact I]. destruct (m_valid m); [constructor|]; exact IH.
    - rewrite !prop_names_cons. destruct (prop_names l g); [|exact I].
      destruct (p_maybe p'), (p_maybe p);
        repeat match goal with
          | |- context [match field_by_name ?a ?b with _ => _ end] => destruct (field_by_name a b) as [[? [? ?]]|]
          | |- context [match maybe_of ?a with _ => _ end] => destruct (maybe_of a)
          | |- context [if m_valid ?a then _ else _] => destruct (m_valid a)
          end; try exact I; try apply perm_swap; apply Permutation_refl.
    - destruct (prop_names l g), (prop_names l' g), (prop_names l'' g); try contradiction; try exact I.
      eapply Permutation_trans; eassumption.
  Qed.

  Hypothesis Hsite : cx_site cx = orders.
  Definition named (o : option (list string)) (m : string) (s : st) : ev (list val) :=
    match o with Some ns => Ok [VList (map VStr ns)] s | None => Ab (Panic m) s end.
  Lemma prop_names_call k props l e d w u g : rread l d = RV false g -> same_str (kind (RV false g)) "struct" = true ->
    exists u' ns m,
      call_in funcs cx (S k) "StructInfo.PropNames" [VSI props; VRv l] {| env_ := e; doc := d; ord_w := w; ord_u := u |}
      = named ns m {| env_ := e; doc := d; ord_w := w; ord_u := u' |} /\
      same_names (prop_names props g) ns.
  Proof.
    intros Hr Hk. open_call. steps. 
    destruct (shuffle u props) as [ps u'] eqn:Hsh. exists u', (prop_names ps g).
    erewrite range_aux; [|rewrite Hsite; reflexivity|rewrite Hsite; cbn [orders site_of arrange String.eqb Ascii.eqb Bool.eqb]; unfold entries; rewrite shuffle_map_, Hsh; reflexivity].
    match goal with |- exists m, ?G = _ /\ _ => match G with context CT [rounds ?B ?C ?df ?kk ?vv _ {| env_ := [[_; ?b; ?c]]; doc := _; ord_w := _; ord_u := _ |}] =>
      enough (H : forall ps acc vl, vl = map VStr acc -> exists m, ltac:(let g := context CT [rounds B C df kk vv (entries VProp ps) {| env_ := [[("pnames", VList vl); b; c]]; doc := d; ord_w := w; ord_u := u' |}] in exact g)
        = named (option_map (app acc) (prop_names ps g)) m {| env_ := e; doc := d; ord_w := w; ord_u := u' |})
    end end.
    { destruct (H ps [] [] eq_refl) as [m Hm]. exists m. split; [|exact (prop_names_perm _ _ g (shuffle_perm _ _ _ _ Hsh))].
      replace (option_map (app []) (prop_names ps g)) with (prop_names ps g) in Hm by (destruct (prop_names ps g); reflexivity). exact Hm. }
    clear ps Hsh. induction ps as [|[pn pi] ps IH]; intros acc vl Hvl.
    - exists "". cbn [entries map rounds]. steps. rewrite Hvl. cbn. rewrite app_nil_r. reflexivity.
    - assert (Hadd : forall nl, (exists m, nl = named (option_map (app (acc ++ [pn])) (prop_names ps g)) m {| env_ := e; doc := d; ord_w := w; ord_u := u' |}) ->
        exists m, nl = named (option_map (app acc) (match prop_names ps g with Some l => Some (pn :: l) | None => None end)) m {| env_ := e; doc := d; ord_w := w; ord_u := u' |}).
      { intros nl [m Hm]. exists m. rewrite Hm. destruct (prop_names ps g); [|reflexivity]. cbn [option_map named]. rewrite <- app_assoc. reflexivity. }
      assert (Hnl : vl ++ [VStr pn] = map VStr (acc ++ [pn])) by (rewrite map_app, Hvl; reflexivity).
      rewrite prop_names_cons. cbn [entries map fst snd]. fold (entries VProp ps). round1. destruct pi as [pf pm]. cbn [p_maybe p_field].
      destruct pm; steps.
      2: { apply Hadd. apply (IH (acc ++ [pn]) _ Hnl). }
      destruct (field_by_name g pf) as [[path [fi x]]|] eqn:Hf.
      2: { steps. destruct (prop_names ps g); eexists; reflexivity. }
      assert (Hr2 : rread (LFld l pf) d = RV (f_iface fi) x) by (rewrite (rread_fld _ _ _ _ Hr), Hf; reflexivity).
      remember (f_iface fi) as ib eqn:Eib. clear Eib.
      steps. destruct (is_maybe (RV ib x)) eqn:Hmb; steps.
      2: { assert (Hno : maybe_of (RV ib x) = None).
           { destruct ib, x as [| |T []|T []|T []| | |T kk ifc ET m| | | | |T []]; try reflexivity; cbn in *; try discriminate. match goal with |- match ?p with _ => _ end = _ => destruct p as [[[] []]|]; try reflexivity end.
             rewrite Hmb. reflexivity. }
           rewrite Hno. destruct (prop_names ps g); eexists; reflexivity. }
      destruct (maybe_of (RV ib x)) as [m|] eqn:Hmo; steps.
      2: { destruct (prop_names ps g); eexists; reflexivity. }
      destruct (m_valid m); steps.
      + apply Hadd. apply (IH (acc ++ [pn]) _ Hnl).
      + destruct (IH acc vl Hvl) as [m' Hm']. exists m'. etransitivity; [exact Hm'|]. destruct (prop_names ps g); reflexivity.
  Qed.
End Access.
