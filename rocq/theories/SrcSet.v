(** Running the source of coerceValue and setProp (object.go:208-288). *)
From Verif Require Import Base GoFloat GoValue Maybe Formats Constraint StructInfo Validate SrcSyntax SrcText SrcExec SrcProg SrcStep SrcAccess.
Open Scope string_scope.
Open Scope list_scope.
Open Scope Z_scope.

(** an int64 is not changed by the conversion to its own type *)
Lemma int64_range x : min_int64 <= f64_to_int64 x <= max_int64.
Proof.
  unfold f64_to_int64, ftrunc. assert (min_int64 <= 0 <= max_int64) by (unfold min_int64, max_int64; lia).
  assert (min_int64 <= max_int64) by lia.
  destruct x; try lia. match goal with |- context [if ?b then _ else _] => destruct b eqn:E end; [|lia].
  apply andb_prop in E. destruct E as [E1 E2]. apply Z.leb_le in E1. apply Z.leb_le in E2. lia.
Qed.
Lemma wrap_range z : min_int64 <= z <= max_int64 -> wrap 64 z = z.
Proof.
  unfold min_int64, max_int64, wrap. change (64 - 1) with 63. intro H. rewrite Z.mod_small; [lia|].
  change (2 ^ 64) with (2 * 2 ^ 63). lia.
Qed.

Lemma converted g f : (if convertible g (RV false f) then convert g (RV false f) else RV false g) = RV false (to_field g f).
Proof. destruct f as [| | | |T [] x| | | | | | | |], g; reflexivity. Qed.
Lemma to_float v x g : coerce g false (GMaybe (MFloat v x)) = to_field g (gfloat fzero).
Proof. destruct g; reflexivity. Qed.
Lemma to_int v x g : coerce g false (GMaybe (MInt v x)) = to_field g (GInt "int64" Kint64 0).
Proof. destruct g; try reflexivity. cbn [coerce to_int64 to_field ibits]. rewrite wrap_range; [reflexivity|apply int64_range]. Qed.

(** up to the point where the rest of the body is what remains *)
Ltac steps_to rest := repeat (lazymatch goal with |- context [called _ (run_list _ rest _)] => fail | _ => step1 || settle end).

Lemma implements_case ib y :
  (implements (VType (RV ib y)) = Some true /\ exists T a q, ib = false /\ y = GPtr T a q /\ is_maybe (RV ib y) = true) \/
  (implements (VType (RV ib y)) = Some false /\ implements (VPtrTo (RV ib y)) = Some true /\ exists m, ib = false /\ y = GMaybe m) \/
  (implements (VType (RV ib y)) = Some false /\ implements (VPtrTo (RV ib y)) = Some false /\ is_maybe (RV ib y) = false).
Proof.
  destruct ib. { right; right. repeat split; reflexivity. }
  destruct y; try (right; right; repeat split; reflexivity).
  - destruct (maybe_ptr_T T) eqn:E.
    + left. split; [unfold implements; rewrite E; reflexivity|]. do 3 eexists. repeat split; try reflexivity. exact E.
    + right; right. unfold implements, is_maybe. rewrite E. repeat split; reflexivity.
  - right; left. repeat split; try reflexivity. eexists. split; reflexivity.
Qed.

Lemma rwrite_ptr l y d T a i z : rread l d = RV false (GPtr T a (Some (i, z))) -> rwrite (LElem l) y d = rwrite l (GPtr T a (Some (i, y))) d.
Proof. intro H. change (rwrite (LElem l) y d) with (match rread l d with RV true _ => rwrite l y d | RV false (GPtr T a (Some (i, _))) => rwrite l (GPtr T a (Some (i, y))) d | _ => d end). rewrite H. reflexivity. Qed.

Section Set_.
  Variable cx : ctx.

  (** object.go:208-227 *)
  Lemma coerce_call k g ib x s : g <> GNil ->
    exists l b, call_in funcs cx (S k) "coerceValue" [of_if g; VType (RV ib x)] s = Ok [VRv l] s /\
      forall D, rread l D = RV b (coerce g ib x).
  Proof.
    intro Hg. pose proof (valueOf_rv g Hg) as Hv. assert (Hi : same_str (kind (RV false g)) "interface" = false) by (destruct g as [| |T []|T []|T []| | |T kk ifc ET m| | | | |T []]; try contradiction; reflexivity).
    unfold of_if. destruct s as [e d w u]. rewrite Hv. open_call. steps.
    match goal with |- ?G => match G with context CT [ends_here _ (run_list ?exx ?rest)] =>
      enough (H : forall t, exists l, called e (run_list exx rest {| env_ := [[("vv", VRv (LVal (LImm (RV false g)))); ("v", VIf (LImm (RV false g))); ("t", VType t)]]; doc := d; ord_w := w; ord_u := u |}) =
        Ok [VRv l] {| env_ := e; doc := d; ord_w := w; ord_u := u |} /\ forall D, rread l D = if convertible g t then convert g t else RV false g) end end.
    { destruct ib.
      - match type of H with context [run_list _ ?rest _] => steps_to rest end. destruct (H (RV true x)) as [l [Hl Hl']]. exists l, true. split; [exact Hl|exact Hl'].
      - assert (Hto : forall f, coerce g false x = to_field g f -> exists l b, called e (run_list (exec cx (call_in funcs cx k) "coerceValue") ltac:(match type of H with context [run_list _ ?rest _] => exact rest end)
            {| env_ := [[("vv", VRv (LVal (LImm (RV false g)))); ("v", VIf (LImm (RV false g))); ("t", VType (RV false f))]]; doc := d; ord_w := w; ord_u := u |})
              = Ok [VRv l] {| env_ := e; doc := d; ord_w := w; ord_u := u |} /\ forall D, rread l D = RV b (coerce g false x)).
        { intros f Ef. destruct (H (RV false f)) as [l [Hl Hl']]. exists l, false. split; [exact Hl|]. intro D. rewrite Hl', Ef. apply converted. }
        destruct x as [| |T []|T []|T []| | |T kk ifc ET m| | |[]| |T []]; (match type of H with context [run_list _ ?rest _] => steps_to rest end); apply Hto; first [reflexivity | apply to_float | apply to_int]. }
    intro t. steps. destruct (convertible g t) eqn:Hc; steps; eexists; (split; [reflexivity|]); intro D; [|rewrite rread_val, content_imm; exact Hv]. reflexivity.
  Qed.

  Lemma coerce_nil k ib y s : exists m, call_in funcs cx (S k) "coerceValue" [of_if GNil; VType (RV ib y)] s = Ab (Panic m) s.
  Proof.
    destruct s as [e d w u]. unfold of_if. open_call.
    destruct (ty_eqb (RV ib y) (RV false (GMaybe zero_MFloat))) eqn:H1; [|destruct (ty_eqb (RV ib y) (RV false (GMaybe zero_MInt))) eqn:H2];
      unfold zero_MFloat, zero_MInt in *; steps; eexists; reflexivity.
  Qed.
  (** object.go:235-288: the place after one more pointer or interface, and what is set there *)
  Definition deref_loc (l : loc) (r : rval) : loc := if same_str (kind r) "ptr" || same_str (kind r) "interface" then LElem l else l.
  Definition set_at (l : loc) (d : gval) (p : string) (g : gval) : gres gval :=
    match rread l d with
    | RV false x => gmapres (fun y => rwrite l y d) (set_target (cx_E cx) (addressable l d) x p g)
    | r => GErr ("setProp: don't know what to do with '" +++ kind r +++ "'")
    end.
  Definition set_done (x : ev (list val)) (o : gres gval) (e : list scope) (d : gval) (w u : orc) : Prop :=
    match o with
    | GOk d' => x = Ok [VNil] {| env_ := e; doc := d'; ord_w := w; ord_u := u |}
    | GErr m => x = Ok [VErr m] {| env_ := e; doc := d; ord_w := w; ord_u := u |}
    | GPanic _ => exists m, x = Ab (Panic m) {| env_ := e; doc := d; ord_w := w; ord_u := u |}
    end.
  Lemma set_map E addr T ifc ET m p g kk : g <> GNil ->
    set_target E addr (GMap T kk ifc ET m) p g =
    match kk with
    | KNamedString | KOther => GPanic "SetMapIndex: key not assignable"
    | _ => if ifc || String.eqb (typ g) ET then
             match m with None => GPanic "assignment to entry in nil map" | Some l => GOk (GMap T kk ifc ET (Some (sset p g l))) end
           else GPanic "SetMapIndex: value not assignable"
    end.
  Proof. intro H. destruct g; try contradiction; reflexivity. Qed.
  Lemma get_prop_struct g p : same_str (kind (RV false g)) "struct" = true ->
    get_prop (RV false g) p = match extract g with None => None | Some props => Some (match field_name props p with None => RZero | Some f =>
      match field_by_name g f with None => RZero | Some (_, (fi, x)) => RV (f_iface fi) x end end) end.
  Proof.
    intro Hs. destruct g as [| |T []|T []|T []| | |T kk ifc ET m| | | | |T []]; try discriminate Hs; cbn [get_prop];
      destruct (extract _) as [props|]; try reflexivity; destruct (field_name props p) as [f|]; try reflexivity; destruct (field_by_name _ f) as [(? & ? & ?)|]; reflexivity.
  Qed.
  Lemma prop_loc_struct l g p : same_str (kind (RV false g)) "struct" = true ->
    prop_loc l (RV false g) p = match extract g with None => LImm RZero | Some props => match field_name props p with None => LImm RZero | Some f =>
      match field_by_name g f with None => LImm RZero | Some _ => LFld l f end end end.
  Proof. intro Hs. destruct g as [| |T []|T []|T []| | |T kk ifc ET m| | | | |T []]; try discriminate Hs; reflexivity. Qed.
  Definition set_field (E : env) (addr : bool) (x : gval) (path : list nat) (fi : finfo) (f g : gval) : gres gval :=
    match g with
    | GNil => GPanic "reflect: Type of zero Value"
    | _ =>
        let dv := coerce g (f_iface fi) f in
        if is_maybe (RV (f_iface fi) f) then
          match f with
          | GMaybe m =>
              if addr then match m_set (e_time E) m dv with inl m' => GOk (set_path path (GMaybe m') x) | inr e => GErr e end
              else GPanic "reflect: Set using unaddressable value"
          | GPtr T a (Some (i, GMaybe m)) =>
              match m_set (e_time E) m dv with inl m' => GOk (set_path path (GPtr T a (Some (i, GMaybe m'))) x) | inr e => GErr e end
          | _ => GPanic "nil Maybe"
          end
        else if negb addr then GPanic "reflect: Set using unaddressable value"
        else if f_iface fi || String.eqb (typ dv) (typ f) then GOk (set_path path dv x) else GPanic "reflect: Set: value not assignable"
    end.
  Lemma set_struct E addr x p g : same_str (kind (RV false x)) "struct" = true ->
    set_target E addr x p g =
    match extract x with
    | None => GPanic "reflect: NumField of non-struct type"
    | Some props =>
        match field_name props p with
        | None => GErr ("setProp: could not find field '" +++ p +++ "'")
        | Some fn =>
            match field_by_name x fn with
            | None => GErr ("setProp: could not find field '" +++ p +++ "'")
            | Some (path, (fi, f)) => set_field E addr x path fi f g
            end
        end
    end.
  Proof.
    intro Hs. destruct x as [| |T []|T []|T []| | |T kk ifc ET m| | | | |T []]; try discriminate Hs; reflexivity.
  Qed.
  Lemma set_prop_call k o l p g e d w u :
    set_done (call_in funcs cx (S (S (S k))) "ObjectConstraint.setProp" [VObj (CObj o); VRv l; VStr p; of_if g] {| env_ := e; doc := d; ord_w := w; ord_u := u |})
      (set_at (deref_loc l (rread l d)) d p g) e d w u.
  Proof.
    unfold of_if. remember (rread l d) as r eqn:Hr. symmetry in Hr. open_call. steps.
    match goal with |- set_done (called _ (ends_here _ (run_list ?exx ?rest))) _ _ _ _ _ =>
      enough (H : forall lr, set_done (called e (run_list exx rest {| env_ := [[("o", VObj (CObj o)); ("rv", VRv lr); ("pname", VStr p); ("val", VIf (LImm (valueOf g)))]]; doc := d; ord_w := w; ord_u := u |})) (set_at lr d p g) e d w u);
      [unfold deref_loc; destruct (same_str (kind r) "ptr") eqn:Hp;
       [|destruct (same_str (kind r) "interface") eqn:Hi];
       steps_to rest; apply H|]
    end.
    clear r Hr. intro lr. unfold set_at. destruct (rread lr d) as [|ib x] eqn:Hr.
    { steps. reflexivity. }
    destruct ib. { steps. reflexivity. }
    destruct (same_str (kind (RV false x)) "map") eqn:Hm.
    { destruct x as [| |T []|T []|T []| | |T kk ifc ET m| | | | |T []]; try discriminate Hm. 
      destruct (is_gnil g) eqn:Hg.
      { destruct g; try discriminate Hg. cbn [set_target]. steps. destruct kk; steps; try (eexists; reflexivity); destruct m; steps; reflexivity. }
      assert (Hn : g <> GNil) by (intro E; rewrite E in Hg; discriminate Hg). pose proof (valueOf_rv g Hn) as Hv.
      rewrite set_map by exact Hn. unfold set_done. change (String.eqb (typ g) ET) with (same_str (typ g) ET). steps.
      destruct kk; steps; try (eexists; reflexivity);
        (destruct ifc; [|destruct (same_str (typ g) ET)]); cbn [orb]; steps; try (eexists; reflexivity); (destruct m; steps; [reflexivity|eexists; reflexivity]). }
    destruct (same_str (kind (RV false x)) "struct") eqn:Hs.
    2: { steps. destruct x as [| |T []|T []|T []| | |T kk ifc ET m| | | | |T []]; try discriminate Hm; try discriminate Hs; reflexivity. }
    rewrite (set_struct _ _ _ _ _ Hs). steps.
    match goal with |- context [call_in funcs cx (S (S k)) "ObjectConstraint.getProp" _ {| env_ := ?e1; doc := _; ord_w := _; ord_u := _ |}] =>
      pose proof (get_prop_call cx k o lr p e1 d w u _ Hr) as Hc end.
    rewrite (get_prop_struct _ _ Hs), (prop_loc_struct _ _ _ Hs) in Hc.
    destruct (extract x) as [props|].
    2: { destruct Hc as [m Hc]. rewrite Hc. steps. eexists. reflexivity. }
    destruct (field_name props p) as [f|].
    2: { cbn [option_map or_panic] in Hc. rewrite Hc. steps. reflexivity. }
    destruct (field_by_name x f) as [[path [fi y]]|] eqn:Hf; cbn [option_map or_panic] in Hc; rewrite Hc; clear Hc.
    2: { steps. reflexivity. }
    assert (Hr2 : rread (LFld lr f) d = RV (f_iface fi) y) by (rewrite (rread_fld _ _ _ _ Hr), Hf; reflexivity).
    assert (Hw2 : forall z, rwrite (LFld lr f) z d = rwrite lr (set_path path z x) d) by (intro z; rewrite (rwrite_fld _ _ _ _ _ Hr), Hf; reflexivity).
    unfold set_field. remember (f_iface fi) as ib eqn:Eib. clear Eib. steps.
    destruct (is_gnil g) eqn:Hg.
    { destruct g; try discriminate Hg. change (VIf (LImm (valueOf GNil))) with (of_if GNil).
      match goal with |- context [call_in funcs cx (S (S k)) "coerceValue" _ ?s1] => destruct (coerce_nil (S k) ib y s1) as [m Hc] end.
      rewrite Hc. steps. eexists. reflexivity. }
    assert (Hn : g <> GNil) by (intro E; rewrite E in Hg; discriminate Hg).
    fold (of_if g).
    match goal with |- context [call_in funcs cx (S (S k)) "coerceValue" _ ?s1] => destruct (coerce_call (S k) g ib y s1 Hn) as (ld & b & Hc & Hd) end.
    rewrite Hc. clear Hc.
    match goal with |- set_done _ ?t _ _ _ _ => replace t with (gmapres (fun y0 : gval => rwrite lr y0 d)
       (let dv := coerce g ib y in
        if is_maybe (RV ib y) then
          match y with
          | GMaybe m =>
              if addressable lr d then match m_set (e_time (cx_E cx)) m dv with inl m' => GOk (set_path path (GMaybe m') x) | inr e => GErr e end
              else GPanic "reflect: Set using unaddressable value"
          | GPtr T a (Some (i, GMaybe m)) =>
              match m_set (e_time (cx_E cx)) m dv with inl m' => GOk (set_path path (GPtr T a (Some (i, GMaybe m'))) x) | inr e => GErr e end
          | _ => GPanic "nil Maybe"
          end
        else if negb (addressable lr d) then GPanic "reflect: Set using unaddressable value"
        else if ib || same_str (typ dv) (typ y) then GOk (set_path path dv x) else GPanic "reflect: Set: value not assignable")) by (destruct g; try contradiction; reflexivity) end.
    remember (coerce g ib y) as dv eqn:Edv. clear Edv. pose proof (Hd d) as Hdd. cbv zeta.
    assert (Ha : addressable (LFld lr f) d = addressable lr d) by reflexivity.
    destruct (implements_case ib y) as [(Hi & T & a & q & Eib & Ey & Hmb)|[(Hi & Hi2 & m & Eib & Ey)|(Hi & Hi2 & Hmb)]].
    - rewrite Eib, Ey in *. rewrite Hmb. steps. rewrite Hmb. steps. change (zero_rv (LImm RZero) d) with true. steps.
      assert (Hno : forall m0, (forall i m, q <> Some (i, GMaybe m)) -> set_done (Ab (Panic m0) {| env_ := e; doc := d; ord_w := w; ord_u := u |}) (gmapres (fun y0 : gval => rwrite lr y0 d)
         (match q with Some (i, GMaybe m) => match m_set (e_time (cx_E cx)) m dv with inl m' => GOk (set_path path (GPtr T a (Some (i, GMaybe m'))) x) | inr e => GErr e end
          | _ => GPanic "nil Maybe" end)) e d w u).
      { intros m0 H. destruct q as [[i []]|]; try (eexists; reflexivity). exfalso. exact (H _ _ eq_refl). }
      destruct q as [[i z]|]; [destruct z as [| | | | | | | | | |m| |]|]; steps; try (apply Hno; discriminate).
      assert (Hw3 : forall z, rwrite (LElem (LFld lr f)) z d = rwrite lr (set_path path (GPtr T a (Some (i, z))) x) d)
        by (intro z; rewrite (rwrite_ptr _ _ _ _ _ _ _ Hr2); apply Hw2).
      destruct (m_set (e_time (cx_E cx)) m dv) as [m'|er]; steps; [rewrite Hw3|]; reflexivity.
    - rewrite Eib, Ey in *. steps. rewrite Ha. change (is_maybe (RV false (GMaybe m))) with true. destruct (addressable lr d) eqn:Had; steps.
      + rewrite Ha. steps. change (zero_rv (LImm RZero) d) with true. steps. destruct (m_set (e_time (cx_E cx)) m dv) as [m'|er]; steps; [rewrite Hw2|]; reflexivity.
      + rewrite Ha. steps. eexists. reflexivity.
    - rewrite Hmb. steps. rewrite Ha. destruct (addressable lr d) eqn:Had; steps; rewrite Ha; steps; [|eexists; reflexivity].
      cbn [negb]. destruct ib; [|destruct (same_str (typ dv) (typ y))]; cbn [orb]; steps; rewrite ?Hw2; try reflexivity. eexists. reflexivity.
  Qed.
End Set_.
