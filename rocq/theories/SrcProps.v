(** Running the source of getPropNames (object.go:163-199), coerceValue and setProp
    (object.go:208-288). *)
From Verif Require Import Base GoFloat GoValue Maybe Formats Constraint StructInfo Validate SrcSyntax SrcText SrcExec SrcProg SrcStep SrcAccess.
Open Scope string_scope.
Open Scope list_scope.
Open Scope Z_scope.

Section Names.
  Variable cx : ctx.
  Hypothesis Hsite : cx_site cx = orders.

  (** object.go:163-199 *)
  Definition got_names (x : ev (list val)) (o : gres (list string)) (e : list scope) (d : gval) (w : orc) : Prop :=
    exists u',
    match o with
    | GOk ks => exists ns, Permutation ks ns /\ x = Ok [VList (map VStr ns); VNil] {| env_ := e; doc := d; ord_w := w; ord_u := u' |}
    | GErr m => x = Ok [VNil; VErr m] {| env_ := e; doc := d; ord_w := w; ord_u := u' |}
    | GPanic _ => exists m, x = Ab (Panic m) {| env_ := e; doc := d; ord_w := w; ord_u := u' |}
    end.
  Definition names_of (r : rval) : gres (list string) :=
    match r with
    | RV false (GMap _ kk _ _ m) =>
        let ks := match m with None => [] | Some l => keys l end in
        match kk, ks with
        | KString, _ | KNamedString, _ => GOk ks
        | _, [] => GOk []
        | _, _ => GErr "panic: can only handle maps with string keys"
        end
    | RV false (GStruct _ _ as s) | RV false (GMaybe _ as s) | RV false (GTime _ as s) =>
        match extract s with
        | None => GPanic "reflect: NumField of non-struct type"
        | Some props =>
            match prop_names props s with
            | None => GPanic "reflect: call of Valid"
            | Some l => GOk l
            end
        end
    | x => GErr ("cannot get property names from this value (Kind: " +++ kind x +++ ")")
    end.
  Lemma names_of_eq r : get_names r = names_of (elem r).
  Proof. unfold get_names. destruct (elem r) as [|[] []]; reflexivity. Qed.
  Lemma elem_other r : same_str (kind r) "ptr" = false -> same_str (kind r) "interface" = false -> elem r = r.
  Proof. destruct r as [|[] []]; try reflexivity; discriminate. Qed.
  Lemma set_mid {A} (a b : list A) x y : set_nth (List.length a) x (a ++ y :: b) = a ++ x :: b.
  Proof. induction a as [|z a IH]; [reflexivity|]. cbn. rewrite IH. reflexivity. Qed.
  Lemma get_names_call k o l e d w u r : rread l d = r ->
    got_names (call_in funcs cx (S (S k)) "ObjectConstraint.getPropNames" [VObj (CObj o); VRv l] {| env_ := e; doc := d; ord_w := w; ord_u := u |})
      (get_names r) e d w.
  Proof.
    intro Hr. rewrite names_of_eq. open_call. steps.
    match goal with |- got_names (called _ (ends_here _ (run_list ?ex ?rest))) _ _ _ _ =>
      enough (H : forall lr, rread lr d = elem r -> got_names (called e (run_list ex rest {| env_ := [[("o", VObj (CObj o)); ("rv", VRv lr)]]; doc := d; ord_w := w; ord_u := u |})) (names_of (elem r)) e d w);
      [destruct (same_str (kind r) "ptr") eqn:Hp;
       [|destruct (same_str (kind r) "interface") eqn:Hi];
       repeat (lazymatch goal with |- got_names (called _ (run_list _ rest _)) _ _ _ _ => fail | _ => step1 || settle end)|]
    end.
    1-2: apply H; rewrite rread_elem, Hr; reflexivity.
    { apply H. rewrite Hr. symmetry. apply elem_other; assumption. }
    generalize (elem r). clear Hr. intros x lr Hr.
    destruct (same_str (kind x) "map") eqn:Hm.
    { destruct x as [|[] [| |T []|T []|T []| | |T kk ifc ET m| | | | |T []]]; try discriminate Hm. 
      remember (match m with Some x => keys x | None => [] end) as kl eqn:Ekl.
      replace (names_of (RV false (GMap T kk ifc ET m))) with (match kk, kl with KString, _ | KNamedString, _ => GOk kl | _, [] => GOk [] | _, _ => GErr "panic: can only handle maps with string keys" end)
        by (rewrite Ekl; destruct m; reflexivity).
      steps. rewrite <- Ekl. destruct (shuffle u kl) as [ks u'] eqn:Hsh.
      remember (values (fun k0 : string => VRv (LImm (key_value kk k0))) ks) as vks eqn:Evks.
      assert (Hpos : (Z.of_nat (List.length vks) <? 0) = false) by (apply Z.ltb_ge; lia).
      steps.
      assert (Hlen : List.length vks = List.length ks) by (rewrite Evks; apply map_length). rewrite Hlen. clear Hpos.
      pose proof (shuffle_perm _ _ _ _ Hsh) as Hp.
      destruct (match kk with KString | KNamedString => true | _ => false end) eqn:Hkk.
      2: { destruct ks as [|k0 ks'].
           - subst vks. apply Permutation_sym, Permutation_nil in Hp. rewrite Hp. exists u'. destruct kk; try discriminate Hkk; cbn [values map indexed rounds]; steps; exists []; split; [constructor|reflexivity|constructor|reflexivity].
           - assert (Hne : kl <> []) by (intro E; rewrite E in Hp; apply Permutation_nil in Hp; discriminate Hp).
             assert (Hi : indexed 0 vks = (VInt 0, VRv (LImm (key_value kk k0))) :: indexed (0 + 1) (values (fun k0 : string => VRv (LImm (key_value kk k0))) ks')) by (rewrite Evks; reflexivity).
             rewrite Hi. clear Evks Hlen Hi. destruct kl; [contradiction|].
             destruct kk; try discriminate Hkk; round1; steps; exists u'; reflexivity. }
      replace (match kk with KString | KNamedString => GOk kl | _ => match kl with [] => GOk [] | _ :: _ => GErr "panic: can only handle maps with string keys" end end) with (GOk kl) by (destruct kk; try discriminate Hkk; reflexivity).
      match goal with |- ?G => match G with context CT [rounds ?B ?C ?df ?kk0 ?vv (indexed 0 vks) {| env_ := [?a; [_; ?b; ?c]]; doc := _; ord_w := _; ord_u := _ |}] =>
        enough (H : forall rest dn vl, vl = map VStr dn ++ repeat (VStr "") (List.length rest) -> ks = dn ++ rest ->
           ltac:(let g := context CT [rounds B C df kk0 vv (indexed (Z.of_nat (List.length dn)) (values (fun k0 : string => VRv (LImm (key_value kk k0))) rest))
                    {| env_ := [a; [("keys", VList vl); b; c]]; doc := d; ord_w := w; ord_u := u' |}] in exact g)) end end.
      { rewrite Evks. rewrite Evks in H. exact (H ks [] _ eq_refl eq_refl). }
      clear Evks Hlen. induction rest as [|k0 rest IH]; intros dn vl Hvl Hks.
      - cbn [values map indexed rounds]. steps. exists u', ks. split; [exact Hp|]. rewrite Hvl, Hks, !app_nil_r. reflexivity.
      - assert (Hkv : exists T0, key_value kk k0 = RV false (GStr T0 k0)) by (destruct kk; try discriminate Hkk; eexists; reflexivity).
        destruct Hkv as [T0 Hkv]. cbn [values map indexed]. fold (values (fun k0 : string => VRv (LImm (key_value kk k0))) rest). rewrite Hkv.
        assert (Hi1 : (0 <=? Z.of_nat (List.length dn)) = true) by (apply Z.leb_le; lia).
        assert (Hi2 : (Z.of_nat (List.length dn) <? Z.of_nat (List.length vl)) = true)
          by (apply Z.ltb_lt; rewrite Hvl, app_length, map_length; cbn [List.length repeat]; lia).
        round1. steps.
        replace (Z.of_nat (List.length dn) + 1) with (Z.of_nat (List.length (dn ++ [k0]))) by (rewrite app_length; cbn [List.length]; lia).
        apply IH; [|rewrite <- app_assoc; exact Hks].
        rewrite Hvl, map_app, <- app_assoc, <- (map_length VStr dn). apply (set_mid _ _ (VStr k0)). }
    destruct (same_str (kind x) "struct") eqn:Hs.
    2: { steps. exists u. destruct x as [|[] [| |T []|T []|T []| | |T kk ifc ET m| | | | |T []]]; try discriminate Hm; try discriminate Hs; reflexivity. }
    assert (exists g, x = RV false g) as (g & Eg) by (destruct x as [|[] g]; try discriminate Hs; exists g; reflexivity). rewrite Eg in *.
    replace (names_of (RV false g)) with (match extract g with None => GPanic "reflect: NumField of non-struct type" | Some props => 
      match prop_names props g with None => GPanic "reflect: call of Valid" | Some l => GOk l end end)
      by (destruct g as [| |T []|T []|T []| | |T kk ifc ET m| | | | |T []]; try discriminate Hs; reflexivity).
    steps. destruct (extract g) as [props|] eqn:Hx.
    2: { steps. rewrite Hx. steps. exists u. eexists. reflexivity. }
    destruct (cx_hit cx (typ g)); steps; rewrite ?Hx; steps;
      match goal with |- context [call_in funcs cx (S k) "StructInfo.PropNames" _ {| env_ := ?e1; doc := _; ord_w := _; ord_u := _ |}] =>
        destruct (prop_names_call cx Hsite k props lr e1 d w u g Hr Hs) as (u' & ns & m & Hc & Hn) end;
      rewrite Hc; clear Hc; unfold same_names in Hn; destruct (prop_names props g) as [pl|], ns as [ns|]; try contradiction Hn; cbn [named]; steps;
      exists u'; eexists; try (split; [exact Hn|]); reflexivity.
  Qed.
End Names.
