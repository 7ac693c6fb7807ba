(** Running the source of structinfo.go's extract (114-165) gives the entries of the model's
    [extract], in some order, and panics when that is [None]. *)
From Verif Require Import Base GoFloat GoValue Maybe Formats Constraint StructInfo Validate SrcSyntax SrcText SrcExec SrcProg SrcStep SrcAccess SrcSorted.
Open Scope string_scope.
Open Scope list_scope.
Open Scope Z_scope.

(** how deep types are embedded in one another *)
Fixpoint edepth (g : gval) : nat :=
  match g with
  | GStruct _ fs => S (list_max (map (fun e => match e with (fi, x) => if f_anon fi then edepth x else O end) fs))
  | GMaybe _ => 2
  | _ => 1
  end.
Lemma edepth_field T fs fi x : In (fi, x) fs -> f_anon fi = true -> (S (edepth x) <= edepth (GStruct T fs))%nat.
Proof.
  intros Hi Ha. cbn [edepth]. apply le_n_S.
  assert (H := proj1 (list_max_le (map (fun e : finfo * gval => match e with (fi, x) => if f_anon fi then edepth x else O end) fs) _) (le_n _)).
  rewrite Forall_map, Forall_forall in H. specialize (H _ Hi). cbn in H. now rewrite Ha in H.
Qed.

(** a Go map [m] with the entries of [props] *)
Definition holds (m : list (val * val)) (props : list (string * propinfo)) : Prop :=
  exists l, m = entries VProp l /\ NoDup (keys l) /\ forall k, sget k l = sget k props.

Lemma holds_nil : holds [] [].
Proof. exists []. repeat split. constructor. Qed.
Fixpoint aput (k : string) (p : propinfo) (l : list (string * propinfo)) : list (string * propinfo) :=
  match l with [] => [(k, p)] | (k', q) :: r => if String.eqb k k' then (k', p) :: r else (k', q) :: aput k p r end.
Lemma aput_entries k p l : m_put (VStr k) (VProp p) (entries VProp l) = entries VProp (aput k p l).
Proof.
  induction l as [|[k' q] l IH]; [reflexivity|]. cbn [entries map fst snd m_put key_eqb aput]. fold (entries VProp l).
  destruct (String.eqb k k'); [reflexivity|]. rewrite IH. reflexivity.
Qed.
Lemma aput_get k p l k' : sget k' (aput k p l) = if String.eqb k' k then Some p else sget k' l.
Proof.
  induction l as [|[a q] l IH]; [reflexivity|]. cbn [aput]. destruct (String.eqb_spec k a) as [->|N]; cbn [sget].
  - destruct (String.eqb k' a); reflexivity.
  - rewrite IH. destruct (String.eqb_spec k' a) as [->|N']; [|reflexivity]. destruct (String.eqb_spec a k); [congruence|reflexivity].
Qed.
Lemma aput_keys k p l x : In x (keys (aput k p l)) <-> x = k \/ In x (keys l).
Proof.
  induction l as [|[a q] l IH]; [cbn; intuition congruence|]. cbn [aput]. destruct (String.eqb_spec k a) as [->|N]; cbn [keys map fst In] in *; [intuition congruence|].
  fold (keys l) in *. unfold keys in *. rewrite IH. intuition congruence.
Qed.
Lemma aput_nodup k p l : NoDup (keys l) -> NoDup (keys (aput k p l)).
Proof.
  induction l as [|[a q] l IH]; [intros _; constructor; [intros []|constructor]|]. intro H. inversion H as [|? ? H1 H2]; subst. cbn [aput]. destruct (String.eqb_spec k a) as [->|N]; [exact H|].
  cbn [keys map fst]. constructor; [|exact (IH H2)]. intro X. apply aput_keys in X. destruct X; [congruence|contradiction].
Qed.
Lemma holds_put m props k p : holds m props -> holds (m_put (VStr k) (VProp p) m) (sset k p props).
Proof.
  intros (l & -> & Hn & Hg). exists (aput k p l). split; [apply aput_entries|]. split; [apply aput_nodup; exact Hn|].
  intro k'. rewrite aput_get. destruct (String.eqb_spec k' k) as [->|N]; [now rewrite sget_sset_same|]. now rewrite sget_sset_other, Hg.
Qed.
Definition merged (info props : list (string * propinfo)) : list (string * propinfo) := fold_left (fun m kv => sset (fst kv) (snd kv) m) info props.
Lemma holds_ext m p q : holds m p -> (forall k, sget k p = sget k q) -> holds m q.
Proof. intros (l & -> & Hn & Hg) H. exists l. repeat split; auto. intro k. now rewrite Hg. Qed.
Lemma merged_get info : forall props k, NoDup (keys info) -> sget k (merged info props) = match sget k info with Some p => Some p | None => sget k props end.
Proof.
  induction info as [|[a p] info IH]; intros props k H; [reflexivity|]. inversion H as [|? ? H1 H2]; subst. cbn [merged fold_left fst snd sget].
  fold (merged info (sset a p props)). rewrite (IH _ _ H2). destruct (String.eqb_spec k a) as [->|N].
  - destruct (sget a info) eqn:E; [|apply sget_sset_same]. apply sget_in in E. exfalso. apply H1. apply in_map_iff. exists (a, p0). auto.
  - rewrite sget_sset_other by exact N. reflexivity.
Qed.
Lemma merged_sorted info : forall props, ssorted props -> ssorted (merged info props).
Proof. induction info as [|[a p] info IH]; intros props H; [exact H|]. apply IH. apply sset_sorted. exact H. Qed.
Lemma perm_get {A} (l l' : list (string * A)) k : Permutation l l' -> NoDup (keys l) -> sget k l = sget k l'.
Proof.
  intros HP Hn. assert (Hn' : NoDup (keys l')) by (eapply Permutation_NoDup; [apply Permutation_map; exact HP|exact Hn]).
  destruct (sget k l) eqn:E.
  - symmetry. apply nodup_sget; [exact Hn'|]. eapply Permutation_in; [exact HP|]. apply sget_in. exact E.
  - destruct (sget k l') eqn:E'; [|reflexivity]. apply sget_in in E'. apply (Permutation_in _ (Permutation_sym HP)) in E'. rewrite (nodup_sget _ _ _ Hn E') in E. discriminate.
Qed.

(** the scan for the first comma *)
Lemma get_mid a c b : String.get (String.length a) (a +++ String c b) = Some c.
Proof. induction a; [reflexivity|exact IHa]. Qed.
Lemma byte_mid a c b : byte_at (Z.of_nat (String.length a)) (a +++ String c b) = Some (byte c).
Proof. unfold byte_at. destruct (Z.ltb_spec (Z.of_nat (String.length a)) 0); [lia|]. rewrite Nat2Z.id, get_mid. reflexivity. Qed.
Lemma byte_comma c : (byte c =? 44) = Ascii.eqb c ",".
Proof. destruct c as [[] [] [] [] [] [] [] []]; reflexivity. Qed.
Lemma flen_bound s : forall j f, (f < j)%nat -> (tag_flen j f s < j + String.length s)%nat.
Proof. induction s as [|c s IH]; intros j f H; cbn; [lia|]. destruct (Ascii.eqb c _); [lia|]. specialize (IH (S j) j). lia. Qed.
Lemma append_one a c b : a +++ String c b = (a +++ String c "") +++ b.
Proof. induction a; [reflexivity|]. cbn. now f_equal. Qed.
Lemma length_one a c : String.length (a +++ String c "") = S (String.length a).
Proof. induction a; [reflexivity|]. cbn. now f_equal. Qed.
Lemma slen_mid a b : slen (a +++ b) = Z.of_nat (String.length a + String.length b).
Proof. unfold slen. f_equal. induction a; [reflexivity|]. cbn. now f_equal. Qed.

Lemma implements_is b x : exists p q, implements (VType (RV b x)) = Some p /\ implements (VPtrTo (RV b x)) = Some q /\ is_maybe (RV b x) = p || q.
Proof.
  destruct b, x; cbn; eexists _, _; (split; [reflexivity|]; split; [reflexivity|]); try reflexivity. symmetry. apply orb_false_r.
Qed.

(** how the call ends *)
Definition extracts (o : ev (list val)) (r : option (list (string * propinfo))) (s : orc -> st) : Prop :=
  match r with
  | Some props => exists m u, o = Ok [VMap m] (s u) /\ holds m props
  | None => exists m u, o = Ab (Panic m) (s u)
  end.

(** the fields the loop runs over *)
Lemma extract_fields b g fs : type_fields (RV b g) = Some fs -> b = false /\ extract g = extract_list extract fs [] /\
  forall fi x, In (fi, x) fs -> f_anon fi = true -> (S (edepth x) <= edepth g)%nat.
Proof.
  intro H. destruct b, g; try discriminate H; injection H as <-; (split; [reflexivity|]); split; try reflexivity;
    try (intros fi x Hi Ha; eapply edepth_field; eassumption);
    intros fi x Hi Ha; cbn [In] in Hi; repeat destruct Hi as [Hi|Hi]; try contradiction; injection Hi as <- <-; try discriminate Ha; cbn; lia.
Qed.

Section Extract.
  Variable cx : ctx.
  Hypothesis Hsite : cx_site cx = orders.
  Local Opaque type_fields.

  Lemma tag_loop call f mb fv tag zi top d w u : forall rest pre n fl fuel, tag = pre +++ rest -> n = String.length pre -> (String.length rest < fuel)%nat ->
    leave (loop (fun s => the (eval cx call false (EBin "<" (EId "j") (ECall (EId "len") [EId "tag"])) s))
      (opt_stmt (exec cx call f) (Some (SInc (EId "j") "++")))
      (block (exec cx call f) [SIf None (EBin "==" (EIdx (EId "tag") (EId "j")) (EChr 44)) [SBreak] []; SAssign [EId "flen"] "=" [EId "j"]])
      fuel {| env_ := [[("j", VInt (Z.of_nat n))]; [("flen", VInt (Z.of_nat fl)); ("isMaybe", VBool mb); ("tag", VStr tag); ("fv", fv)]; zi; top]; doc := d; ord_w := w; ord_u := u |})
    = Nx {| env_ := [[("flen", VInt (Z.of_nat (tag_flen n fl rest))); ("isMaybe", VBool mb); ("tag", VStr tag); ("fv", fv)]; zi; top]; doc := d; ord_w := w; ord_u := u |}.
  Proof.
    induction rest as [|c rest IH]; intros pre n fl fuel Ht Hn Hf; (destruct fuel as [|fuel]; [exfalso; cbn in Hf; lia|]); rewrite loop_next; steps; rewrite Ht, slen_mid; cbn [String.length].
    - match goal with |- context [?a <? ?b] => replace (a <? b) with false by (symmetry; apply Z.ltb_ge; lia) end. steps. reflexivity.
    - match goal with |- context [?a <? ?b] => replace (a <? b) with true by (symmetry; apply Z.ltb_lt; lia) end. steps.
      rewrite Hn at 1. rewrite byte_mid. steps. rewrite byte_comma. cbn [tag_flen].
      destruct (Ascii.eqb c ","); steps; [reflexivity|].
      replace (Z.of_nat n + 1) with (Z.of_nat (S n)) by lia.
      rewrite <- Ht. apply (IH (pre +++ String c "")); [rewrite Ht; apply append_one|rewrite length_one; lia|cbn [String.length] in Hf; lia].
  Qed.

  Lemma extract_call : forall k b g e d w u, (edepth g <= k)%nat ->
    extracts (call_in funcs cx k "extract" [VType (RV b g)] {| env_ := e; doc := d; ord_w := w; ord_u := u |})
      (if b then None else extract g) (fun u' => {| env_ := e; doc := d; ord_w := w; ord_u := u' |}).
  Proof.
    induction k as [|k IHk]; intros b g e d w u Hk; [destruct g; cbn in Hk; lia|].
    open_call. steps. unfold for_rest.
    destruct (type_fields (RV b g)) as [fs|] eqn:Hfs.
    2: { assert (Hx : (if b then None else extract g) = None) by (destruct b, g; try reflexivity; discriminate).
         rewrite Hx. rewrite loop_next. steps. rewrite Hfs. steps. eexists _, _. reflexivity. }
    destruct (extract_fields _ _ _ Hfs) as (-> & Hx & Hd). rewrite Hx. clear Hx.
    match goal with |- extracts ?G _ _ => match G with context CT [loop ?C ?P ?B _ {| env_ := _ ; doc := _; ord_w := _; ord_u := _ |}] =>
      enough (H : forall rest pre m props u fuel, fs = pre ++ rest -> (List.length rest < fuel)%nat -> holds m props ->
        extracts ltac:(let g := context CT [loop C P B fuel {| env_ := [[("i", VInt (Z.of_nat (List.length pre)))]; [("props", VMap m); ("t", VType (RV false g))]]; doc := d; ord_w := w; ord_u := u |}] in exact g)
          (extract_list extract rest props) (fun u' => {| env_ := e; doc := d; ord_w := w; ord_u := u' |}))
    end end.
    { refine (H fs [] [] [] u _ eq_refl _ holds_nil). cbn [env_ env_size list_sum map fold_right snd val_size]. unfold val_size. rewrite Hfs. cbn. lia. }
    clear u. induction rest as [|[fi x] rest IH]; intros pre m props u fuel Hpre Hfuel Hm; (destruct fuel as [|fuel]; [exfalso; cbn in Hfuel; lia|]); rewrite loop_next; steps.
    - rewrite Hfs. steps. replace (Z.of_nat (List.length pre) <? Z.of_nat (List.length fs)) with false
        by (symmetry; apply Z.ltb_ge; rewrite Hpre, app_nil_r; lia).
      steps. eexists _, _. split; [reflexivity|exact Hm].
    - rewrite Hfs. steps.
      assert (H1 : Z.of_nat (List.length pre) <? Z.of_nat (List.length fs) = true) by (apply Z.ltb_lt; rewrite Hpre, app_length; cbn [List.length]; lia).
      assert (H2 : Z.of_nat (List.length pre) <? 0 = false) by (apply Z.ltb_ge; lia).
      assert (H3 : nth_error fs (List.length pre) = Some (fi, x)) by (rewrite Hpre, nth_error_app2, Nat.sub_diag by lia; reflexivity).
      steps. rewrite Hfs. steps. rewrite H3. steps.
      assert (Hi : Z.of_nat (List.length pre) + 1 = Z.of_nat (List.length (pre ++ [(fi, x)]))) by (rewrite app_length; cbn [List.length]; lia).
      assert (Hpre' : fs = (pre ++ [(fi, x)]) ++ rest) by (rewrite Hpre, <- app_assoc; reflexivity).
      assert (Hfuel' : (List.length rest < fuel)%nat) by (cbn [List.length] in Hfuel; lia).
      assert (HdX : f_anon fi = true -> (edepth x <= k)%nat).
      { intro Ha. assert (H := Hd fi x). rewrite Hpre in H. specialize (H (in_elt _ _ _) Ha). lia. }
      assert (IH' := fun m props u => IH _ m props u fuel Hpre' Hfuel'). clear IH. rewrite <- Hi in IH'.
      remember (Z.of_nat (List.length pre)) as zi eqn:Ezi. clear Ezi Hi Hpre' Hfuel' H1 H2 H3 Hpre Hfuel.
      destruct fi as [fname fexp fanon ftag fifc].
      cbn [f_anon] in HdX. cbn [extract_list f_anon f_iface f_exported f_tag f_name].
      destruct fanon; steps.
      + match goal with |- context [call_in funcs cx k "extract" _ {| env_ := ?e0; doc := _; ord_w := _; ord_u := _ |}] =>
          specialize (IHk fifc x e0 d w u (HdX eq_refl)) end.
        destruct fifc.
        { destruct IHk as (msg & u1 & Hc). rewrite Hc. steps. eexists _, _. reflexivity. }
        destruct (extract x) as [info|] eqn:Hx.
        2: { destruct IHk as (msg & u1 & Hc). rewrite Hc. steps. eexists _, _. reflexivity. }
        destruct IHk as (mi & u1 & Hc & l & -> & Hln & Hlg). rewrite Hc. clear Hc.
        destruct (shuffle u1 l) as [p u2] eqn:Hsh.
        repeat (lazymatch goal with |- context [range_value _ _ _ _ _ _ _ _ _ _ _] => fail | _ => step1 || settle end).
        erewrite range_aux; [|rewrite Hsite; reflexivity|rewrite Hsite; cbn [orders site_of arrange String.eqb Ascii.eqb Bool.eqb]; unfold entries; rewrite shuffle_map_, Hsh; reflexivity].
        assert (Hp : Permutation l p) by exact (shuffle_perm _ _ _ _ Hsh).
        assert (Hpn : NoDup (keys p)) by (eapply Permutation_NoDup; [apply Permutation_map; exact Hp|exact Hln]).
        match goal with |- extracts ?G _ _ => match G with context CT [rounds ?B ?C ?df ?kk ?vv _ {| env_ := [?a; ?b; ?c; ?c2; _]; doc := _; ord_w := _; ord_u := _ |}] =>
          enough (H : forall q m1 props1, holds m1 props1 -> (forall kn pi, In (kn, pi) q -> sget kn l = Some pi) ->
            (forall kn, sget kn (merged q props1) = sget kn (merged info props)) ->
            extracts ltac:(let g := context CT [rounds B C df kk vv (entries VProp q) {| env_ := [a; b; c; c2; [("props", VMap m1); ("t", VType (RV false g))]]; doc := d; ord_w := w; ord_u := u2 |}] in exact g)
            (extract_list extract rest (merged info props)) (fun u' => {| env_ := e; doc := d; ord_w := w; ord_u := u' |}))
        end end.
        { refine (H p m props Hm _ _).
          - intros kn pi Hi. rewrite (perm_get _ _ kn Hp Hln). apply nodup_sget; assumption.
          - intro kn. rewrite (merged_get _ _ _ Hpn), <- (perm_get _ _ kn Hp Hln), Hlg, merged_get; [reflexivity|]. apply ssorted_nodup. exact (extract_sorted _ _ Hx). }
        clear Hp Hpn Hsh p. induction q as [|[kn pi] q IHq]; intros m1 props1 Hm1 Hin Heq.
        * cbn [entries map rounds]. steps. refine (IH' _ _ _ (holds_ext _ _ _ Hm1 Heq)).
        * cbn [entries map fst snd]. fold (entries VProp q). round1. rewrite m_get_entries, (Hin kn pi (or_introl eq_refl)). cbn [option_map].
          steps. refine (IHq _ _ (holds_put _ _ _ _ Hm1) _ Heq). intros kn' pi' Hi. apply Hin. right. exact Hi.
      + destruct fexp; steps; cbn [negb].
        2: { exact (IH' _ _ _ Hm). }
        destruct (same_str ftag "-") eqn:Hdash; steps; unfold same_str in Hdash; rewrite Hdash.
        { exact (IH' _ _ _ Hm). }
        destruct (implements_is fifc x) as (p1 & p2 & Hi1 & Hi2 & Hmb).
        assert (H0 : byte_at 0 "" = None) by reflexivity.
        steps. rewrite Hmb. clear Hi1 Hi2 Hmb.
        destruct p1; cbn [orb]; steps;
          (destruct ftag as [|c0 r0]; [steps; exact (IH' _ _ _ (holds_put _ _ _ _ Hm))|]);
          assert (Hb0 : byte_at 0 (String c0 r0) = Some (byte c0)) by reflexivity;
          steps; rewrite Hb0; steps; rewrite byte_comma; unfold prop_name; cbn [f_tag f_name];
          (destruct (Ascii.eqb c0 ",") eqn:Hc; [steps; exact (IH' _ _ _ (holds_put _ _ _ _ Hm))|]); steps; unfold for_rest;
          change ("j", VInt 0) with ("j", VInt (Z.of_nat 0));
          change ("flen", VInt 0) with ("flen", VInt (Z.of_nat 0));
          (rewrite (tag_loop _ _ _ _ (String c0 r0) _ _ _ _ _ (String c0 r0) "" 0%nat 0%nat); [|reflexivity|reflexivity|cbn; lia]);
          assert (Hl : (tag_flen 0 0 (String c0 r0) + 1 <= String.length (String c0 r0))%nat)
            by (cbn [tag_flen]; rewrite Hc; pose proof (flen_bound r0 1 0 ltac:(lia)); cbn [String.length]; lia);
          remember (tag_flen 0 0 (String c0 r0)) as fl eqn:Efl; clear Efl;
          assert (Hl0 : 0 <=? Z.of_nat fl + 1 = true) by (apply Z.leb_le; lia);
          assert (Hl1 : Z.of_nat fl + 1 <=? slen (String c0 r0) = true) by (apply Z.leb_le; unfold slen; lia);
          assert (Hl2 : Z.to_nat (Z.of_nat fl + 1) = (fl + 1)%nat) by lia;
          steps; rewrite Hl2; exact (IH' _ _ _ (holds_put _ _ _ _ Hm)).
  Qed.
End Extract.

(** *** The registry's entry for a struct type: what Register stores (structinfo.go:94) *)
Definition src_extract (E : Constraint.env) (hit : string -> bool) (g : gval) (u : orc) : ev (list val) :=
  call_in funcs (cx_of E hit orders no_rec (fun _ => None)) (edepth g) "extract" [VType (RV false g)] (start GNil [] u).
(** for every struct type and every iteration order of the maps of embedded types: the call
    returns a map with exactly the model's entries, or panics where the model says so *)
Theorem source_extract E hit g u :
  match extract g with
  | Some props => exists l u', src_extract E hit g u = Ok [VMap (entries VProp l)] (start GNil [] u') /\
      NoDup (keys l) /\ forall k, sget k l = sget k props
  | None => exists m u', src_extract E hit g u = Ab (Panic m) (start GNil [] u')
  end.
Proof.
  pose proof (extract_call (cx_of E hit orders no_rec (fun _ => None)) eq_refl (edepth g) false g [] GNil [] u (le_n _)) as H.
  cbn [extracts] in H. unfold src_extract, start. destruct (extract g) as [props|]; cbn [extracts] in H.
  - destruct H as (m & u' & -> & l & -> & Hn & Hg). exists l, u'. auto.
  - destruct H as (m & u' & ->). now exists m, u'.
Qed.

(** a struct that embeds another, with tags and a Maybe field; the embedded type's entry
    "id" is overridden by the later field with that tag *)
Definition sfield (n tag : string) : finfo := {| f_name := n; f_exported := true; f_anon := false; f_tag := tag; f_iface := false |}.
Definition base_t : gval := GStruct "Base" [(sfield "ID" "id", GInt "int" Kint 1); (sfield "Key" ",omitempty", gstr "k")].
Definition outer_t : gval := GStruct "Outer"
  [({| f_name := "Base"; f_exported := true; f_anon := true; f_tag := ""; f_iface := false |}, base_t);
   (sfield "Num" "id,omitempty", GMaybe (MInt false 0)); (sfield "Skip" "-", gbool true)].
Example outer_source E hit :
  src_extract E hit outer_t [1]%nat = Ok [VMap (entries VProp
    [("Key", {| p_field := "Key"; p_maybe := false |}); ("id", {| p_field := "Num"; p_maybe := true |})])] (start GNil [] []) /\
  (exists m, src_extract E hit (GStruct "T" [({| f_name := "MaybeInt"; f_exported := true; f_anon := true; f_tag := ""; f_iface := false |}, GMaybe (MInt true 3))]) [] =
     Ab (Panic m) (start GNil [] [])).
Proof. split; [|eexists]; vm_compute; reflexivity. Qed.
