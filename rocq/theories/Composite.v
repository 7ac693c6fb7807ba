(** Objects and arrays, property by property (C07-C15).  No guard on the parts beyond
    what each statement says. *)
From Verif Require Import Base GoFloat FloatSpec FloatProofs GoValue Maybe Formats Constraint StructInfo Validate Fuel Reach ReadOnly Spec SpecSound SpecObj SpecMain Structure.
Open Scope Z_scope.

Definition tree (T ET : string) (m : list (string * gval)) : gval := GMap T KString true ET (Some m).
Notation "'{{' T , ET '}}' m" := (GMap T KString true ET (Some m)) (at level 60, m at level 0).

(** none of the schema dependencies can insert defaults *)
Definition quiet_deps (E : env) (o : objcfg) : Prop :=
  forall k, schema_dep o k <> CNil -> pure E (schema_dep o k).

Lemma active_spec o k : active o k = true <-> prop_deps o k = [] /\ schema_dep o k <> CNil.
Proof.
  unfold active. destruct (prop_deps o k); [|split; [discriminate|intros [? _]; discriminate]].
  destruct (schema_dep o k); split; try tauto; try discriminate; intros; split; auto; discriminate.
Qed.

Lemma quiet_chain E o ks : quiet_deps E o -> (forall k, In k ks -> active o k = true) ->
  Forall (pure E) (map (schema_dep o) ks).
Proof.
  intros Q H. apply Forall_forall. intros c Hc. apply in_map_iff in Hc. destruct Hc as (k & <- & Hk).
  apply Q. now apply active_spec, H.
Qed.

Lemma obj_pass E o T ET m w v' w' : ssorted (o_props o) -> ssorted m -> quiet_deps E o ->
  Runs E (CObj o) ({{T,ET}} m) w (Pass, v', w') ->
  exists m1, v' = {{T,ET}} m1 /\ props_sem (Passes E) E o m m1 /\ ~ dep_missing E o m /\
    forall k, seen E o m k -> prop_deps o k = [] -> schema_dep o k <> CNil -> Passes E (schema_dep o k) v' v'.
Proof.
  intros SP SM Q H. apply (obj_run E o T ET m w SP SM) in H. destruct H as (m1 & ks & PS & ND & KS & CH).
  assert (P : Forall (pure E) (map (schema_dep o) ks)) by (apply quiet_chain; auto; intros k Hk; now apply KS).
  pose proof (chain_pure E _ P _ _ CH). subst v'. exists m1. splits; auto.
  intros k S1 S2 S3. apply (chain_all E _ _ CH P). apply in_map. apply KS. split; auto. now apply active_spec.
Qed.

(** ** C07 *)
Theorem object_result E o T ET m w v' w' : ssorted (o_props o) -> ssorted m -> quiet_deps E o ->
  Runs E (CObj o) ({{T,ET}} m) w (Pass, v', w') ->
  exists m', v' = {{T,ET}} m' /\
    (forall k, In k (keys m) -> In k (keys m')) /\
    (forall k c, sget k (o_props o) = Some c -> sget k m = None ->
       is_required o k = false /\
       (forall d, Default E c d -> d <> GNil -> sget k m' = Some d) /\
       ((forall d, Default E c d -> d = GNil) -> sget k m' = None)) /\
    (forall k, sget k (o_props o) = None -> sget k m = None -> sget k m' = None).
Proof.
  intros SP SM Q H. destruct (obj_pass _ _ _ _ _ _ _ _ SP SM Q H) as (m1 & -> & PS & _). exists m1. split; auto.
  destruct PS as (_ & _ & P1 & P2). splits.
  - intros k Hk. apply sget_some_keys in Hk. destruct Hk as [x Hx]. destruct (P1 k x Hx) as (c & x' & _ & Hx' & _).
    apply sget_some_keys. eauto.
  - intros k c Hc Hk. specialize (P2 k Hk). rewrite Hc in P2. destruct P2 as [P2 P3]. splits; auto.
    + intros d HD Nd. destruct P3 as [(d' & HD' & ->)|[HN _]]; [|exfalso; eapply HN; eauto].
      assert (d' = d) by (eapply Default_det; eauto). subst d'. destruct d; congruence.
    + intros HN. destruct P3 as [(d' & HD' & ->)|[_ ->]]; auto. rewrite (HN d' HD'). reflexivity.
  - intros k Hc Hk. specialize (P2 k Hk). now rewrite Hc in P2.
Qed.

(** ** C08 *)
Theorem required_enforced E o T ET m w r v' w' k : ssorted (o_props o) -> ssorted m ->
  Runs E (CObj o) ({{T,ET}} m) w (r, v', w') ->
  In k (keys (o_props o)) -> is_required o k = true -> sget k m = None -> r <> Pass.
Proof.
  intros SP SM H HK HR HM ->. apply (obj_run E o T ET m w SP SM) in H. destruct H as (m1 & ks & (_ & _ & _ & P2) & _).
  specialize (P2 k HM). apply sget_some_keys in HK. destruct HK as [c Hc]. rewrite Hc in P2. destruct P2. congruence.
Qed.

(** a required name that is not listed changes nothing, on any value *)
Lemma props_loop_req rec gd E o o' ps : (forall k, In k (keys ps) -> is_required o k = is_required o' k) ->
  forall st w, props_loop rec gd E o ps st w = props_loop rec gd E o' ps st w.
Proof.
  induction ps as [|[k c] ps IH]; intros H st w; cbn [props_loop]; auto.
  assert (IH' := IH (fun j Hj => H j (or_intror Hj))). clear IH.
  destruct st as [[v pm] sn]. destruct (get_prop (deref1 v) k) as [pv|]; auto.
  destruct (look_prop pv) as [| |u x]; auto.
  - rewrite (H k (or_introl eq_refl)). destruct (is_required o' k); auto.
    destruct (gd c); auto. destruct (set_prop E v k d); auto.
  - destruct (rec c x w) as [[[] x'] w']; auto.
Qed.

Lemma deps_loop_eq rec o o' sn ns : (forall k, prop_deps o k = prop_deps o' k) -> (forall k, schema_dep o k = schema_dep o' k) ->
  forall v w, deps_loop rec o sn ns v w = deps_loop rec o' sn ns v w.
Proof.
  intros H1 H2. induction ns as [|k ns IH]; intros v w; cbn [deps_loop]; auto. rewrite H1, H2.
  destruct (prop_deps o' k).
  - destruct (schema_dep o' k); auto; match goal with |- context [rec ?a ?b ?d] => destruct (rec a b d) as [[[] ?] ?]; auto end.
  - destruct (missing_dep sn _); auto.
Qed.

Lemma obj_validate_req rec gd E o k v w : ~ In k (keys (o_props o)) ->
  obj_validate rec gd E (obj_required [k] o) v w = obj_validate rec gd E o v w.
Proof.
  intros N. unfold obj_validate. cbn [o_min o_max o_props o_pats o_add obj_required].
  destruct (get_names (deref1 v)); auto.
  destruct (_ && _); auto. destruct (_ && _); auto.
  destruct (shuffle w (o_props o)) as [ps w1] eqn:Sh. apply shuffle_perm in Sh.
  rewrite (props_loop_req rec gd E (obj_required [k] o) o).
  { destruct (props_loop _ _ _ o _ _ _) as [[[] st1] w2]; auto. destruct (shuffle w2 (o_pats o)) as [pats w3].
    destruct (pats_loop _ _ _ _ _) as [[[] [[v4 pm] sn]] w4]; auto. set (r5 := match pm with [] => _ | _ :: _ => _ end).
    destruct r5 as [[[] v6] w6]; auto. destruct (shuffle w6 sn) as [ns w7]. now apply deps_loop_eq. }
  intros j Hj. assert (Nj : j <> k).
  { intros ->. apply N. revert Hj. apply Permutation_in, Permutation_map, Permutation_sym, Sh. }
  unfold is_required, obj_required. cbn [o_req fold_left]. rewrite sget_sset_other; auto.
Qed.

Theorem required_unlisted_ignored E o k v w out : ~ In k (keys (o_props o)) ->
  (Runs E (CObj (obj_required [k] o)) v w out <-> Runs E (CObj o) v w out).
Proof.
  intros N. split; intros (n & H & HN); (destruct n as [|n]; [subst out; cbn in HN; congruence|]);
    exists (S n); (split; [|exact HN]); cbn [validate] in *.
  - now rewrite obj_validate_req in H.
  - now rewrite obj_validate_req.
Qed.

(** ** C09 *)
Theorem propdeps_enforced E o T ET m w v' w' k d : ssorted (o_props o) -> ssorted m ->
  Runs E (CObj o) ({{T,ET}} m) w (Pass, v', w') ->
  seen E o m k -> In d (prop_deps o k) -> seen E o m d.
Proof.
  intros SP SM H S D. apply (obj_run E o T ET m w SP SM) in H. destruct H as (m1 & ks & _ & ND & _).
  destruct (in_dec string_dec d (keys m)) as [I|NI].
  - destruct (in_dec string_dec d (keys (o_props o))) as [IP|NP]; [split; auto|].
    destruct (matched_dec E (o_pats o) d) as [MM|NM]; [split; auto|].
    exfalso. apply ND. exists k, d. splits; auto. intros [_ [?|(p & c & H1 & H2)]]; [contradiction|].
    rewrite (NM p c H1) in H2. discriminate.
  - exfalso. apply ND. exists k, d. splits; auto. intros [? _]. contradiction.
Qed.

(** ** C10 *)
Theorem schemadeps_enforced E o T ET m w v' w' k : ssorted (o_props o) -> ssorted m -> quiet_deps E o ->
  Runs E (CObj o) ({{T,ET}} m) w (Pass, v', w') ->
  seen E o m k -> prop_deps o k = [] -> schema_dep o k <> CNil -> Passes E (schema_dep o k) v' v'.
Proof.
  intros SP SM Q H. destruct (obj_pass _ _ _ _ _ _ _ _ SP SM Q H) as (m1 & -> & _ & _ & D). apply D.
Qed.

(** ** C11 *)
(** neither listed nor matched by a pattern *)
Definition extra (E : env) (o : objcfg) (k : string) : Prop :=
  sget k (o_props o) = None /\ forall p c, In (p, c) (o_pats o) -> e_rx E (snd p) k = false.

Theorem additional_checked E o T ET m w v' w' k x : ssorted (o_props o) -> ssorted m ->
  Runs E (CObj o) ({{T,ET}} m) w (Pass, v', w') ->
  sget k m = Some x -> extra E o k -> o_add o <> CNil /\ exists x', Passes E (o_add o) x x'.
Proof.
  intros SP SM H Hx [X1 X2]. apply (obj_run E o T ET m w SP SM) in H. destruct H as (m1 & ks & (_ & _ & P1 & _) & _).
  destruct (P1 k x Hx) as (c & x' & G & _ & A). unfold governs in G. rewrite X1 in G.
  destruct G as [(p & Hp & Hr)|(_ & -> & NC)]; [rewrite (X2 _ _ Hp) in Hr; discriminate|].
  split; auto. exists x'. auto.
Qed.

Theorem listed_checked E o T ET m w v' w' k x c : ssorted (o_props o) -> ssorted m ->
  Runs E (CObj o) ({{T,ET}} m) w (Pass, v', w') ->
  sget k m = Some x -> sget k (o_props o) = Some c -> exists x', Passes E c x x'.
Proof.
  intros SP SM H Hx HC. apply (obj_run E o T ET m w SP SM) in H. destruct H as (m1 & ks & (_ & _ & P1 & _) & _).
  destruct (P1 k x Hx) as (c' & x' & G & _ & A). unfold governs in G. rewrite HC in G. subst. eauto.
Qed.

(** some matching pattern's constraint is enforced on an unlisted property (not all: C03) *)
Theorem matched_checked E o T ET m w v' w' k x p c : ssorted (o_props o) -> ssorted m ->
  Runs E (CObj o) ({{T,ET}} m) w (Pass, v', w') ->
  sget k m = Some x -> sget k (o_props o) = None -> In (p, c) (o_pats o) -> e_rx E (snd p) k = true ->
  exists p' c' x', In (p', c') (o_pats o) /\ e_rx E (snd p') k = true /\ Passes E c' x x'.
Proof.
  intros SP SM H Hx HC HP HR. apply (obj_run E o T ET m w SP SM) in H. destruct H as (m1 & ks & (_ & _ & P1 & _) & _).
  destruct (P1 k x Hx) as (c' & x' & G & _ & A). unfold governs in G. rewrite HC in G.
  destruct G as [(p' & Hp & Hr)|(N & _)]; [|rewrite (N _ _ HP) in HR; discriminate].
  exists p', c', x'. auto.
Qed.

(** when nothing is additional, AdditionalProperties plays no role *)
Lemma props_loop_add rec gd E o c ps : forall st w,
  props_loop rec gd E (obj_additional c o) ps st w = props_loop rec gd E o ps st w.
Proof. intros. now apply props_loop_req. Qed.

Theorem additional_irrelevant E o c T ET m w out : ssorted (o_props o) -> ssorted m ->
  (forall k, In k (keys m) -> ~ extra E o k) ->
  (Runs E (CObj (obj_additional c o)) ({{T,ET}} m) w out <-> Runs E (CObj o) ({{T,ET}} m) w out).
Proof.
  intros SP SM X.
  assert (G : forall n, validate (S n) E (CObj (obj_additional c o)) ({{T,ET}} m) w = validate (S n) E (CObj o) ({{T,ET}} m) w).
  { intros n. cbn [validate]. unfold obj_validate. cbn [o_min o_max o_props o_pats obj_additional].
    cbn [deref1 valueOf elem get_names].
    destruct (_ && _); auto. destruct (_ && _); auto.
    destruct (shuffle w (o_props o)) as [ps w1] eqn:Sh. apply shuffle_perm in Sh.
    rewrite props_loop_add.
    assert (NDP : NoDup (keys ps)) by (eapply perm_nodup_keys; eauto; now apply ssorted_nodup).
    assert (NK : NoDup (keys m)) by (now apply ssorted_nodup).
    pose proof (props_loop_sound E (Passes E) (Fails E) (validate n E) (fun _ => True) (fun _ => True) True (step_K E n)
      (get_default n E) ltac:(intros; eapply get_default_sound; eauto) ltac:(intros; eapply get_default_none; eauto) (fun _ _ _ => I)
      T ET o ps NDP ltac:(apply Forall_forall; auto) (fun _ _ _ _ _ => I) m (keys m) [] w1 (conj SM (fun _ _ _ => I)) NK) as PL.
    destruct (props_loop _ _ E o ps _ w1) as [[[] st1] w2]; auto. cbn [good] in PL.
    destruct PL as (m1 & pm1 & sn1 & -> & J1 & N1 & H1 & H2 & H3 & H4).
    destruct (shuffle w2 (o_pats o)) as [pats w3] eqn:Sh2. apply shuffle_perm in Sh2.
    assert (KP1 : forall k, In k (keys ps) <-> In k (keys (o_props o))).
    { intros k. split; apply Permutation_in; [apply Permutation_sym|]; now apply Permutation_map. }
    assert (P1 : forall k, In k pm1 -> In k (keys m) /\ ~ In k (keys (o_props o))).
    { intros k Hk. apply H3 in Hk. destruct Hk as [Hk Nk]. split; auto. intros Hp. apply Nk. split; [now apply KP1|].
      apply sget_some_keys in Hk. destruct Hk. congruence. }
    assert (P1' : forall k, In k pm1 -> sget k m1 <> None).
    { intros k Hk. apply P1 in Hk. destruct Hk as [Hk Nk]. rewrite H1 by (rewrite KP1; auto).
      apply sget_some_keys in Hk. destruct Hk. congruence. }
    pose proof (pats_loop_sound E (Passes E) (Fails E) (validate n E) (fun _ => True) (fun _ => True) True (step_K E n)
      T ET pats ltac:(apply Forall_forall; auto) m1 pm1 sn1 w3 J1 N1 P1') as PT.
    destruct (pats_loop _ E pats _ w3) as [[[] st2] w4]; auto. cbn [good] in PT.
    destruct PT as (m2 & pm2 & sn2 & -> & J2 & N2 & G1 & G2 & G3 & G4).
    destruct pm2 as [|k0 pm2].
    - destruct (shuffle w4 sn2) as [ns w7]. now apply deps_loop_eq.
    - exfalso. assert (Hk : In k0 (k0 :: pm2)) by now left. apply G3 in Hk. destruct Hk as [Hk NM].
      apply P1 in Hk. destruct Hk as [Hk NP]. apply (X k0 Hk). split; [now apply sget_none_keys|].
      intros p c0 Hp. destruct (e_rx E (snd p) k0) eqn:Rx; auto. exfalso. apply NM. exists p, c0. split; auto.
      revert Hp. now apply Permutation_in. }
  split; intros (n & H & HN); (destruct n as [|n]; [subst out; cbn in HN; congruence|]); exists (S n); (split; [|exact HN]).
  - now rewrite <- G.
  - now rewrite G.
Qed.

(** ** C12 *)
Theorem count_pass E o T ET m w v' w' : ssorted (o_props o) -> ssorted m ->
  Runs E (CObj o) ({{T,ET}} m) w (Pass, v', w') ->
  (0 <= o_min o -> o_min o <= Z.of_nat (List.length m)) /\ (0 <= o_max o -> Z.of_nat (List.length m) <= o_max o).
Proof.
  intros SP SM H. apply (obj_run E o T ET m w SP SM) in H. destruct H as (m1 & ks & (P & _) & _). exact P.
Qed.

Theorem count_fail E o T ET m w r v' w' :
  Runs E (CObj o) ({{T,ET}} m) w (r, v', w') ->
  (0 <= o_min o /\ Z.of_nat (List.length m) < o_min o) \/ (0 <= o_max o /\ o_max o < Z.of_nat (List.length m)) ->
  exists msg, r = Fail msg /\ v' = {{T,ET}} m.
Proof.
  intros H C. apply runs_succ in H. destruct H as [n H]. cbn [validate] in H. unfold obj_validate in H.
  cbn [deref1 valueOf elem get_names] in H.
  assert (LK : List.length (keys m) = List.length m) by apply map_length. rewrite LK in H.
  destruct ((-1 <? o_min o) && _) eqn:B1; [injection H as <- <- <-; eauto|].
  destruct ((-1 <? o_max o) && _) eqn:B2; [injection H as <- <- <-; eauto|].
  lia.
Qed.

(** ** C13 *)
Theorem array_only_slices E a v w r v' w' : (forall T i l, v <> GSlice T i l) ->
  Runs E (CArr a) v w (r, v', w') -> exists m, r = Fail m.
Proof.
  intros N H. apply runs_succ in H. destruct H as [n H]. cbn [validate] in H. unfold arr_validate in H.
  destruct v; try (injection H as <- <- <-; eauto; fail). exfalso. eapply N; eauto.
Qed.

Definition items_of (l : option (list gval)) : list gval := match l with Some l => l | None => [] end.

Lemma nth_forall2 {X Y} (P : X -> Y -> Prop) (l : list X) : forall l', List.length l' = List.length l ->
  (forall j x y, nth_error l j = Some x -> nth_error l' j = Some y -> P x y) -> Forall2 P l l'.
Proof.
  induction l as [|x l IH]; intros [|y l'] L H; cbn in L; try discriminate; constructor.
  - exact (H 0%nat x y eq_refl eq_refl).
  - apply IH; [lia|]. intros j. exact (H (S j)).
Qed.

Lemma elem_items a c n j : a_items a = c -> c <> CNil -> elem_cs a n j = [c].
Proof. intros H N. unfold elem_cs. rewrite H. destruct c; congruence. Qed.

Lemma chain_one A c v v' : Chain A [c] v v' <-> A c v v'.
Proof.
  split.
  - inversion 1 as [|? ? ? ? ? HA HC]; subst. inversion HC; subst. auto.
  - intros. econstructor; eauto. constructor.
Qed.

Theorem array_items E a c T i ol w r v' w' : a_items a = c -> c <> CNil ->
  Runs E (CArr a) (GSlice T i ol) w (r, v', w') ->
  let l := items_of ol in let n := Z.of_nat (List.length l) in
  match r with
  | Pass => (0 <= a_min a -> a_min a <= n) /\ (0 <= a_max a -> n <= a_max a) /\
            (a_uniq a = true -> NoDup (map (sprint E true) l)) /\
            exists ol', v' = GSlice T i ol' /\ Forall2 (Passes E c) l (items_of ol')
  | Fail _ => ~ ((0 <= a_min a -> a_min a <= n) /\ (0 <= a_max a -> n <= a_max a)) \/
              (a_uniq a = true /\ ~ NoDup (map (sprint E true) l)) \/
              Exists (Fails E c) l
  | _ => True
  end.
Proof.
  intros HI NC H. apply arr_run in H. cbv zeta. destruct r; auto; cbn [arr_sem] in H; fold (items_of ol) in H.
  - destruct H as ((W1 & W2) & U & TM & l' & -> & L & CH). splits; auto.
    exists (match ol with None => None | Some _ => Some l' end). split; auto.
    assert (items_of (match ol with None => None | Some _ => Some l' end) = l') as ->.
    { destruct ol; cbn in *; auto. destruct l'; [auto|discriminate]. }
    apply nth_forall2; auto. intros j x y Hx Hy. specialize (CH j x y Hx Hy).
    rewrite (elem_items a c) in CH by auto. now apply chain_one.
  - destruct H as [H|[H|[H|(j & x & c1 & c0 & c2 & x1 & H1 & H2 & H3 & H4)]]]; auto.
    + destruct H as [H _]. congruence.
    + right. right. rewrite (elem_items a c) in H2 by auto.
      destruct c1 as [|c1 cs]; [|destruct cs; discriminate]. injection H2 as <- <-.
      inversion H3; subst. apply Exists_exists. exists x1. split; auto. eapply nth_error_In; eauto.
Qed.

(** ** C14: the exact condition *)
Theorem array_positional E a T i ol w r v' w' : a_items a = CNil ->
  Runs E (CArr a) (GSlice T i ol) w (r, v', w') ->
  let l := items_of ol in let n := List.length l in let k := List.length (a_pos a) in
  r = Pass ->
  (* surplus elements are allowed only with an AdditionalItems constraint *)
  ((0 < k < n)%nat -> a_add a <> CNil) /\
  exists ol', v' = GSlice T i ol' /\ List.length (items_of ol') = n /\
  forall j x x', nth_error l j = Some x -> nth_error (items_of ol') j = Some x' ->
    match nth_error (a_pos a) j with
    | Some c =>
        if (k <? n)%nat && (S j =? k)%nat                        (* the last position *)
        then exists y, Passes E c x y /\ Passes E (a_add a) y x'   (* checked twice *)
        else Passes E c x x'
    | None => (0 < k)%nat -> Passes E (a_add a) x x'
    end.
Proof.
  intros HI H. cbv zeta. intros ->. apply arr_run in H. cbn [arr_sem] in H. fold (items_of ol) in H.
  destruct H as (_ & _ & TM & l' & -> & L & CH). split.
  - intros K HA. apply TM. split; auto.
  - exists (match ol with None => None | Some _ => Some l' end). split; auto.
    assert (items_of (match ol with None => None | Some _ => Some l' end) = l') as ->.
    { destruct ol; cbn in *; auto. destruct l'; [auto|discriminate]. }
    split; auto. intros j x x' Hx Hy. specialize (CH j x x' Hx Hy). unfold elem_cs in CH. rewrite HI in CH.
    assert (Lj : (j < List.length (items_of ol))%nat) by (apply nth_error_Some; congruence).
    destruct (nth_error (a_pos a) j) as [c|] eqn:Nj.
    + assert (Lk : (j < List.length (a_pos a))%nat) by (apply nth_error_Some; congruence).
      rewrite (proj2 (Nat.ltb_lt 0 _)) in CH by lia. cbn [andb] in CH.
      destruct (Nat.ltb_spec (List.length (a_pos a)) (List.length (items_of ol))); cbn [andb app] in *.
      * destruct (Nat.leb_spec (List.length (a_pos a) - 1) j), (Nat.eqb_spec (S j) (List.length (a_pos a))); try lia.
        -- inversion CH as [|? ? ? y ? H1 H2]; subst. exists y. split; auto. now apply chain_one.
        -- now apply chain_one.
      * now apply chain_one.
    + intros K. apply nth_error_None in Nj. cbn [app] in CH.
      rewrite (proj2 (Nat.ltb_lt 0 _)), (proj2 (Nat.ltb_lt _ _)), (proj2 (Nat.leb_le _ _)) in CH by lia.
      now apply chain_one.
Qed.

Theorem array_positional_fail E a T i ol w m v' w' : a_items a = CNil ->
  Runs E (CArr a) (GSlice T i ol) w (Fail m, v', w') ->
  let l := items_of ol in let n := List.length l in let k := List.length (a_pos a) in
  ~ ((0 <= a_min a -> a_min a <= Z.of_nat n) /\ (0 <= a_max a -> Z.of_nat n <= a_max a)) \/
  (a_uniq a = true /\ ~ NoDup (map (sprint E true) l)) \/
  ((0 < k < n)%nat /\ a_add a = CNil) \/
  exists j x, nth_error l j = Some x /\
    ((exists c, nth_error (a_pos a) j = Some c /\ Fails E c x) \/
     ((0 < k < n)%nat /\ (k <= S j)%nat /\ exists y,
        (nth_error (a_pos a) j = None /\ y = x \/ exists c, nth_error (a_pos a) j = Some c /\ Passes E c x y) /\
        Fails E (a_add a) y)).
Proof.
  intros HI H. cbv zeta. apply arr_run in H. cbn [arr_sem] in H. fold (items_of ol) in H.
  destruct H as [H|[H|[H|(j & x & c1 & c0 & c2 & x1 & H1 & H2 & H3 & H4)]]]; auto.
  - right. right. left. destruct H as (_ & H1 & H2). auto.
  - right. right. right. exists j, x. split; auto. unfold elem_cs in H2. rewrite HI in H2.
    destruct (nth_error (a_pos a) j) as [c|] eqn:Nj.
    + cbn [app] in H2. destruct c1 as [|c' c1].
      * injection H2 as <- _. inversion H3; subst. left. exists c. auto.
      * injection H2 as <- H2. inversion H3 as [|? ? ? y ? A1 A2]; subst.
        destruct (_ && _ && _) eqn:B; [|destruct c1; discriminate].
        destruct c1 as [|c'' c1]; [|destruct c1; discriminate]. injection H2 as <- _. inversion A2; subst.
        apply andb_prop in B. destruct B as [B B3]. apply andb_prop in B. destruct B as [B1 B2].
        apply Nat.ltb_lt in B1, B2. apply Nat.leb_le in B3.
        right. splits; auto; try lia. exists x1. split; auto. right. exists c. auto.
    + cbn [app] in H2. destruct (_ && _ && _) eqn:B; [|destruct c1; discriminate].
      destruct c1 as [|c'' c1]; [|destruct c1; discriminate]. injection H2 as <- _. inversion H3; subst.
      apply andb_prop in B. destruct B as [B B3]. apply andb_prop in B. destruct B as [B1 B2].
      apply Nat.ltb_lt in B1, B2. apply Nat.leb_le in B3.
      right. splits; auto; try lia. exists x1. split; auto.
Qed.

(** ** C15 *)
Theorem unique_rejects E a T i l w r v' w' j1 j2 x : a_uniq a = true ->
  nth_error l j1 = Some x -> nth_error l j2 = Some x -> j1 <> j2 ->
  Runs E (CArr a) (GSlice T i (Some l)) w (r, v', w') -> exists m, r = Fail m.
Proof.
  intros U N1 N2 NE H. apply runs_succ in H. destruct H as [n H]. cbn [validate] in H. unfold arr_validate in H.
  destruct (_ && _); [injection H as <- <- <-; eauto|].
  destruct (_ && _); [injection H as <- <- <-; eauto|].
  assert (UL : uniq_loop E [] l = false).
  { destruct (uniq_loop E [] l) eqn:UL; auto. apply uniq_loop_spec in UL. destruct UL as [ND _].
    exfalso. apply NE. eapply (proj1 (NoDup_nth_error _) ND).
    - rewrite map_length. apply nth_error_Some. congruence.
    - erewrite !map_nth_error; eauto. }
  rewrite U, UL in H. cbn [andb negb] in H. injection H as <- <- <-. eauto.
Qed.

(** on slices of pairwise different strings UniqueItems imposes nothing *)
Theorem unique_strings E a T i ss w out : NoDup ss ->
  (Runs E (CArr (arr_unique true a)) (GSlice T i (Some (map gstr ss))) w out <->
   Runs E (CArr (arr_unique false a)) (GSlice T i (Some (map gstr ss))) w out).
Proof.
  intros ND.
  assert (UL : uniq_loop E [] (map gstr ss) = true).
  { apply uniq_loop_spec. split; [|auto]. rewrite map_map.
    replace (map (fun x => sprint E true (gstr x)) ss) with ss; auto.
    rewrite <- map_id at 1. apply map_ext. reflexivity. }
  assert (G : forall n, validate (S n) E (CArr (arr_unique true a)) (GSlice T i (Some (map gstr ss))) w =
                        validate (S n) E (CArr (arr_unique false a)) (GSlice T i (Some (map gstr ss))) w).
  { intros n. cbn [validate]. unfold arr_validate. cbn [a_min a_max a_uniq a_items a_pos a_add arr_unique].
    rewrite UL. cbn [negb andb]. reflexivity. }
  split; intros (n & H & HN); (destruct n as [|n]; [subst out; cbn in HN; congruence|]); exists (S n); (split; [|exact HN]).
  - now rewrite <- G.
  - now rewrite G.
Qed.
