(** When are two constraints interchangeable?  [like]: the same up to what Validate cannot
    see (absent bounds, the identities and order of patterns).  Constraints that are alike have
    the same runs: every outcome of one is an outcome of the other. *)
From Verif Require Import Base GoFloat GoValue Maybe Formats Constraint StructInfo Validate Reach ConstrInd Local.
Open Scope Z_scope.

Definition all2 {A B} (R : A -> B -> Prop) : list A -> list B -> Prop :=
  fix go l l' := match l, l' with [], [] => True | x :: r, y :: r' => R x y /\ go r r' | _, _ => False end.

Lemma all2_forall2 {A B} (R : A -> B -> Prop) l l' : all2 R l l' <-> Forall2 R l l'.
Proof.
  revert l'. induction l as [|x l IH]; intros [|y l']; cbn; split; intros H; try contradiction; auto; try (inversion H; fail).
  - destruct H. constructor; auto. now apply IH.
  - inversion H; subst. split; auto. now apply IH.
Qed.

Definition bound_like (a b : Z) : Prop := a = b \/ (a <= -1 /\ b <= -1).

Fixpoint like (c c' : constr) : Prop :=
  match c, c' with
  | CNil, CNil | CEmpty, CEmpty | CNull, CNull => True
  | CEmpty, CAll [] | CAll [], CEmpty => True
  | CBool d, CBool d' => d = d'
  | CStr d s, CStr d' s' => d = d' /\ forall E x, str_check E s x = str_check E s' x
  | CNum d m, CNum d' m' => d = d' /\ forall f, num_check m f = num_check m' f
  | CInt d m, CInt d' m' => d = d' /\ forall f, num_check m f = num_check m' f
  | CArr a, CArr a' =>
      like (a_items a) (a_items a') /\ all2 like (a_pos a) (a_pos a') /\
      (like (a_add a) (a_add a') \/ a_items a <> CNil \/ a_pos a = []) /\
      bound_like (a_min a) (a_min a') /\ bound_like (a_max a) (a_max a') /\ a_uniq a = a_uniq a'
  | CObj o, CObj o' =>
      like (o_add o) (o_add o') /\
      all2 (fun p q => fst p = fst q /\ like (snd p) (snd q)) (o_props o) (o_props o') /\
      (exists q, Permutation q (o_pats o') /\
         all2 (fun p q => snd (fst p) = snd (fst q) /\ like (snd p) (snd q)) (o_pats o) q) /\
      (forall k, is_required o k = is_required o' k) /\ (forall k, prop_deps o k = prop_deps o' k) /\
      (forall k, schema_dep o k = CNil) /\ (forall k, schema_dep o' k = CNil) /\
      o_min o <= 0 /\ o_min o' <= 0 /\ o_max o <= -1 /\ o_max o' <= -1
  | CAny l, CAny l' | CAll l, CAll l' | COneOf l, COneOf l' => all2 like l l'
  | CRef n, CRef n' => n = n'
  | _, _ => False
  end.

Lemma like_nil c c' : like c c' -> (c = CNil <-> c' = CNil).
Proof. destruct c, c'; cbn; try (intros _; split; congruence); try contradiction; destruct l; try contradiction; split; congruence. Qed.

(** [like] is symmetric *)
Lemma all2_sym {A B} (R : A -> B -> Prop) (S : B -> A -> Prop) l : forall l', (forall x y, In x l -> R x y -> S y x) -> all2 R l l' -> all2 S l' l.
Proof.
  induction l as [|x l IH]; intros [|y l'] H; cbn; auto. intros [A1 A2]. split; [apply H; cbn; auto|]. apply IH; auto. intros. apply H; cbn; auto.
Qed.

Lemma bound_sym a b : bound_like a b -> bound_like b a.
Proof. unfold bound_like. intuition. Qed.

Theorem like_sym c : forall c', like c c' -> like c' c.
Proof.
  induction c as [c IH] using constr_subs_ind. intros c' H.
  destruct c as [| | |d|d s|d m|d m|a|o|l|l|l|l|x|nm], c' as [| | |d'|d' s'|d' m'|d' m'|a'|o'|l'|l'|l'|l'|x'|nm'];
    cbn [like] in *; try contradiction; auto; try (destruct l; contradiction); try (destruct l'; contradiction).
  - destruct H as [-> H]. split; auto.
  - destruct H as [-> H]. split; auto.
  - destruct H as [-> H]. split; auto.
  - destruct H as (H1 & H2 & H3 & H4 & H5 & H6).
    assert (K1 : like (a_items a') (a_items a)) by (apply IH; cbn; auto).
    split; [exact K1|]. split; [|split; [|split; [|split]]].
    + apply (all2_sym like); auto. intros x y I. apply IH. cbn. auto.
    + destruct H3 as [H3|[H3|H3]].
      * left. apply IH; cbn; auto.
      * right; left. intros E. apply H3. apply like_nil in K1. tauto.
      * right; right. rewrite H3 in H2. destruct (a_pos a'); [reflexivity|contradiction].
    + now apply bound_sym.
    + now apply bound_sym.
    + auto.
  - destruct H as (H1 & H2 & (q & H3 & H4) & H5 & H6 & H7 & H8 & H9 & H10 & H11 & H12).
    split; [apply IH; cbn; auto|]. split.
    { apply (all2_sym (fun p q => fst p = fst q /\ like (snd p) (snd q))); auto.
      intros p r I [E L]. split; auto. apply IH; auto. cbn. right. apply in_or_app. right. apply in_or_app. left. now apply in_map. }
    split.
    { apply (all2_sym _ (fun q p => snd (fst q) = snd (fst p) /\ like (snd q) (snd p))) in H4.
      2:{ intros p r I [E L]. split; [symmetry; exact E|]. apply IH; auto. cbn. right. apply in_or_app. left. now apply in_map. }
      apply all2_forall2 in H4. destruct (Permutation_Forall2 H3 H4) as (p & P1 & P2).
      exists p. split; [now apply Permutation_sym|]. now apply all2_forall2. }
    repeat split; auto.
  - apply (all2_sym like); auto; intros x y I; now apply IH.
  - assert (H' : all2 like l l') by now destruct l. assert (all2 like l' l); [|now destruct l']. apply (all2_sym like); auto; intros x y I; now apply IH.
  - apply (all2_sym like); auto; intros x y I; now apply IH.
Qed.

(** ** Simulation *)
Lemma shuffle_sim {A} w (l : list A) p w1 : shuffle w l = (p, w1) -> exists u, forall t, shuffle (u ++ t) l = (p, t).
Proof. intros H. apply shuffle_perm in H. now apply shuffle_all. Qed.

(** [a] and [b] are parts of Validate that return a state and the rest of the oracle *)
Definition sims {A B} (a b : A -> orc -> res * B * orc) : Prop :=
  forall x w r y w', a x w = (r, y, w') -> exists u, forall t, b x (u ++ t) = (r, y, t).

Section Sim.
Variables (E0 : env) (f f' : string -> option constr).
Hypothesis HR : forall n, match f n, f' n with Some c, Some c' => like c c' | None, None => True | _, _ => False end.
Notation E := (set_refs E0 f).
Notation E' := (set_refs E0 f').

Lemma default_sim n : forall c c', like c c' -> get_default n E c = get_default n E' c'.
Proof.
  induction n as [|n IH]; intros c c' L; [reflexivity|].
  destruct c as [| | |d|d s|d m|d m|a|o|l|l|l|l|x|nm], c' as [| | |d'|d' s'|d' m'|d' m'|a'|o'|l'|l'|l'|l'|x'|nm'];
    cbn [like get_default] in *; try contradiction; auto; try (destruct L; congruence); try congruence; try (destruct l; contradiction).
  subst nm'. cbn [e_refs set_refs]. specialize (HR nm). destruct (f nm), (f' nm); try contradiction; auto.
Qed.

Section Loops.
Variables (rec rec' : recT) (gd gd' : constr -> dres).
Hypothesis IH : forall c c', like c c' -> sims (rec c) (rec' c').
Hypothesis GD : forall c c', like c c' -> gd c = gd' c'.

Ltac here u := exists u; intros t; rewrite ?app_assoc_reverse.

Lemma all_sims l l' : all2 like l l' -> sims (all_loop rec l) (all_loop rec' l').
Proof.
  revert l'. induction l as [|c l IHl]; intros [|c' l'] H v w r y w'; cbn [all_loop all2] in *; try contradiction.
  - intros X; inversion X; subst. now exists [].
  - destruct H as [Hc Hl]. destruct (rec c v w) as [[r1 v1] w1] eqn:R. apply (IH _ _ Hc) in R as [u1 R].
    destruct r1; try (intros X; inversion X; subst; exists u1; intros t; now rewrite R).
    intros X. apply (IHl l' Hl) in X as [u2 X]. here (u1 ++ u2). rewrite R. apply X.
Qed.
Lemma any_sims l l' : all2 like l l' -> sims (any_loop rec l) (any_loop rec' l').
Proof.
  revert l'. induction l as [|c l IHl]; intros [|c' l'] H v w r y w'; cbn [any_loop all2] in *; try contradiction.
  - intros X; inversion X; subst. now exists [].
  - destruct H as [Hc Hl]. destruct (rec c v w) as [[r1 v1] w1] eqn:R. apply (IH _ _ Hc) in R as [u1 R].
    destruct r1; try (intros X; inversion X; subst; exists u1; intros t; now rewrite R).
    intros X. apply (IHl l' Hl) in X as [u2 X]. here (u1 ++ u2). rewrite R. apply X.
Qed.
Lemma oneof_sims l l' : all2 like l l' -> forall k, sims (oneof_loop rec l k) (oneof_loop rec' l' k).
Proof.
  revert l'. induction l as [|c l IHl]; intros [|c' l'] H k v w r y w'; cbn [oneof_loop all2] in *; try contradiction.
  - intros X; inversion X; subst. now exists [].
  - destruct H as [Hc Hl]. destruct (rec c v w) as [[r1 v1] w1] eqn:R. apply (IH _ _ Hc) in R as [u1 R].
    destruct r1; try (intros X; inversion X; subst; exists u1; intros t; now rewrite R);
    intros X; apply (IHl l' Hl) in X as [u2 X]; here (u1 ++ u2); rewrite R; apply X.
Qed.
Lemma idx_sims js js' : all2 (fun p q => fst p = fst q /\ like (snd p) (snd q)) js js' -> sims (idx_loop rec js) (idx_loop rec' js').
Proof.
  revert js'. induction js as [|[i c] js IHl]; intros [|[i' c'] js'] H v w r y w'; cbn [idx_loop all2 fst snd] in *; try contradiction.
  - intros X; inversion X; subst. now exists [].
  - destruct H as [[<- Hc] Hl]. destruct (rec c (nth i v GNil) w) as [[r1 v1] w1] eqn:R. apply (IH _ _ Hc) in R as [u1 R].
    destruct r1; try (intros X; inversion X; subst; exists u1; intros t; now rewrite R).
    intros X. apply (IHl js' Hl) in X as [u2 X]. here (u1 ++ u2). rewrite R. apply X.
Qed.

Lemma props_sims o o' : (forall k, is_required o k = is_required o' k) -> forall ps ps',
  all2 (fun p q => fst p = fst q /\ like (snd p) (snd q)) ps ps' -> sims (props_loop rec gd E o ps) (props_loop rec' gd' E' o' ps').
Proof.
  intros RQ. induction ps as [|[k c] ps IHl]; intros [|[k' c'] ps'] H st w r y w'; cbn [props_loop all2 fst snd] in *; try contradiction.
  - intros X; inversion X; subst. now exists [].
  - destruct H as [[<- Hc] Hl]. destruct st as [[v pm] sn].
    destruct (get_prop (deref1 v) k) as [pv|]; [|intros X; inversion X; subst; now exists []].
    destruct (look_prop pv) as [| |uw x]; [intros X; inversion X; subst; now exists []| |].
    + rewrite <- (RQ k). destruct (is_required o k); [intros X; inversion X; subst; now exists []|].
      rewrite <- (GD c c' Hc). destruct (gd c); try (intros X; inversion X; subst; now exists []).
      * intros X. now apply (IHl ps' Hl) in X.
      * change (set_prop E' v k d) with (set_prop E v k d).
        destruct (set_prop E v k d); try (intros X; inversion X; subst; now exists []). intros X. now apply (IHl ps' Hl) in X.
    + destruct (rec c x w) as [[r1 v1] w1] eqn:R. apply (IH _ _ Hc) in R as [u1 R].
      destruct r1; try (intros X; inversion X; subst; exists u1; intros t; now rewrite R).
      intros X. apply (IHl ps' Hl) in X as [u2 X]. here (u1 ++ u2). rewrite R. apply X.
Qed.

Lemma inner_sims src c c' ns : like c c' -> sims (pat_inner rec E src c ns) (pat_inner rec' E' src c' ns).
Proof.
  intros Hc. induction ns as [|k ns IHl]; intros st w r y w'; cbn [pat_inner].
  - intros X; inversion X; subst. now exists [].
  - destruct st as [[v pm] sn]. change (e_rx E' src k) with (e_rx E src k). destruct (negb (e_rx E src k)); [apply IHl|].
    destruct (get_prop (deref1 v) k) as [pv|]; [|intros X; inversion X; subst; now exists []].
    destruct (interface pv) as [x|]; [|intros X; inversion X; subst; now exists []].
    destruct (rec c x w) as [[r1 v1] w1] eqn:R. apply (IH _ _ Hc) in R as [u1 R].
    destruct r1; try (intros X; inversion X; subst; exists u1; intros t; now rewrite R).
    intros X. apply IHl in X as [u2 X]. here (u1 ++ u2). rewrite R. apply X.
Qed.
Lemma pats_sims ps ps' : all2 (fun p q => snd (fst p) = snd (fst q) /\ like (snd p) (snd q)) ps ps' -> sims (pats_loop rec E ps) (pats_loop rec' E' ps').
Proof.
  revert ps'. induction ps as [|[[i src] c] ps IHl]; intros [|[[i' src'] c'] ps'] H st w r y w'; cbn [pats_loop all2 fst snd] in *; try contradiction.
  - intros X; inversion X; subst. now exists [].
  - destruct H as [[<- Hc] Hl]. destruct st as [[v pm] sn].
    destruct (shuffle w pm) as [ns w1] eqn:S1. apply shuffle_sim in S1 as [u1 S1].
    destruct (pat_inner rec E src c ns (v, pm, sn) w1) as [[r1 st1] w2] eqn:P. apply (inner_sims src c c' ns Hc) in P as [u2 P].
    destruct r1; try (intros X; inversion X; subst; here (u1 ++ u2); rewrite S1, P; reflexivity).
    intros X. apply (IHl ps' Hl) in X as [u3 X]. here (u1 ++ u2 ++ u3). rewrite S1. rewrite P. apply X.
Qed.
Lemma add_sims c c' ns : like c c' -> sims (add_loop rec c ns) (add_loop rec' c' ns).
Proof.
  intros Hc. induction ns as [|k ns IHl]; intros v w r y w'; cbn [add_loop].
  - intros X; inversion X; subst. now exists [].
  - destruct (get_prop (deref1 v) k) as [pv|]; [|intros X; inversion X; subst; now exists []].
    destruct (interface pv) as [x|]; [|intros X; inversion X; subst; now exists []].
    destruct (rec c x w) as [[r1 v1] w1] eqn:R. apply (IH _ _ Hc) in R as [u1 R].
    destruct r1; try (intros X; inversion X; subst; exists u1; intros t; now rewrite R).
    intros X. apply IHl in X as [u2 X]. here (u1 ++ u2). rewrite R. apply X.
Qed.
Lemma deps_sims o o' sn ns : (forall k, prop_deps o k = prop_deps o' k) -> (forall k, schema_dep o k = CNil) -> (forall k, schema_dep o' k = CNil) ->
  sims (deps_loop rec o sn ns) (deps_loop rec' o' sn ns).
Proof.
  intros D S S'. induction ns as [|k ns IHl]; intros v w r y w'; cbn [deps_loop].
  - intros X; inversion X; subst. now exists [].
  - rewrite <- D, S, S'. destruct (prop_deps o k); [apply IHl|].
    destruct (missing_dep sn _); [intros X; inversion X; subst; now exists []|apply IHl].
Qed.

Lemma bound_min a b n : bound_like a b -> ((-1 <? a) && (Z.of_nat n <? a))%bool = ((-1 <? b) && (Z.of_nat n <? b))%bool.
Proof.
  intros [->|[A B]]; [reflexivity|]. apply Z.ltb_ge in A, B. now rewrite A, B.
Qed.
Lemma bound_max a b n : bound_like a b -> ((-1 <? a) && (a <? Z.of_nat n))%bool = ((-1 <? b) && (b <? Z.of_nat n))%bool.
Proof.
  intros [->|[A B]]; [reflexivity|]. apply Z.ltb_ge in A, B. now rewrite A, B.
Qed.

Lemma uniq_same l : forall seen, uniq_loop E' seen l = uniq_loop E seen l.
Proof.
  induction l as [|x l IHl]; intros seen; cbn [uniq_loop]; [reflexivity|].
  rewrite (sprint_local E0 f' f x true). destruct (mem _ seen); auto.
Qed.

Lemma pos_jobs l l' : all2 like l l' -> forall s, all2 (fun p q : nat * constr => fst p = fst q /\ like (snd p) (snd q)) (combine s l) (combine s l').
Proof.
  revert l'. induction l as [|c l IHl]; intros [|c' l'] H s; cbn in H; try contradiction; destruct s; cbn; auto.
  destruct H. repeat split; auto.
Qed.
Lemma same_jobs c c' : like c c' -> forall s : list nat, all2 (fun p q : nat * constr => fst p = fst q /\ like (snd p) (snd q)) (map (fun i => (i, c)) s) (map (fun i => (i, c')) s).
Proof. intros H s. induction s; cbn; auto. Qed.
Lemma all2_length {A B} (R : A -> B -> Prop) l l' : all2 R l l' -> List.length l = List.length l'.
Proof. revert l'. induction l; intros [|y l']; cbn; try tauto. intros [_ H]. f_equal. auto. Qed.

Definition islice T ifc (ol : option (list gval)) l' := GSlice T ifc (match ol with None => None | Some _ => Some l' end).
Definition finish_ (T : string) ifc ol (x : res * list gval * orc) : out := let '(r, l, w) := x in (r, islice T ifc ol l, w).

Lemma finish_sims T ifc ol js js' xs w o : all2 (fun p q : nat * constr => fst p = fst q /\ like (snd p) (snd q)) js js' ->
  finish_ T ifc ol (idx_loop rec js xs w) = o -> exists u, forall t, finish_ T ifc ol (idx_loop rec' js' xs (u ++ t)) = (fst o, t).
Proof.
  intros L <-. destruct (idx_loop rec js xs w) as [[r0 l1] w1] eqn:X. apply (idx_sims _ _ L) in X as [u X]. exists u. intros t. now rewrite X.
Qed.

Lemma slice_sims a a' T ifc ol w r y w' : like (CArr a) (CArr a') ->
  arr_validate rec E a (GSlice T ifc ol) w = (r, y, w') -> exists u, forall t, arr_validate rec' E' a' (GSlice T ifc ol) (u ++ t) = (r, y, t).
Proof.
  cbn [like]. intros (L1 & L2 & L3 & L4 & L5 & L6). unfold arr_validate.
  set (xs := match ol with None => [] | Some l => l end).
  rewrite (bound_min _ _ _ L4), (bound_max _ _ _ L5), L6, (uniq_same xs).
  match goal with |- context [if ?b then _ else _] => destruct b; [intros X; inversion X; subst; now exists []|] end.
  match goal with |- context [if ?b then _ else _] => destruct b; [intros X; inversion X; subst; now exists []|] end.
  match goal with |- context [if ?b then _ else _] => destruct b; [intros X; inversion X; subst; now exists []|] end.
  destruct (a_items a) eqn:EA; [|
    (intros Y; apply (finish_sims T ifc ol _ _ _ _ _ (same_jobs _ _ L1 _)) in Y as [u Y]; exists u; intros t; specialize (Y t);
     assert (NA : a_items a' <> CNil) by (intros Z; apply (like_nil _ _ L1) in Z; discriminate Z);
     destruct (a_items a'); try congruence; exact Y) ..].
  assert (EA' : a_items a' = CNil) by (apply (like_nil CNil); auto). rewrite EA'.
  destruct (idx_loop rec (positional_jobs (a_pos a) (List.length xs)) xs w) as [[r0 l1] w1] eqn:X.
  apply (idx_sims _ _ (pos_jobs _ _ L2 _)) in X as [u X]. unfold positional_jobs in X |- *.
  rewrite <- (all2_length _ _ _ L2).
  destruct r0; try (intros Y; inversion Y; subst; exists u; intros t; rewrite X; reflexivity).
  destruct ((0 <? List.length (a_pos a))%nat && (List.length (a_pos a) <? List.length xs)%nat)%bool eqn:B.
  2:{ intros Y; inversion Y; subst; exists u; intros t; rewrite X; reflexivity. }
  assert (L3' : like (a_add a) (a_add a')).
  { destruct L3 as [L3|[L3|L3]]; [auto|congruence|]. rewrite L3 in B. discriminate. }
  destruct (a_add a) eqn:AA; [
    assert (AA' : a_add a' = CNil) by (apply (like_nil CNil); auto); rewrite AA'; intros Y; inversion Y; subst; exists u; intros t; rewrite X; reflexivity|
    (intros Y; apply (finish_sims T ifc ol _ _ _ _ _ (same_jobs _ _ L3' _)) in Y as [u2 Y]; exists (u ++ u2); intros t; rewrite <- app_assoc, X;
     specialize (Y t); assert (NA : a_add a' <> CNil) by (intros Z; apply (like_nil _ _ L3') in Z; discriminate Z);
     destruct (a_add a'); try congruence; exact Y) ..].
Qed.

Lemma arr_sims a a' : like (CArr a) (CArr a') -> sims (arr_validate rec E a) (arr_validate rec' E' a').
Proof.
  intros L v w r y w' H. destruct v; try (inversion H; subst; now exists []). eapply slice_sims; eauto.
Qed.

Lemma obj_sims o o' : like (CObj o) (CObj o') -> sims (obj_validate rec gd E o) (obj_validate rec' gd' E' o').
Proof.
  cbn [like]. intros (L1 & L2 & (q & L3 & L4) & L5 & L6 & L7 & L8 & L9 & L10 & L11 & L12) v w r y w'. unfold obj_validate.
  destruct (get_names (deref1 v)) as [fields|m|m]; try (intros X; inversion X; subst; now exists []).
  assert (M : forall z, z <= 0 -> ((-1 <? z) && (Z.of_nat (List.length fields) <? z))%bool = false).
  { intros z Z. apply andb_false_iff. right. apply Z.ltb_ge. lia. }
  assert (M2 : forall z, z <= -1 -> ((-1 <? z) && (z <? Z.of_nat (List.length fields)))%bool = false).
  { intros z Z. apply andb_false_iff. left. apply Z.ltb_ge. lia. }
  rewrite !M, !M2 by auto.
  destruct (shuffle w (o_props o)) as [ps w1] eqn:S1. apply shuffle_perm in S1.
  apply all2_forall2 in L2. destruct (Permutation_Forall2 S1 L2) as (ps' & Q1 & F1). apply all2_forall2 in F1.
  destruct (shuffle_all ps' _ Q1) as [u1 U1].
  destruct (props_loop rec gd E o ps (v, fields, []) w1) as [[r1 [[v2 pm2] sn2]] w2] eqn:P1.
  apply (props_sims o o' L5 ps ps' F1) in P1 as [u2 U2].
  destruct r1; try (intros X; inversion X; subst; exists (u1 ++ u2); intros t; rewrite <- app_assoc, U1, U2; reflexivity).
  destruct (shuffle w2 (o_pats o)) as [pts w3] eqn:S2. apply shuffle_perm in S2.
  apply all2_forall2 in L4. destruct (Permutation_Forall2 S2 L4) as (pts' & Q2 & F2). apply all2_forall2 in F2.
  destruct (shuffle_all pts' (o_pats o')) as [u3 U3]; [rewrite <- L3; exact Q2|].
  destruct (pats_loop rec E pts (v2, pm2, sn2) w3) as [[r2 [[v4 pm4] sn4]] w4] eqn:P2.
  apply (pats_sims pts pts' F2) in P2 as [u4 U4].
  destruct r2; try (intros X; inversion X; subst; exists (u1 ++ u2 ++ u3 ++ u4); intros t; rewrite <- !app_assoc, U1, U2, U3, U4; reflexivity).
  set (r5 := match pm4 with [] => (Pass, v4, w4) | _ :: _ => match o_add o with CNil => (Fail "additional properties are not allowed", v4, w4)
              | c => let '(ns, w5) := shuffle w4 pm4 in add_loop rec c ns v4 w5 end end).
  cbv zeta.
  assert (R5 : exists u5, forall t, match pm4 with [] => (Pass, v4, u5 ++ t) | _ :: _ => match o_add o' with CNil => (Fail "additional properties are not allowed", v4, u5 ++ t)
              | c => let '(ns, w5) := shuffle (u5 ++ t) pm4 in add_loop rec' c ns v4 w5 end end = (fst r5, t)).
  { unfold r5. destruct pm4 as [|k pm4]; [now exists []|].
    destruct (o_add o) eqn:AA; [assert (AA' : o_add o' = CNil) by (apply (like_nil CNil); auto); rewrite AA'; now exists []|
      (destruct (shuffle w4 (k :: pm4)) as [ns w5] eqn:S3; apply shuffle_sim in S3 as [u5 S3];
       match goal with |- context [add_loop rec ?c ns v4 w5] => destruct (add_loop rec c ns v4 w5) as [[r6 v6] w6] eqn:A6 end;
       apply (add_sims _ _ ns L1) in A6 as [u6 A6]; exists (u5 ++ u6); intros t; rewrite <- app_assoc;
       assert (NA : o_add o' <> CNil) by (intros Z; apply (like_nil _ _ L1) in Z; discriminate Z);
       destruct (o_add o') eqn:BB; try congruence; rewrite S3; exact (A6 t)) ..]. }
  destruct R5 as [u5 U5]. destruct r5 as [[r5 v6] w6]. cbn [fst] in U5.
  destruct r5; try (intros X; inversion X; subst; exists (u1 ++ u2 ++ u3 ++ u4 ++ u5); intros t; rewrite <- !app_assoc, U1, U2, U3, U4, U5; reflexivity).
  destruct (shuffle w6 sn4) as [ns w7] eqn:S4. apply shuffle_sim in S4 as [u6 U6]. intros X.
  apply (deps_sims o o' sn4 ns L6 L7 L8) in X as [u7 U7].
  exists (u1 ++ u2 ++ u3 ++ u4 ++ u5 ++ u6 ++ u7). intros t. rewrite <- !app_assoc, U1, U2, U3, U4, U5, U6. apply U7.
Qed.
End Loops.

Theorem validate_sim n : forall c c', like c c' -> sims (validate n E c) (validate n E' c').
Proof.
  induction n as [|n IH]; intros c c' L.
  - intros v w r y w' H. inversion H; subst. now exists [].
  - destruct c as [| | |d|d s|d m|d m|a|o|l|l|l|l|x|nm], c' as [| | |d'|d' s'|d' m'|d' m'|a'|o'|l'|l'|l'|l'|x'|nm'];
      try contradiction; try (cbn in L; destruct l; contradiction); try (cbn in L; destruct l'; contradiction).
    + intros v w r y w' H. inversion H; subst. now exists [].
    + intros v w r y w' H. inversion H; subst. now exists [].
    + cbn in L. destruct l'; [|contradiction]. intros v w r y w' H. inversion H; subst. now exists [].
    + intros v w r y w' H. inversion H; subst. now exists [].
    + intros v w r y w' H. inversion H; subst. now exists [].
    + destruct L as [_ L]. intros v w r y w' H. inversion H; subst. exists []. intros t. cbn [validate app]. f_equal. f_equal.
      unfold str_validate. destruct (deref1 y) as [|[] []]; try reflexivity. rewrite <- L. reflexivity.
    + destruct L as [_ L]. intros v w r y w' H. inversion H; subst. exists []. intros t. cbn [validate app]. f_equal. f_equal.
      unfold num_validate. destruct (deref1 y) as [|[] []]; try reflexivity. now rewrite <- L.
    + destruct L as [_ L]. intros v w r y w' H. inversion H; subst. exists []. intros t. cbn [validate app]. f_equal. f_equal.
      assert (K : forall z, num_validate m' z = num_validate m z).
      { intros z. unfold num_validate. destruct (deref1 z) as [|[] []]; try reflexivity. now rewrite <- L. }
      unfold int_validate. destruct (deref1 y) as [|[] []]; try reflexivity; now rewrite K.
    + cbn [validate]. now apply arr_sims.
    + cbn [validate]. apply obj_sims; auto. intros. now apply default_sim.
    + cbn [validate]. now apply any_sims.
    + cbn in L. destruct l; [|contradiction]. intros v w r y w' H. inversion H; subst. now exists [].
    + cbn [validate]. assert (all2 like l l') by now destruct l. now apply all_sims.
    + cbn [validate]. now apply oneof_sims.
    + cbn in L. subst nm'. cbn [validate e_refs set_refs]. specialize (HR nm). destruct (f nm), (f' nm); try contradiction; [now apply IH|].
      intros v w r y w' H. inversion H; subst. now exists [].
Qed.
End Sim.

(** same outcomes: what one can return (result and value afterwards), the other can *)
Definition Same (E : env) (f : string -> option constr) (c : constr) (f' : string -> option constr) (c' : constr) : Prop :=
  forall n v r v',
    (exists w w', validate n (set_refs E f) c v w = (r, v', w')) <-> (exists w w', validate n (set_refs E f') c' v w = (r, v', w')).

Theorem like_same E f f' c c' :
  (forall n, match f n, f' n with Some x, Some y => like x y | None, None => True | _, _ => False end) ->
  like c c' -> Same E f c f' c'.
Proof.
  intros H L n v r v'. split; intros (w & w' & R).
  - destruct (validate_sim E f f' H n c c' L v w r v' w' R) as [u U]. exists (u ++ []), []. apply U.
  - assert (H' : forall n, match f' n, f n with Some x, Some y => like x y | None, None => True | _, _ => False end).
    { intros m. specialize (H m). destruct (f m), (f' m); auto. now apply like_sym. }
    destruct (validate_sim E f' f H' n c' c (like_sym _ _ L) v w r v' w' R) as [u U]. exists (u ++ []), []. apply U.
Qed.
