(** Building follows the specification, whatever the iteration orders (C41, C42, C46). *)
From Verif Require Import Base GoFloat GoValue Maybe Formats Constraint StructInfo Validate Reach Fluent Builder BuildSpec.
Open Scope Z_scope.

(** ** Induction on schemas *)
Definition subs (c : scfg) : list schema :=
  sc_not c :: sc_allOf c ++ sc_anyOf c ++ sc_oneOf c ++
  match sc_items c with Some (_, l) => l | None => [] end ++
  match sc_addItems c with Some x => [x] | None => [] end ++
  map snd (sc_props c) ++ map snd (sc_pats c) ++
  match sc_addProps c with Some x => [x] | None => [] end ++ map snd (sc_depSchemas c).

Definition sum (l : list nat) : nat := fold_right Nat.add 0%nat l.
Fixpoint ssize (s : schema) : nat :=
  match s with
  | SNil => 0
  | Sch c =>
      S (ssize (sc_not c) + sum (map ssize (sc_allOf c)) + sum (map ssize (sc_anyOf c)) + sum (map ssize (sc_oneOf c)) +
         match sc_items c with Some (_, l) => sum (map ssize l) | None => 0 end +
         match sc_addItems c with Some x => ssize x | None => 0 end +
         sum (map (fun e => ssize (snd e)) (sc_props c)) + sum (map (fun e => ssize (snd e)) (sc_pats c)) +
         match sc_addProps c with Some x => ssize x | None => 0 end +
         sum (map (fun e => ssize (snd e)) (sc_depSchemas c)))
  end%nat.

Lemma sum_in x l : In x l -> (x <= sum l)%nat.
Proof. induction l as [|a l IH]; [intros []|]. cbn. intros [->|H]; [unfold sum; lia|]. specialize (IH H). unfold sum in *. lia. Qed.
Lemma sum_map {A} (f : A -> nat) x l : In x l -> (f x <= sum (map f l))%nat.
Proof. intros H. apply sum_in, in_map, H. Qed.
Lemma sum_snd {K} x (l : list (K * schema)) : In x (map snd l) -> (ssize x <= sum (map (fun e => ssize (snd e)) l))%nat.
Proof. intros H. apply in_map_iff in H as (e & <- & He). now apply (sum_map (fun e => ssize (snd e))). Qed.

Lemma subs_size c x : In x (subs c) -> (ssize x < ssize (Sch c))%nat.
Proof.
  unfold subs. intros H. cbn [ssize]. destruct H as [<-|H]; [lia|].
  repeat (apply in_app_or in H; destruct H as [H|H]).
  all: try (apply (sum_map ssize) in H; lia).
  all: try (apply sum_snd in H; lia).
  - destruct (sc_items c) as [[b l]|]; [|destruct H]. apply (sum_map ssize) in H. lia.
  - destruct (sc_addItems c); [|destruct H]. destruct H as [<-|[]]. lia.
  - destruct (sc_addProps c); [|destruct H]. destruct H as [<-|[]]. lia.
Qed.

Lemma schema_subs_ind (P : schema -> Prop) : P SNil -> (forall c, (forall x, In x (subs c) -> P x) -> P (Sch c)) -> forall s, P s.
Proof.
  intros PN PC s. remember (ssize s) as n eqn:En. revert s En.
  induction n as [n IH] using (well_founded_induction lt_wf). intros [|c] ->; auto.
  apply PC. intros x Hx. eapply IH; [apply subs_size; exact Hx|reflexivity].
Qed.

Lemma kids_subs c x : In x (comb_kids c ++ array_kids c ++ object_kids c) -> In x (subs c).
Proof.
  unfold subs. cbn [In]. rewrite !in_app_iff. intros [H|[H|H]].
  - unfold comb_kids in H. destruct (sc_not c) as [|n]; [|cbn in H; tauto].
    destruct (sc_allOf c); [|tauto]. destruct (sc_anyOf c); tauto.
  - unfold array_kids in H. destruct (sc_items c) as [[[|] l]|]; [|..|destruct H].
    + apply in_app_or in H as [H|H]; [tauto|]. destruct (sc_addItems c) as [[|y]|]; try (destruct H; fail). tauto.
    + assert (In x l) by (destruct l; cbn in H |- *; tauto). tauto.
  - unfold object_kids in H. rewrite !in_app_iff in H.
    destruct H as [H|[H|[H|H]]]; try tauto.
    destruct (sc_addProps c) as [[|y]|]; try (destruct H; fail). tauto.
Qed.
Lemma Kid_subs c x : Kid c x -> In x (subs c).
Proof. intros H. apply kids_subs. rewrite !in_app_iff. destruct H; auto. Qed.
Lemma Kid_Sorted c x : Sorted (Sch c) -> Kid c x -> Sorted x.
Proof. intros S K. inversion S; subst. apply H4. rewrite !in_app_iff. destruct K; auto. Qed.

(** ** A specification logic for builder steps *)
Definition hoare {A} (m : bm A) (P : A -> Prop) (U : string -> Prop) (Er Pa : Prop) : Prop := forall R w,
  match m R w with
  | GOk (x, R', w') => P x /\ forall n, In n (keys R') <-> In n (keys R) \/ U n
  | GErr _ => Er
  | GPanic _ => Pa
  end.

Lemma h_ret {A} (x : A) (P : A -> Prop) Er Pa : P x -> hoare (ret x) P (fun _ => False) Er Pa.
Proof. intros H R w. cbn. split; auto. tauto. Qed.
Lemma h_conseq {A} (m : bm A) (P P' : A -> Prop) (U U' : string -> Prop) (Er Er' Pa Pa' : Prop) :
  hoare m P U Er Pa -> (forall x, P x -> P' x) -> (forall n, U n <-> U' n) -> (Er -> Er') -> (Pa -> Pa') -> hoare m P' U' Er' Pa'.
Proof.
  intros H HP HU HE HA R w. specialize (H R w). destruct (m R w) as [[[x R'] w']| |]; auto.
  destruct H as [Hx Hn]. split; auto. intros n. rewrite Hn, HU. tauto.
Qed.
Lemma h_bind {A B} (m : bm A) (f : A -> bm B) (P : A -> Prop) (Q : B -> Prop) U1 U2 Er Pa :
  hoare m P U1 Er Pa -> (forall x, P x -> hoare (f x) Q U2 Er Pa) -> hoare (bind m f) Q (fun n => U1 n \/ U2 n) Er Pa.
Proof.
  intros H1 H2 R w. unfold bind. specialize (H1 R w). destruct (m R w) as [[[x R'] w']| |]; auto.
  destruct H1 as [Hx Hn]. specialize (H2 x Hx R' w'). destruct (f x R' w') as [[[y R2] w2]| |]; auto.
  destruct H2 as [Hy Hm]. split; auto. intros n. rewrite Hm, Hn. tauto.
Qed.

Section Lists.
  Context {X A : Type} (f : X -> bm A) (g : X -> A) (G : X -> Prop) (U : X -> string -> Prop) (Er Pa : Prop).

  Lemma h_seq l : (forall x, In x l -> hoare (f x) (fun y => y = g x /\ G x) (U x) Er Pa) ->
    hoare (seqM (map f l)) (fun ys => ys = map g l /\ forall x, In x l -> G x) (fun n => exists x, In x l /\ U x n) Er Pa.
  Proof.
    induction l as [|a l IH]; intros H; cbn [map seqM].
    - eapply h_conseq.
      + apply (h_ret [] (fun ys => ys = [] /\ forall x, In x [] -> G x)). split; [auto|intros ? []].
      + auto.
      + intros n. split; [tauto|]. intros (x & [] & _).
      + intros HH; exact HH.
      + intros HH; exact HH.
    - eapply h_conseq.
      + eapply h_bind; [apply H; now left|]. intros y [-> Ga].
        eapply h_bind; [apply IH; intros; apply H; now right|]. intros ys [-> Gl].
        apply (h_ret (g a :: map g l) (fun ys => ys = map g (a :: l) /\ forall x, In x (a :: l) -> G x)).
        split; [reflexivity|]. intros x [<-|Hx]; auto.
      + auto.
      + intros n. cbn. split.
        * intros [Un|[(x & Hx & Un)|[]]]; [exists a|exists x]; auto.
        * intros (x & [<-|Hx] & Un); [auto|]. right. left. eauto.
      + auto.
      + auto.
  Qed.
End Lists.

Section Ranges.
  Context {K : Type} (f : schema -> bm constr) (g : schema -> constr) (G : schema -> Prop) (U : schema -> string -> Prop) (Er Pa : Prop).
  Lemma h_range (l : list (K * schema)) :
    (forall x, In x (map snd l) -> hoare (f x) (fun y => y = g x /\ G x) (U x) Er Pa) ->
    hoare (rangeM (map (fun e => (fst e, f (snd e))) l))
      (fun ys => Permutation ys (map (fun e => (fst e, g (snd e))) l) /\ forall x, In x (map snd l) -> G x)
      (fun n => exists x, In x (map snd l) /\ U x n) Er Pa.
  Proof.
    intros H R w. unfold rangeM.
    destruct (shuffle w (map (fun e => (fst e, f (snd e))) l)) as [p w'] eqn:Sh. apply shuffle_perm in Sh.
    apply Permutation_sym in Sh. destruct (Permutation_map_inv _ _ Sh) as (l' & -> & Pl).
    rewrite map_map.
    assert (HS : hoare (seqM (map (fun e : K * schema => keyM (fst e, f (snd e))) l'))
      (fun ys => ys = map (fun e => (fst e, g (snd e))) l' /\ forall e, In e l' -> G (snd e))
      (fun n => exists e, In e l' /\ U (snd e) n) Er Pa).
    { apply (h_seq (fun e : K * schema => keyM (fst e, f (snd e))) (fun e => (fst e, g (snd e))) (fun e => G (snd e)) (fun e => U (snd e))).
      intros e He. unfold keyM. eapply h_conseq.
      - eapply h_bind.
        + apply (H (snd e)). apply in_map_iff. exists e. split; auto. eapply Permutation_in; [symmetry; exact Pl|exact He].
        + intros y [-> Ge]. apply (h_ret (fst e, g (snd e)) (fun y => y = (fst e, g (snd e)) /\ G (snd e))). auto.
      - auto.
      - intros n. cbn. tauto.
      - auto.
      - auto. }
    specialize (HS R w').
    destruct (seqM (map (fun e : K * schema => keyM (fst e, f (snd e))) l') R w') as [[[ys R'] w2]| |]; auto.
    destruct HS as [[-> HG] HN]. split; [split|].
    - apply Permutation_map. now symmetry.
    - intros x Hx. apply in_map_iff in Hx as (e & <- & He). apply HG. eapply Permutation_in; [exact Pl|exact He].
    - intros n. rewrite HN. split; (intros [Hn|(e & He & Hu)]; [now left|right]).
      + exists (snd e). split; auto. apply in_map_iff. exists e. split; auto. eapply Permutation_in; [symmetry; exact Pl|exact He].
      + apply in_map_iff in He as (e' & <- & He). exists e'. split; auto. eapply Permutation_in; [exact Pl|exact He].
  Qed.
End Ranges.

(** ** Maps filled in any order *)
Definition fill {A} (l : list (string * A)) (m : list (string * A)) : list (string * A) :=
  fold_left (fun m e => sset (fst e) (snd e) m) l m.

Lemma fill_get {A} (l : list (string * A)) : forall m k, NoDup (keys l) ->
  sget k (fill l m) = match sget k l with Some x => Some x | None => sget k m end.
Proof.
  induction l as [|[k0 x0] l IH]; intros m k N; cbn [fill fold_left fst snd]; [reflexivity|].
  inversion N as [|? ? N1 N2]; subst. change (sget k (fill l (sset k0 x0 m)) = match sget k ((k0, x0) :: l) with Some x => Some x | None => sget k m end).
  rewrite IH by assumption. cbn [sget]. destruct (String.eqb k k0) eqn:E.
  - apply String.eqb_eq in E. subst k0. destruct (sget k l) eqn:G; [|apply sget_sset_same].
    destruct N1. apply sget_some_keys. eauto.
  - apply String.eqb_neq in E. destruct (sget k l); auto. rewrite sget_sset_other; auto.
Qed.
Lemma fill_sorted {A} (l : list (string * A)) : forall m, ssorted m -> ssorted (fill l m).
Proof. induction l as [|e l IH]; intros m S; cbn; auto. apply IH. now apply sset_sorted. Qed.
Lemma fill_perm {A} (l m : list (string * A)) : ssorted m -> Permutation l m -> fill l [] = m.
Proof.
  intros S P. apply ssorted_ext; auto; [apply fill_sorted; constructor|].
  assert (N : NoDup (keys l)).
  { eapply Permutation_NoDup; [apply Permutation_sym, Permutation_map, P|now apply ssorted_nodup]. }
  intros k. rewrite fill_get by assumption. cbn [sget]. destruct (sget k l) eqn:G.
  - apply sget_in in G. symmetry. apply nodup_sget; [now apply ssorted_nodup|]. eapply Permutation_in; eauto.
  - symmetry. apply sget_none_keys. apply sget_none_keys in G. intros I. apply G.
    eapply Permutation_in; [apply Permutation_sym, Permutation_map, P|exact I].
Qed.


(** the pattern map *)
Definition pfill (l m : list ((nat * string) * constr)) := fold_left (fun m e => pat_set (fst e) (snd e) m) l m.
Definition pkeys {C} (l : list ((nat * string) * C)) : list nat := map (fun e => fst (fst e)) l.

Lemma pat_get_in l i s c : NoDup (pkeys l) -> (pat_get i l = Some (s, c) <-> In ((i, s), c) l).
Proof.
  induction l as [|[[j s'] c'] l IH]; intros N; cbn [pat_get]; [split; [discriminate|intros []]|].
  inversion N as [|? ? N1 N2]; subst. cbn [fst] in *. destruct (Nat.eqb_spec j i) as [->|Nj].
  - split; [intros [= -> ->]; now left|]. intros [[= -> ->]|I]; auto.
    destruct N1. apply in_map_iff. exists ((i, s), c). auto.
  - rewrite IH by assumption. split; [now right|]. intros [[= -> -> ->]|I]; auto. congruence.
Qed.
Lemma pat_get_none l i : pat_get i l = None <-> ~ In i (pkeys l).
Proof.
  induction l as [|[[j s'] c'] l IH]; cbn [pat_get pkeys map fst In]; [tauto|].
  destruct (Nat.eqb_spec j i) as [->|Nj]; [split; [discriminate|]; intros H; destruct H; auto|].
  rewrite IH. unfold pkeys. tauto.
Qed.
Lemma pat_set_keys k c l i : In i (pkeys (pat_set k c l)) <-> i = fst k \/ In i (pkeys l).
Proof.
  pose proof (pat_set_get k c l i) as H. pose proof (pat_get_none (pat_set k c l) i) as H1. pose proof (pat_get_none l i) as H2.
  destruct (Nat.eqb_spec (fst k) i) as [E|E].
  - split; [auto|]. intros _. destruct (in_dec Nat.eq_dec i (pkeys (pat_set k c l))); auto.
    apply H1 in n. congruence.
  - rewrite H in H1. split.
    + intros I. right. destruct (in_dec Nat.eq_dec i (pkeys l)); auto. apply H2 in n. apply H1 in n. contradiction.
    + intros [->|I]; [congruence|]. destruct (in_dec Nat.eq_dec i (pkeys (pat_set k c l))); auto.
      apply H1 in n. apply H2 in n. contradiction.
Qed.
Lemma pat_set_sorted k c l : psorted l -> psorted (pat_set k c l).
Proof.
  unfold psorted. induction l as [|[[j s] c'] l IH]; intros S; cbn [pat_set].
  - cbn. constructor; constructor.
  - cbn [map fst] in S. inversion S as [|? ? S1 S2]; subst. cbn [fst].
    destruct (Nat.compare_spec (fst k) j) as [E|L|L]; cbn [map fst].
    + destruct k as [k sk]. cbn [fst] in *. subst k. constructor; auto.
    + constructor; auto. constructor; auto. eapply Forall_impl; [|exact S2]. cbn. intros a. lia.
    + constructor; [now apply IH|]. apply Forall_forall. intros i Hi.
      change (In i (pkeys (pat_set k c l))) in Hi. apply pat_set_keys in Hi as [->|Hi]; auto.
      rewrite Forall_forall in S2. apply S2, Hi.
Qed.
Lemma psorted_nodup {C} (l : list ((nat * string) * C)) : psorted l -> NoDup (pkeys l).
Proof.
  unfold psorted. fold (pkeys l). induction (pkeys l) as [|i r IH]; intros S; constructor; inversion S as [|? ? S1 S2]; subst; auto.
  rewrite Forall_forall in S2. intros I. apply S2 in I. lia.
Qed.
Lemma psorted_ext m1 : forall m2, psorted m1 -> psorted m2 -> (forall i, pat_get i m1 = pat_get i m2) -> m1 = m2.
Proof.
  unfold psorted. induction m1 as [|[[i1 s1] c1] m1 IH]; intros [|[[i2 s2] c2] m2] H1 H2 E; auto.
  - specialize (E i2); cbn in E; rewrite Nat.eqb_refl in E; congruence.
  - specialize (E i1); cbn in E; rewrite Nat.eqb_refl in E; congruence.
  - cbn [map fst] in H1, H2. inversion H1 as [|? ? S1 F1]; inversion H2 as [|? ? S2 F2]; subst.
    rewrite Forall_forall in F1, F2.
    assert (i1 = i2).
    { pose proof (E i1) as E1. pose proof (E i2) as E2. cbn [pat_get] in E1, E2. rewrite Nat.eqb_refl in E1, E2.
      destruct (Nat.eqb_spec i2 i1) as [|N]; auto. destruct (Nat.eqb_spec i1 i2) as [|N']; auto.
      assert (I1 : In i1 (pkeys m2)).
      { destruct (in_dec Nat.eq_dec i1 (pkeys m2)) as [|n]; auto. apply pat_get_none in n. congruence. }
      assert (I2 : In i2 (pkeys m1)).
      { destruct (in_dec Nat.eq_dec i2 (pkeys m1)) as [|n]; auto. apply pat_get_none in n. congruence. }
      apply F2 in I1. apply F1 in I2. lia. }
    subst i2. pose proof (E i1) as E1. cbn [pat_get] in E1. rewrite Nat.eqb_refl in E1. injection E1 as -> ->.
    f_equal. apply IH; auto. intros i. specialize (E i). cbn [pat_get] in E. destruct (Nat.eqb_spec i1 i) as [->|N]; auto.
    assert (X : forall l, (forall x, In x (map (fun e : nat * string * constr => fst (fst e)) l) -> (i < x)%nat) -> pat_get i l = None).
    { intros l Hl. apply pat_get_none. intros I. apply Hl in I. lia. }
    now rewrite !X.
Qed.
Lemma pfill_get l : forall m i, NoDup (pkeys l) -> pat_get i (pfill l m) = match pat_get i l with Some x => Some x | None => pat_get i m end.
Proof.
  induction l as [|[[j s] c] l IH]; intros m i N; cbn [pfill fold_left fst snd]; [reflexivity|].
  inversion N as [|? ? N1 N2]; subst.
  change (pat_get i (pfill l (pat_set (j, s) c m)) = match pat_get i (((j, s), c) :: l) with Some x => Some x | None => pat_get i m end).
  rewrite IH by assumption. rewrite pat_set_get. cbn [pat_get fst snd]. destruct (Nat.eqb_spec j i) as [->|E]; auto.
  apply pat_get_none in N1. cbn [fst] in N1. now rewrite N1.
Qed.
Lemma pfill_sorted l : forall m, psorted m -> psorted (pfill l m).
Proof. induction l as [|e l IH]; intros m S; cbn; auto. apply IH. now apply pat_set_sorted. Qed.
Lemma pfill_perm l m : psorted m -> Permutation l m -> pfill l [] = m.
Proof.
  intros S P. apply psorted_ext; auto; [apply pfill_sorted; constructor|].
  assert (N : NoDup (pkeys l)).
  { eapply Permutation_NoDup; [apply Permutation_sym, Permutation_map, P|now apply psorted_nodup]. }
  intros i. rewrite pfill_get by assumption. cbn [pat_get]. destruct (pat_get i l) as [[s c]|] eqn:G.
  - apply pat_get_in in G; auto. symmetry. apply pat_get_in; [now apply psorted_nodup|]. eapply Permutation_in; eauto.
  - symmetry. apply pat_get_none. apply pat_get_none in G. intros I. apply G.
    eapply Permutation_in; [apply Permutation_sym, Permutation_map, P|exact I].
Qed.

(** folding the object setters *)
Lemma fold_addProp l : forall o, fold_left (fun o e => obj_addProp (fst e) (snd e) o) l o =
  {| o_add := o_add o; o_pats := o_pats o; o_props := fill l (o_props o); o_propdeps := o_propdeps o;
     o_req := o_req o; o_min := o_min o; o_max := o_max o; o_sdeps := o_sdeps o |}.
Proof. induction l as [|e l IH]; intros o; cbn [fold_left fill]; [now destruct o|]. rewrite IH. reflexivity. Qed.
Lemma fold_pattern l : forall o, fold_left (fun o e => obj_pattern (fst e) (snd e) o) l o =
  {| o_add := o_add o; o_pats := pfill l (o_pats o); o_props := o_props o; o_propdeps := o_propdeps o;
     o_req := o_req o; o_min := o_min o; o_max := o_max o; o_sdeps := o_sdeps o |}.
Proof. induction l as [|e l IH]; intros o; cbn [fold_left pfill]; [now destruct o|]. rewrite IH. reflexivity. Qed.
Lemma fold_schemaDep l : forall o, fold_left (fun o e => obj_schemaDep (fst e) (snd e) o) l o =
  {| o_add := o_add o; o_pats := o_pats o; o_props := o_props o; o_propdeps := o_propdeps o;
     o_req := o_req o; o_min := o_min o; o_max := o_max o; o_sdeps := fill l (o_sdeps o) |}.
Proof. induction l as [|e l IH]; intros o; cbn [fold_left fill]; [now destruct o|]. rewrite IH. reflexivity. Qed.
Lemma fold_propDep l : forall o, NoDup (keys l) -> (forall k, In k (keys l) -> sget k (o_propdeps o) = None) ->
  fold_left (fun o e => obj_propDep (fst e) (snd e) o) l o =
  {| o_add := o_add o; o_pats := o_pats o; o_props := o_props o; o_propdeps := fill l (o_propdeps o);
     o_req := o_req o; o_min := o_min o; o_max := o_max o; o_sdeps := o_sdeps o |}.
Proof.
  induction l as [|e l IH]; intros o N F; cbn [fold_left fill]; [now destruct o|].
  inversion N as [|? ? N1 N2]; subst. rewrite IH; auto.
  - unfold obj_propDep. cbn [o_add o_pats o_props o_propdeps o_req o_min o_max o_sdeps].
    rewrite F by now left. reflexivity.
  - intros k I. cbn [obj_propDep o_propdeps]. rewrite sget_sset_other; [apply F; now right|]. intros ->. contradiction.
Qed.

(** ** Building *)
Definition kids_spec (l : list schema) (Er Pa : Prop) : Prop :=
  forall x, In x l -> hoare (build x) (fun y => y = bc x /\ Good x) (Used x) Er Pa.
Definition uses (l : list schema) (n : string) : Prop := exists x, In x l /\ Used x n.
Definition goods (l : list schema) : Prop := forall x, In x l -> Good x.

Ltac use_conseq := eapply h_conseq; [|let H := fresh in intros ? H; exact H| |let H := fresh in intros H; exact H|let H := fresh in intros H; exact H].
Ltac h_return P := match goal with |- hoare (ret ?x) _ _ ?Er ?Pa => apply (h_ret x P Er Pa) end.

Lemma map_sorted {A B} (f : A -> B) (l : list (string * A)) : ssorted l -> ssorted (map (fun e => (fst e, f (snd e))) l).
Proof. unfold ssorted, keys. now rewrite map_map. Qed.
Lemma map_psorted {A B} (f : A -> B) (l : list ((nat * string) * A)) : psorted l -> psorted (map (fun e => (fst e, f (snd e))) l).
Proof. unfold psorted. now rewrite map_map. Qed.

Section One.
  Context (c : scfg) (Er Pa : Prop).

  Lemma h_array :
    let items := match sc_items c with Some (_, l) => map build l | None => [] end in
    let additional := match sc_addItems c with Some x => build x | None => ret CNil end in
    kids_spec (array_kids c) Er Pa ->
    (sc_items c = Some (false, []) -> Pa) ->
    hoare (build_array c items additional)
      (fun y => y = bc_array c (match sc_items c with Some (_, l) => map bc l | None => [] end)
                       (match sc_addItems c with Some x => bc x | None => CNil end) /\
                goods (array_kids c) /\ sc_items c <> Some (false, []))
      (uses (array_kids c)) Er Pa.
  Proof.
    cbv zeta. unfold build_array, array_kids, bc_array, kids_spec.
    assert (F : forall a, CArr (set_opt arr_unique (sc_unique c) (set_opt arr_max (sc_maxItems c) (set_opt arr_min (sc_minItems c)
                 {| a_items := a_items a; a_pos := a_pos a; a_add := a_add a; a_min := -1; a_max := -1; a_uniq := false |}))) =
               CArr {| a_items := a_items a; a_pos := a_pos a; a_add := a_add a; a_min := bound (sc_minItems c);
                       a_max := bound (sc_maxItems c); a_uniq := match sc_unique c with Some b => b | None => false end |}).
    { intros a. destruct (sc_unique c), (sc_maxItems c), (sc_minItems c); reflexivity. }
    destruct (sc_items c) as [[[|] l]|].
    - intros K _.
      assert (HL : hoare (seqM (map build l)) (fun ys => ys = map bc l /\ goods l) (uses l) Er Pa).
      { apply (h_seq build bc Good Used Er Pa l). intros x Hx. apply K. apply in_or_app. now left. }
      destruct (sc_addItems c) as [[|x]|].
      + use_conseq.
        * eapply h_bind; [exact HL|]. intros ys [-> G]. h_return (fun y => y = CArr {| a_items := CNil; a_pos := map bc l;
            a_add := CEmpty; a_min := bound (sc_minItems c); a_max := bound (sc_maxItems c);
            a_uniq := match sc_unique c with Some b => b | None => false end |} /\ goods (l ++ []) /\ Some (true, l) <> Some (false, [])).
          split; [|split; [now rewrite app_nil_r|discriminate]].
          exact (F (arr_additional CEmpty (arr_positional (map bc l) new_arr))).
        * intros n. rewrite app_nil_r. cbn. tauto.
      + use_conseq.
        * eapply h_bind; [exact HL|]. intros ys [-> G]. eapply h_bind; [apply (K (Sch x)); apply in_or_app; right; now left|].
          intros y [-> Gx]. h_return (fun y => y = CArr {| a_items := CNil; a_pos := map bc l;
            a_add := bc (Sch x); a_min := bound (sc_minItems c); a_max := bound (sc_maxItems c);
            a_uniq := match sc_unique c with Some b => b | None => false end |} /\ goods (l ++ [Sch x]) /\ Some (true, l) <> Some (false, [])).
          split; [|split; [|discriminate]].
          -- exact (F (arr_additional (bc (Sch x)) (arr_positional (map bc l) new_arr))).
          -- intros z Hz. apply in_app_or in Hz as [Hz|[<-|[]]]; auto.
        * intros n. unfold uses. split.
          -- intros [(z & Hz & Hu)|[Hu|[]]]; [exists z|exists (Sch x)]; (split; [apply in_or_app|exact Hu]); [now left|right; now left].
          -- intros (z & Hz & Hu). apply in_app_or in Hz as [Hz|[<-|[]]]; [left; eauto|auto].
      + use_conseq.
        * eapply h_bind; [exact HL|]. intros ys [-> G]. h_return (fun y => y = CArr {| a_items := CNil; a_pos := map bc l;
            a_add := CNil; a_min := bound (sc_minItems c); a_max := bound (sc_maxItems c);
            a_uniq := match sc_unique c with Some b => b | None => false end |} /\ goods (l ++ []) /\ Some (true, l) <> Some (false, [])).
          split; [|split; [now rewrite app_nil_r|discriminate]].
          exact (F (arr_additional CNil (arr_positional (map bc l) new_arr))).
        * intros n. rewrite app_nil_r. cbn. tauto.
    - intros K HP. destruct l as [|x l]; cbn [map firstn hd].
      + intros R w. cbn. auto.
      + use_conseq.
        * eapply h_bind; [apply K; now left|]. intros y [-> G].
          h_return (fun y => y = CArr {| a_items := bc x; a_pos := [];
            a_add := CEmpty; a_min := bound (sc_minItems c); a_max := bound (sc_maxItems c);
            a_uniq := match sc_unique c with Some b => b | None => false end |} /\ goods [x] /\ Some (false, x :: l) <> Some (false, [])).
          split; [|split; [|discriminate]].
          -- exact (F (arr_items (bc x) new_arr)).
          -- intros z [<-|[]]. exact G.
        * intros n. unfold uses. split.
          -- intros [Hu|[]]. exists x. split; [now left|auto].
          -- intros (z & [<-|[]] & Hu). auto.
    - intros _ _. use_conseq.
      + h_return (fun y => y = CArr {| a_items := CNil; a_pos := [];
            a_add := CEmpty; a_min := bound (sc_minItems c); a_max := bound (sc_maxItems c);
            a_uniq := match sc_unique c with Some b => b | None => false end |} /\ goods [] /\ @None (bool * list schema) <> Some (false, [])).
        split; [|split; [intros ? []|discriminate]]. exact (F new_arr).
      + intros n. split; [tauto|]. intros (x & [] & _).
  Qed.

  Lemma h_object :
    let props := map (fun e => (fst e, build (snd e))) (sc_props c) in
    let pats := map (fun e => (fst e, build (snd e))) (sc_pats c) in
    let addProp := match sc_addProps c with Some x => build x | None => ret CNil end in
    let deps := map (fun e => (fst e, build (snd e))) (sc_depSchemas c) in
    ssorted (sc_props c) -> psorted (sc_pats c) -> ssorted (sc_depNames c) -> ssorted (sc_depSchemas c) ->
    kids_spec (object_kids c) Er Pa ->
    hoare (build_object c props pats addProp deps)
      (fun y => y = bc_object c (map (fun e => (fst e, bc (snd e))) (sc_props c))
                        (map (fun e => (fst e, bc (snd e))) (sc_pats c))
                        (match sc_addProps c with Some x => bc x | None => CNil end)
                        (map (fun e => (fst e, bc (snd e))) (sc_depSchemas c)) /\ goods (object_kids c))
      (uses (object_kids c)) Er Pa.
  Proof.
    cbv zeta. intros S1 S2 S3 S4 K. unfold build_object, object_kids in *.
    set (o0 := set_opt obj_max (sc_maxProps c) (set_opt obj_min (sc_minProps c)
             (match sc_required c with [] => new_obj | l => obj_required l new_obj end))).
    assert (O : o0 = {| o_add := CNil; o_pats := []; o_props := []; o_propdeps := [];
                        o_req := fold_left (fun m k => sset k tt m) (sc_required c) [];
                        o_min := bound (sc_minProps c); o_max := bound (sc_maxProps c); o_sdeps := [] |}).
    { unfold o0. destruct (sc_maxProps c), (sc_minProps c), (sc_required c); reflexivity. }
    rewrite O. clear O o0.
    set (more := match sc_addProps c with Some (Sch x) => [Sch x] | _ => [] end) in *.
    use_conseq.
    - eapply h_bind.
      { apply (h_range build bc Good Used Er Pa (sc_props c)). intros x Hx. apply K. rewrite !in_app_iff. auto. }
      intros ps [Pp Gp]. rewrite fold_addProp. cbn [o_add o_pats o_props o_propdeps o_req o_min o_max o_sdeps].
      rewrite (fill_perm _ _ (map_sorted bc _ S1) Pp).
      eapply h_bind.
      { apply (h_range build bc Good Used Er Pa (sc_pats c)). intros x Hx. apply K. rewrite !in_app_iff. auto. }
      intros pts [Pt Gt]. rewrite fold_pattern. cbn [o_add o_pats o_props o_propdeps o_req o_min o_max o_sdeps].
      rewrite (pfill_perm _ _ (map_psorted bc _ S2) Pt).
      eapply h_bind.
      { instantiate (2 := fun o => o = {| o_add := match sc_addProps c with None => CNil | Some SNil => CEmpty | Some x => bc x end;
            o_pats := map (fun e => (fst e, bc (snd e))) (sc_pats c);
            o_props := map (fun e => (fst e, bc (snd e))) (sc_props c); o_propdeps := [];
            o_req := fold_left (fun m k => sset k tt m) (sc_required c) [];
            o_min := bound (sc_minProps c); o_max := bound (sc_maxProps c); o_sdeps := [] |} /\ goods more).
        instantiate (1 := uses more). unfold more in *.
        destruct (sc_addProps c) as [[|x]|].
        - use_conseq.
          + eapply (h_ret _ (fun o => _ /\ _) Er Pa). split; [reflexivity|intros ? []].
          + intros n. split; [tauto|]. intros (? & [] & _).
        - use_conseq.
          + eapply h_bind; [apply (K (Sch x)); rewrite !in_app_iff; do 2 right; left; now left|]. intros y [-> Gx].
            eapply (h_ret _ (fun o => _ /\ _) Er Pa). split; [reflexivity|]. intros ? [<-|[]]. exact Gx.
          + intros n. unfold uses. split; [intros [Hu|[]]; exists (Sch x); split; auto; now left|].
            intros (? & [<-|[]] & Hu). auto.
        - use_conseq.
          + eapply (h_ret _ (fun o => _ /\ _) Er Pa). split; [reflexivity|intros ? []].
          + intros n. split; [tauto|]. intros (? & [] & _). }
      intros o [-> Gm]. eapply h_bind.
      { instantiate (2 := fun l => Permutation l (sc_depNames c)). instantiate (1 := fun _ => False).
        intros R w. destruct (shuffle w (sc_depNames c)) as [p w'] eqn:Sh. apply shuffle_perm in Sh. split; [symmetry; exact Sh|tauto]. }
      intros dn Pd. rewrite fold_propDep; [|eapply Permutation_NoDup; [apply Permutation_sym, Permutation_map, Pd|now apply ssorted_nodup]|reflexivity].
      cbn [o_add o_pats o_props o_propdeps o_req o_min o_max o_sdeps].
      rewrite (fill_perm _ _ S3 Pd).
      eapply h_bind.
      { apply (h_range build bc Good Used Er Pa (sc_depSchemas c)). intros x Hx. apply K. rewrite !in_app_iff. auto. }
      intros ds [Ps Gs]. rewrite fold_schemaDep. cbn [o_add o_pats o_props o_propdeps o_req o_min o_max o_sdeps].
      rewrite (fill_perm _ _ (map_sorted bc _ S4) Ps).
      match goal with |- hoare (ret ?x) ?P _ _ _ => apply (h_ret x P) end. split.
      + unfold bc_object. destruct (sc_addProps c) as [[|x]|]; reflexivity.
      + intros x Hx. rewrite !in_app_iff in Hx. destruct Hx as [Hx|[Hx|[Hx|Hx]]]; auto.
    - intros n. unfold uses. split.
      + intros [(x & Hx & Hu)|[(x & Hx & Hu)|[(x & Hx & Hu)|[[]|[(x & Hx & Hu)|[]]]]]]; exists x; rewrite !in_app_iff; auto.
      + intros (x & Hx & Hu). rewrite !in_app_iff in Hx. destruct Hx as [Hx|[Hx|[Hx|Hx]]]; eauto 8.
  Qed.
End One.

Lemma kids_weaken l (Er Er' Pa Pa' : Prop) : (Er -> Er') -> (Pa -> Pa') -> kids_spec l Er Pa -> kids_spec l Er' Pa'.
Proof. intros HE HA K x Hx. eapply h_conseq; [apply (K x Hx)|auto|tauto|auto|auto]. Qed.

(** [build], one step *)
Definition one_of (c : scfg) (t : ptype) : bm constr :=
  match t with
  | TString => ret (build_string c)
  | TNumber => ret (build_number c)
  | TInteger => ret (build_integer c)
  | TBoolean => ret (build_boolean c)
  | TArray => build_array c (match sc_items c with Some (_, l) => map build l | None => [] end)
                (match sc_addItems c with Some x => build x | None => ret CNil end)
  | TObject => build_object c (map (fun e => (fst e, build (snd e))) (sc_props c))
                 (map (fun e => (fst e, build (snd e))) (sc_pats c))
                 (match sc_addProps c with Some x => build x | None => ret CNil end)
                 (map (fun e => (fst e, build (snd e))) (sc_depSchemas c))
  | TNull => ret CNull
  | TOther _ => bad "unknown type: "
  end.
Definition bc_one (c : scfg) (t : ptype) : constr :=
  match t with
  | TString => build_string c
  | TNumber => build_number c
  | TInteger => build_integer c
  | TBoolean => build_boolean c
  | TArray => bc_array c (match sc_items c with Some (_, l) => map bc l | None => [] end)
                (match sc_addItems c with Some x => bc x | None => CNil end)
  | TObject => bc_object c (map (fun e => (fst e, bc (snd e))) (sc_props c))
                (map (fun e => (fst e, bc (snd e))) (sc_pats c))
                (match sc_addProps c with Some x => bc x | None => CNil end)
                (map (fun e => (fst e, bc (snd e))) (sc_depSchemas c))
  | _ => CNull
  end.
Definition comb_of (c : scfg) : bm (list constr) :=
  match sc_not c with
  | Sch _ => do x <- build (sc_not c); ret [CNot x]
  | SNil =>
      match sc_allOf c with
      | _ :: _ => do l <- seqM (map build (sc_allOf c)); ret [reduce (CAll l)]
      | [] =>
          match sc_anyOf c with
          | _ :: _ => do l <- seqM (map build (sc_anyOf c)); ret [reduce (CAny l)]
          | [] =>
              match sc_oneOf c with
              | _ :: _ => do l <- seqM (map build (sc_oneOf c)); ret [reduce (COneOf l)]
              | [] => ret []
              end
          end
      end
  end.
Definition bc_comb (c : scfg) : list constr :=
  match sc_not c with
  | Sch _ => [CNot (bc (sc_not c))]
  | SNil =>
      match sc_allOf c with
      | _ :: _ => [reduce (CAll (map bc (sc_allOf c)))]
      | [] =>
          match sc_anyOf c with
          | _ :: _ => [reduce (CAny (map bc (sc_anyOf c)))]
          | [] =>
              match sc_oneOf c with
              | _ :: _ => [reduce (COneOf (map bc (sc_oneOf c)))]
              | [] => []
              end
          end
      end
  end.
Definition bc_types (c : scfg) : list constr :=
  match types_of c with
  | [] => match sc_enum c with [] => [] | l => [CEnum l] end
  | l => [reduce (CAny (map (bc_one c) l))]
  end.
Lemma build_step c : sc_ref c = ""%string -> build (Sch c) =
  do cs <- comb_of c;
  do ts <- match types_of c with
           | [] => ret (match sc_enum c with [] => [] | l => [CEnum l] end)
           | _ :: _ => do l <- seqM (map (one_of c) (types_of c)); ret [reduce (CAny l)]
           end;
  ret (reduce (CAll (cs ++ ts))).
Proof. intros H. cbn [build]. rewrite H. reflexivity. Qed.
Lemma bc_step c : sc_ref c = ""%string -> bc (Sch c) = reduce (CAll (bc_comb c ++ bc_types c)).
Proof. intros H. cbn [bc]. rewrite H. reflexivity. Qed.

Lemma h_comb c Er Pa : kids_spec (comb_kids c) Er Pa ->
  hoare (comb_of c) (fun l => l = bc_comb c /\ goods (comb_kids c)) (uses (comb_kids c)) Er Pa.
Proof.
  unfold comb_of, bc_comb, comb_kids.
  assert (L : forall l (f : list constr -> constr), kids_spec l Er Pa ->
    hoare (do ys <- seqM (map build l); ret [f ys]) (fun ys => ys = [f (map bc l)] /\ goods l) (uses l) Er Pa).
  { intros l f K. use_conseq.
    - eapply h_bind; [apply (h_seq build bc Good Used Er Pa l); exact K|]. intros ys [-> G].
      match goal with |- hoare (ret ?x) ?P _ _ _ => apply (h_ret x P) end. split; [reflexivity|exact G].
    - intros n. unfold uses. tauto. }
  destruct (sc_not c) as [|m] eqn:En.
  - destruct (sc_allOf c) as [|a al] eqn:Ea; [|intros K; apply (L (a :: al) (fun ys => reduce (CAll ys))); exact K].
    destruct (sc_anyOf c) as [|a al] eqn:Eb; [|intros K; apply (L (a :: al) (fun ys => reduce (CAny ys))); exact K].
    destruct (sc_oneOf c) as [|a al] eqn:Ec; [|intros K; apply (L (a :: al) (fun ys => reduce (COneOf ys))); exact K].
    intros _. use_conseq.
    + match goal with |- hoare (ret ?x) ?P _ _ _ => apply (h_ret x (fun l => l = [] /\ goods [])) end. split; [reflexivity|intros ? []].
    + intros n. split; [tauto|]. intros (? & [] & _).
  - intros K. use_conseq.
    + eapply h_bind; [apply K; now left|]. intros y [-> G].
      match goal with |- hoare (ret ?x) _ _ _ _ => apply (h_ret x (fun l => l = [CNot (bc (Sch m))] /\ goods [Sch m])) end.
      split; [reflexivity|]. intros ? [<-|[]]. exact G.
    + intros n. unfold uses. split; [intros [Hu|[]]; exists (Sch m); split; auto; now left|].
      intros (? & [<-|[]] & Hu). auto.
Qed.

(** C46: what a build returns is determined by the schema; errors come from unknown types,
    panics from nil schemas, and nothing else fails *)
Theorem build_spec s : Sorted s -> hoare (build s) (fun c => c = bc s /\ Good s) (Used s) (Unknown s) (Nilish s).
Proof.
  induction s as [|c IH] using schema_subs_ind; intros So.
  - intros R w. cbn. constructor.
  - destruct (String.eqb_spec (sc_ref c) "") as [E|E].
    2: { intros R w. cbn [build bc]. apply String.eqb_neq in E. rewrite E. cbn [negb]. apply String.eqb_neq in E. split.
         - split; [reflexivity|]. split; intros H; inversion H; congruence.
         - intros n. rewrite sset_keys. split.
           + intros [->|H]; [right; now constructor|now left].
           + intros [H|H]; [now right|]. left. inversion H; [reflexivity|congruence]. }
    assert (K : forall x, Kid c x -> hoare (build x) (fun y => y = bc x /\ Good x) (Used x) (Unknown (Sch c)) (Nilish (Sch c))).
    { intros x Kx. eapply h_conseq; [apply IH; [now apply Kid_subs|eapply Kid_Sorted; eauto]|auto|tauto|..].
      - intros H. eapply un_kid; eauto.
      - intros H. eapply ni_kid; eauto. }
    inversion So as [|? S1 S2 S3 S4 _]; subst.
    rewrite build_step, bc_step by assumption.
    assert (HT : hoare (match types_of c with
           | [] => ret (match sc_enum c with [] => [] | l => [CEnum l] end)
           | _ :: _ => do l <- seqM (map (one_of c) (types_of c)); ret [reduce (CAny l)]
           end)
      (fun ts => ts = bc_types c /\
         (In TArray (types_of c) -> goods (array_kids c) /\ sc_items c <> Some (false, [])) /\
         (In TObject (types_of c) -> goods (object_kids c)) /\
         (forall k, ~ In (TOther k) (types_of c)))
      (fun n => In TArray (types_of c) /\ uses (array_kids c) n \/ In TObject (types_of c) /\ uses (object_kids c) n)
      (Unknown (Sch c)) (Nilish (Sch c))).
    { unfold bc_types.
      set (G := fun t => match t with
                         | TArray => goods (array_kids c) /\ sc_items c <> Some (false, [])
                         | TObject => goods (object_kids c)
                         | TOther _ => False
                         | _ => True end).
      set (U := fun t => match t with TArray => uses (array_kids c) | TObject => uses (object_kids c) | _ => fun _ => False end).
      assert (H1 : forall t, In t (types_of c) -> hoare (one_of c t) (fun y => y = bc_one c t /\ G t) (U t) (Unknown (Sch c)) (Nilish (Sch c))).
      { intros t Ht. destruct t; try (cbn [one_of bc_one]; apply (h_ret _ (fun y => _ /\ _)); split; [reflexivity|exact I]).
        - apply h_object; auto. intros x Hx. apply K. now apply kid_object.
        - apply h_array; [|intros Hi; now apply ni_items]. intros x Hx. apply K. now apply kid_array.
        - intros R w. cbn. eapply un_here; eauto. }
      destruct (types_of c) as [|t0 ts] eqn:Et.
      - use_conseq.
        + match goal with |- hoare (ret ?x) _ _ _ _ => apply (h_ret x (fun l => l = x /\ (In TArray [] -> goods (array_kids c) /\ sc_items c <> Some (false, [])) /\
             (In TObject [] -> goods (object_kids c)) /\ (forall k, ~ In (TOther k) []))) end. cbn. tauto.
        + intros n. cbn. tauto.
      - use_conseq.
        + eapply h_bind; [apply (h_seq (one_of c) (bc_one c) G U); exact H1|]. intros ys [-> HG].
          match goal with |- hoare (ret ?x) ?P _ _ _ => apply (h_ret x P) end. split; [reflexivity|].
          split; [intros Hi; apply (HG TArray Hi)|]. split; [intros Hi; apply (HG TObject Hi)|].
          intros k Hi. exact (HG _ Hi).
        + intros n. cbn beta. split.
          * intros [(t & Ht & Hu)|[]]. destruct t; try destruct Hu; [right|left]; auto; split; auto; exists x; auto.
          * intros [[Ht Hu]|[Ht Hu]]; left; [exists TArray|exists TObject]; auto. }
    eapply h_conseq.
    + eapply h_bind; [apply h_comb; intros x Hx; apply K; now apply kid_comb|]. intros cs [-> Gc].
      eapply h_bind; [exact HT|]. intros ts [-> (Ga & Go & Nk)].
      match goal with |- hoare (ret ?x) _ _ ?Er ?Pa => apply (h_ret x (fun y => y = x /\ Good (Sch c)) Er Pa) end.
      split; [reflexivity|].
      assert (GK : forall x, Kid c x -> Good x).
      { intros x Kx. destruct Kx as [x Hx|x Ht Hx|x Ht Hx]; auto; [now apply Ga|now apply Go]. }
      split; intros H; inversion H; subst.
      * eapply Nk; eauto.
      * destruct (GK x) as [G1 _]; auto.
      * destruct Ga; auto.
      * destruct (GK x) as [_ G2]; auto.
    + auto.
    + intros n. cbn beta. split.
      * intros [(x & Hx & Hu)|[[[Ht (x & Hx & Hu)]|[Ht (x & Hx & Hu)]]|[]]]; (eapply us_kid; [assumption| |exact Hu]);
          [now apply kid_comb|now apply kid_array|now apply kid_object].
      * intros H. inversion H as [|? x ? _ Kx Hu]; subst; [congruence|].
        destruct Kx as [x Hx|x Ht Hx|x Ht Hx]; [left; exists x; auto|right; left; left; split; auto; exists x; auto|].
        right. left. right. split; auto. exists x; auto.
    + auto.
    + auto.
Qed.
