(** What a run of a composite constraint says about the runs of its parts.  No guard on
    the parts: they may be nil, cyclic, insert defaults or panic. *)
From Verif Require Import Base GoFloat FloatSpec FloatProofs GoValue Maybe Formats Constraint StructInfo Validate Fuel Reach ReadOnly Spec SpecSound SpecObj SpecMain.
Open Scope Z_scope.

(** ** Vocabulary: runs of Validate, whatever the iteration order *)
Definition Passes (E : env) (c : constr) (v v' : gval) : Prop := exists w w', Runs E c v w (Pass, v', w').
Definition Fails (E : env) (c : constr) (v : gval) : Prop := exists w m v' w', Runs E c v w (Fail m, v', w').

(** every run of c on v that returns leaves v alone and gives verdict b *)
Definition Decides (E : env) (c : constr) (v : gval) (b : bool) : Prop :=
  forall w r v' w', Runs E c v w (r, v', w') -> v' = v /\ if b then r = Pass else exists m, r = Fail m.

Definition verdict (r : res) : option bool := match r with Pass => Some true | Fail _ => Some false | _ => None end.

Lemma validate_runs E n c v w r v' w' : validate n E c v w = (r, v', w') -> r <> OOF -> Runs E c v w (r, v', w').
Proof. intros H N. exists n. auto. Qed.

Lemma step_K E n : forall c x w r x' w', True -> True -> validate n E c x w = (r, x', w') ->
  match r with Pass => Passes E c x x' /\ True | Fail _ => Fails E c x | Panic _ => True | OOF => True end.
Proof.
  intros c x w r x' w' _ _ H. destruct r; auto.
  - split; auto. exists w, w'. now apply (validate_runs E n).
  - exists w, msg, x', w'. now apply (validate_runs E n).
Qed.

Lemma runs_succ E c v w o : Runs E c v w o -> exists n, validate (S n) E c v w = o.
Proof.
  intros (n & H & N). exists n. destruct o as [[r v'] w']. rewrite <- H. apply validate_mono with (m := S n); [lia|].
  rewrite H. exact N.
Qed.

(** ** Objects on map[string]interface{} *)
Section Deps.
  Variables (E : env) (rec : recT) (A : constr -> gval -> gval -> Prop) (R : constr -> gval -> Prop).
  Hypothesis K : forall c x w r x' w', True -> True -> rec c x w = (r, x', w') ->
    match r with Pass => A c x x' /\ True | Fail _ => R c x | Panic _ => True | OOF => True end.

  (** a property whose schema dependency is consulted *)
  Definition active (o : objcfg) (k : string) : bool :=
    match prop_deps o k, schema_dep o k with
    | _ :: _, _ => false
    | [], CNil => false
    | [], _ => true
    end.

  Lemma deps_loop_run o sn ns : forall v w,
    good True (deps_loop rec o sn ns v w)
      (fun v' => (forall k d, In k ns -> In d (prop_deps o k) -> In d sn) /\
                 Chain A (map (schema_dep o) (filter (active o) ns)) v v')
      ((exists k d, In k ns /\ In d (prop_deps o k) /\ ~ In d sn) \/
       (exists ks k v1, incl (k :: ks) ns /\ (forall j, In j (k :: ks) -> active o j = true) /\
          Chain A (map (schema_dep o) ks) v v1 /\ R (schema_dep o k) v1)).
  Proof.
    induction ns as [|k ns IH]; intros v w; cbn [deps_loop].
    { cbn. split; [tauto|constructor]. }
    cbn [filter]. unfold active at 1.
    destruct (prop_deps o k) as [|d0 ds] eqn:PD.
    - assert (G : schema_dep o k <> CNil -> good True match rec (schema_dep o k) v w with
        | (Pass, v', w') => deps_loop rec o sn ns v' w'
        | x => x end
        (fun v' => (forall k0 d, In k0 (k :: ns) -> In d (prop_deps o k0) -> In d sn) /\
                 Chain A (map (schema_dep o) (k :: filter (active o) ns)) v v')
        ((exists k0 d, In k0 (k :: ns) /\ In d (prop_deps o k0) /\ ~ In d sn) \/
         (exists ks k0 v1, incl (k0 :: ks) (k :: ns) /\ (forall j, In j (k0 :: ks) -> active o j = true) /\
          Chain A (map (schema_dep o) ks) v v1 /\ R (schema_dep o k0) v1))).
      { intros N. assert (AK : active o k = true).
        { unfold active. rewrite PD. destruct (schema_dep o k); congruence. }
        destruct (rec (schema_dep o k) v w) as [[r v1] w1] eqn:HR. apply K in HR; auto. destruct r; auto.
        - destruct HR as [HA _]. specialize (IH v1 w1). destruct (deps_loop rec o sn ns v1 w1) as [[[] v2] w2]; cbn [good] in *; auto.
          + destruct IH as [H1 H2]. split.
            * intros k0 d [<-|H0]; eauto. rewrite PD. intros [].
            * cbn [map]. econstructor; eauto.
          + destruct IH as [(k0 & d & H1 & H2 & H3)|(ks & k0 & v3 & H1 & H2 & H3 & H4)].
            * left. exists k0, d. splits; auto. now right.
            * right. exists (k :: ks), k0, v3. splits; auto.
              -- intros j [<-|[<-|Hj]]; [right; apply H1; now left|now left|right; apply H1; now right].
              -- intros j [<-|[<-|Hj]]; auto; apply H2; [now left|now right].
              -- cbn [map]. econstructor; eauto.
        - right. exists [], k, v. splits; auto; [intros j [<-|[]]; now left|intros j [<-|[]]; auto|constructor]. }
      assert (SK : good True (deps_loop rec o sn ns v w)
        (fun v' => (forall k0 d, In k0 (k :: ns) -> In d (prop_deps o k0) -> In d sn) /\
                 Chain A (map (schema_dep o) (filter (active o) ns)) v v')
        ((exists k0 d, In k0 (k :: ns) /\ In d (prop_deps o k0) /\ ~ In d sn) \/
         (exists ks k0 v1, incl (k0 :: ks) (k :: ns) /\ (forall j, In j (k0 :: ks) -> active o j = true) /\
          Chain A (map (schema_dep o) ks) v v1 /\ R (schema_dep o k0) v1))).
      { specialize (IH v w). destruct (deps_loop rec o sn ns v w) as [[[] v2] w2]; cbn [good] in *; auto.
        - destruct IH as [H1 H2]. split; auto. intros k0 d [<-|H0]; eauto. rewrite PD. intros [].
        - destruct IH as [(k0 & d & H1 & H2 & H3)|(ks & k0 & v3 & H1 & H2 & H3 & H4)].
          + left. exists k0, d. splits; auto. now right.
          + right. exists ks, k0, v3. splits; auto. intros j Hj. right. auto. }
      destruct (schema_dep o k) eqn:SD; try (apply G; discriminate). exact SK.
    - pose proof (missing_dep_spec sn (d0 :: ds)) as MD.
      destruct (missing_dep sn (d0 :: ds)) as [d|].
      + cbn [good]. left. exists k, d. rewrite PD. splits; try tauto. now left.
      + specialize (IH v w). destruct (deps_loop rec o sn ns v w) as [[[] v2] w2]; cbn [good] in *; auto.
        * destruct IH as [H1 H2]. split; auto. intros k0 d [<-|H0]; eauto. rewrite PD. auto.
        * destruct IH as [(k0 & d0' & H1 & H2 & H3)|(ks & k0 & v3 & H1 & H2 & H3 & H4)].
          -- left. exists k0, d0'. splits; auto. now right.
          -- right. exists ks, k0, v3. splits; auto. intros j Hj. right. auto.
  Qed.
End Deps.

(** a property dependency that is not met *)
Definition dep_missing (E : env) (o : objcfg) (m : list (string * gval)) : Prop :=
  exists k d, seen E o m k /\ In d (prop_deps o k) /\ ~ seen E o m d.

Lemma get_default_none' E n c d : get_default n E c = DNone -> ~ Default E c d.
Proof. intros H HD. eapply get_default_none; eauto. Qed.

Theorem obj_run E o T ET m w : ssorted (o_props o) -> ssorted m -> forall r v' w',
  Runs E (CObj o) (GMap T KString true ET (Some m)) w (r, v', w') ->
  match r with
  | Pass => exists m1 ks, props_sem (Passes E) E o m m1 /\ ~ dep_missing E o m /\
              (forall k, In k ks <-> seen E o m k /\ active o k = true) /\
              Chain (Passes E) (map (schema_dep o) ks) (GMap T KString true ET (Some m1)) v'
  | Fail _ => obj_front_bad (Fails E) E o m \/ dep_missing E o m \/
              exists m1 ks k v1, props_sem (Passes E) E o m m1 /\
                (forall j, In j (k :: ks) -> seen E o m j /\ active o j = true) /\
                Chain (Passes E) (map (schema_dep o) ks) (GMap T KString true ET (Some m1)) v1 /\
                Fails E (schema_dep o k) v1
  | _ => True
  end.
Proof.
  intros SP SM r v' w' H. apply runs_succ in H. destruct H as [n H]. cbn [validate] in H.
  pose (OK := fun v' => exists m1 ks, props_sem (Passes E) E o m m1 /\ ~ dep_missing E o m /\
              (forall k, In k ks <-> seen E o m k /\ active o k = true) /\
              Chain (Passes E) (map (schema_dep o) ks) (GMap T KString true ET (Some m1)) v').
  pose (BAD := obj_front_bad (Fails E) E o m \/ dep_missing E o m \/
              exists m1 ks k v1, props_sem (Passes E) E o m m1 /\
                (forall j, In j (k :: ks) -> seen E o m j /\ active o j = true) /\
                Chain (Passes E) (map (schema_dep o) ks) (GMap T KString true ET (Some m1)) v1 /\
                Fails E (schema_dep o k) v1).
  assert (G : good True (obj_validate (validate n E) (get_default n E) E o (GMap T KString true ET (Some m)) w) OK BAD).
  { apply (obj_sound_gen E (Passes E) (Fails E) (validate n E) (fun _ => True) (fun _ => True) True (step_K E n)
             (get_default n E)); auto.
    - intros; eapply get_default_sound; eauto.
    - intros; eapply get_default_none; eauto.
    - split; auto.
    - intros HB. left. exact HB.
    - intros m1 sn ns w1 _ PS IS SE.
      pose proof (deps_loop_run (validate n E) (Passes E) (Fails E) (step_K E n) o sn ns (GMap T KString true ET (Some m1)) w1) as D.
      destruct (deps_loop (validate n E) o sn ns _ w1) as [[[] v2] w2]; cbn [good] in *; auto.
      + destruct D as [D1 D2]. exists m1, (filter (active o) ns). splits; auto.
        * intros (k & d & H1 & H2 & H3). apply H3, SE. eapply D1; eauto. now apply IS.
        * intros k. rewrite filter_In, IS. reflexivity.
      + destruct D as [(k & d & D1 & D2 & D3)|(ks & k & v1 & D1 & D2 & D3 & D4)].
        * right. left. exists k, d. splits; auto; [now apply IS|now rewrite <- SE].
        * right. right. exists m1, ks, k, v1. splits; auto. intros j Hj. split; auto. apply IS. auto. }
  rewrite H in G. destruct r; auto.
Qed.

(** on values that are not maps with string keys... *)
Lemma chain_pure E l : Forall (pure E) l -> forall v v', Chain (Passes E) l v v' -> v' = v.
Proof.
  intros P v v' H. induction H as [|c l v v1 v2 H HC IH]; auto. inversion P; subst.
  rewrite IH; auto. destruct H as (w & w' & n & H & _). eapply validate_readonly; eauto.
Qed.

Lemma chain_all E l v : Chain (Passes E) l v v -> Forall (pure E) l -> forall c, In c l -> Passes E c v v.
Proof.
  intros H P. remember v as v' in H at 2.
  assert (G : forall a b, Chain (Passes E) l a b -> forall c, In c l -> Passes E c a a).
  { clear H Heqv' v v'. intros a b H. induction H as [|c l a a1 b H HC IH]; cbn; [tauto|].
    inversion P; subst. assert (a1 = a) by (destruct H as (w & w' & n & H & _); eapply validate_readonly; eauto). subst a1.
    intros x [<-|Hx]; auto. }
  eauto.
Qed.

(** ** Arrays, any value *)
Theorem arr_run E a v w r v' w' : Runs E (CArr a) v w (r, v', w') ->
  match r with
  | Pass => arr_sem (Passes E) (Fails E) E a v (Some v')
  | Fail _ => arr_sem (Passes E) (Fails E) E a v None
  | _ => True
  end.
Proof.
  intros H. apply runs_succ in H. destruct H as [n H]. cbn [validate] in H.
  pose proof (arr_sound E (Passes E) (Fails E) (validate n E) (fun _ => True) (fun _ => True) True
    (fun _ _ _ _ _ _ => I) (fun _ _ _ _ => I) (step_K E n) a v w) as G.
  rewrite H in G.
  assert (F : Forall (fun _ : constr => True) (a_pos a)) by (apply Forall_forall; auto).
  specialize (G I (fun _ => I) (fun _ => I) F).
  destruct r; auto. apply G.
Qed.

(** ** References (C30) *)
Theorem ref_runs E name c v w o : e_refs E name = Some c -> (Runs E (CRef name) v w o <-> Runs E c v w o).
Proof.
  intros H. split.
  - intros (n & HV & N). destruct n as [|n]; [subst; cbn in N; congruence|]. cbn in HV. rewrite H in HV. exists n. auto.
  - intros (n & HV & N). exists (S n). cbn. rewrite H. auto.
Qed.

Theorem ref_missing E name v w o : e_refs E name = None ->
  (Runs E (CRef name) v w o <-> o = (Fail ("reference '" +++ name +++ "' not found"), v, w)).
Proof.
  intros H. split.
  - intros (n & HV & N). destruct n as [|n]; [subst; cbn in N; congruence|]. cbn in HV. rewrite H in HV. auto.
  - intros ->. exists 1%nat. cbn. rewrite H. split; [auto|discriminate].
Qed.

Theorem ref_default E name c d : e_refs E name = Some c -> (Default E (CRef name) d <-> Default E c d).
Proof. intros H. split; [inversion 1; congruence|intros; econstructor; eauto]. Qed.

(** ** Combinators (C16) *)
Definition count_true (bs : list bool) : nat := List.length (filter (fun b => b) bs).

Lemma decides_use E c v b n w r v' w' : Decides E c v b -> validate n E c v w = (r, v', w') -> r <> OOF ->
  v' = v /\ if b then r = Pass else exists m, r = Fail m.
Proof. intros D H N. eapply D. eapply validate_runs; eauto. Qed.

Theorem any_decides E v l bs : Forall2 (fun c b => Decides E c v b) l bs ->
  Decides E (CAny l) v (existsb (fun b => b) bs).
Proof.
  intros F w r v' w' H. destruct H as (n & H & N). destruct n as [|n]; [cbn in H; injection H as <- <- <-; cbn in N; congruence|].
  cbn [validate] in H. cbn in N. revert w H. induction F as [|c b l bs D F IH]; intros w H; cbn [any_loop existsb] in *.
  - injection H as <- <- <-. eauto.
  - destruct (validate n E c v w) as [[rc v1] w1] eqn:HV.
    destruct rc; try (injection H as <- <- <-).
    1,3: destruct (decides_use _ _ _ _ _ _ _ _ _ D HV ltac:(discriminate)) as [-> Hb];
         destruct b; cbn [orb]; [split; auto; discriminate|destruct Hb as [? ?]; discriminate].
    + destruct (decides_use _ _ _ _ _ _ _ _ _ D HV ltac:(discriminate)) as [-> Hb].
      destruct b; [discriminate|]. cbn [orb]. eauto.
    + congruence.
Qed.

Theorem all_decides E v l bs : Forall2 (fun c b => Decides E c v b) l bs ->
  Decides E (CAll l) v (forallb (fun b => b) bs).
Proof.
  intros F w r v' w' H. destruct H as (n & H & N). destruct n as [|n]; [cbn in H; injection H as <- <- <-; cbn in N; congruence|].
  cbn [validate] in H. cbn in N. revert w H. induction F as [|c b l bs D F IH]; intros w H; cbn [all_loop forallb] in *.
  - injection H as <- <- <-. eauto.
  - destruct (validate n E c v w) as [[rc v1] w1] eqn:HV.
    destruct rc; try (injection H as <- <- <-).
    + destruct (decides_use _ _ _ _ _ _ _ _ _ D HV ltac:(discriminate)) as [-> Hb].
      destruct b; [|destruct Hb as [? ?]; discriminate]. cbn [andb]. eauto.
    + destruct (decides_use _ _ _ _ _ _ _ _ _ D HV ltac:(discriminate)) as [-> Hb].
      destruct b; [discriminate|]. cbn [andb]. eauto.
    + destruct (decides_use _ _ _ _ _ _ _ _ _ D HV ltac:(discriminate)) as [-> Hb].
      destruct b; [discriminate|destruct Hb as [? ?]; discriminate].
    + congruence.
Qed.

Theorem oneof_decides E v l bs : Forall2 (fun c b => Decides E c v b) l bs ->
  Decides E (COneOf l) v (Nat.eqb (count_true bs) 1).
Proof.
  intros F w r v' w' H. destruct H as (n & H & N). destruct n as [|n]; [cbn in H; injection H as <- <- <-; cbn in N; congruence|].
  cbn [validate] in H. cbn in N.
  assert (G : forall k w, oneof_loop (validate n E) l k v w = (r, v', w') ->
    v' = v /\ if Nat.eqb (k + count_true bs) 1 then r = Pass else exists m, r = Fail m).
  { clear w H. unfold count_true. induction F as [|c b l bs D F IH]; intros k w H; cbn [oneof_loop filter List.length] in *.
    - injection H as <- <- <-. rewrite Nat.add_0_r. destruct k as [|[|k]]; cbn; eauto.
    - destruct (validate n E c v w) as [[rc v1] w1] eqn:HV.
      destruct rc; try (injection H as <- <- <-).
      + destruct (decides_use _ _ _ _ _ _ _ _ _ D HV ltac:(discriminate)) as [-> Hb].
        destruct b; [|destruct Hb as [? ?]; discriminate]. cbn [List.length].
        rewrite Nat.add_succ_r, <- Nat.add_succ_l. eauto.
      + destruct (decides_use _ _ _ _ _ _ _ _ _ D HV ltac:(discriminate)) as [-> Hb].
        destruct b; [discriminate|]. eauto.
      + destruct (decides_use _ _ _ _ _ _ _ _ _ D HV ltac:(discriminate)) as [-> Hb].
        destruct b; [discriminate|destruct Hb as [? ?]; discriminate].
      + congruence. }
  exact (G 0%nat w H).
Qed.

Theorem not_decides E v c b : c <> CNil -> Decides E c v b -> Decides E (CNot c) v (negb b).
Proof.
  intros NC D w r v' w' H. destruct H as (n & H & N). destruct n as [|n]; [cbn in H; injection H as <- <- <-; cbn in N; congruence|].
  cbn [validate] in H. cbn in N. unfold not_validate in H.
  assert (H' : match validate n E c v w with
      | (Pass, v', w') => (Fail "'not' validation failed", v', w')
      | (Fail _, v', w') => (Pass, v', w')
      | o => o end = (r, v', w')) by (destruct c; [congruence|exact H..]).
  clear H. destruct (validate n E c v w) as [[rc v1] w1] eqn:HV.
  destruct rc; injection H' as <- <- <-; try congruence;
    destruct (decides_use _ _ _ _ _ _ _ _ _ D HV ltac:(discriminate)) as [-> Hb];
    destruct b; cbn [negb]; split; eauto; try discriminate; destruct Hb as [? ?]; discriminate.
Qed.

Theorem not_unset E v : Decides E (CNot CNil) v false.
Proof.
  intros w r v' w' H. destruct H as (n & H & N). destruct n as [|n]; [cbn in H; injection H as <- <- <-; cbn in N; congruence|].
  cbn in H. injection H as <- <- <-. eauto.
Qed.

(** order of children is irrelevant *)
Lemma forall2_perm {A B} (P : A -> B -> Prop) l l' : Permutation l l' -> forall bs, Forall2 P l bs ->
  exists bs', Permutation bs bs' /\ Forall2 P l' bs'.
Proof.
  induction 1 as [|x l l' H IH|x y l|l l' l'' H1 IH1 H2 IH2]; intros bs F.
  - inversion F; subst. exists []. auto.
  - inversion F as [|? b ? bs0 Hb F0]; subst. destruct (IH _ F0) as (bs' & P1 & P2). exists (b :: bs'). auto.
  - inversion F as [|? b ? bs0 Hb F0]; subst. inversion F0 as [|? b' ? bs1 Hb' F1]; subst.
    exists (b' :: b :: bs1). split; [constructor|auto].
  - destruct (IH1 _ F) as (bs1 & P1 & F1). destruct (IH2 _ F1) as (bs2 & P2 & F2). exists bs2. split; [eapply perm_trans; eauto|auto].
Qed.

Lemma forall2_exists {A B} (P : A -> B -> Prop) l : Forall (fun x => exists b, P x b) l -> exists bs, Forall2 P l bs.
Proof. induction 1 as [|x l [b H] F [bs IH]]; [exists []|exists (b :: bs)]; auto. Qed.

Lemma existsb_perm bs bs' : Permutation bs bs' -> existsb (fun b : bool => b) bs = existsb (fun b => b) bs'.
Proof. induction 1; cbn; try congruence. destruct x, y; reflexivity. Qed.
Lemma forallb_perm bs bs' : Permutation bs bs' -> forallb (fun b : bool => b) bs = forallb (fun b => b) bs'.
Proof. induction 1; cbn; try congruence. destruct x, y; reflexivity. Qed.
Lemma count_perm bs bs' : Permutation bs bs' -> count_true bs = count_true bs'.
Proof.
  unfold count_true. induction 1; cbn; try congruence.
  - destruct x; cbn; congruence.
  - destruct x, y; reflexivity.
Qed.

Theorem combinators_order E v l l' : Permutation l l' -> Forall (fun c => exists b, Decides E c v b) l ->
  (exists b, Decides E (CAny l) v b /\ Decides E (CAny l') v b) /\
  (exists b, Decides E (CAll l) v b /\ Decides E (CAll l') v b) /\
  (exists b, Decides E (COneOf l) v b /\ Decides E (COneOf l') v b).
Proof.
  intros P F. apply forall2_exists in F. destruct F as [bs F].
  destruct (forall2_perm _ _ _ P _ F) as (bs' & P' & F'). splits.
  - exists (existsb (fun b => b) bs). split; [now apply any_decides|]. rewrite (existsb_perm _ _ P'). now apply any_decides.
  - exists (forallb (fun b => b) bs). split; [now apply all_decides|]. rewrite (forallb_perm _ _ P'). now apply all_decides.
  - exists (Nat.eqb (count_true bs) 1). split; [now apply oneof_decides|]. rewrite (count_perm _ _ P'). now apply oneof_decides.
Qed.

(** ** Reduce (C17): same verdict, same value left behind, same panics; only error texts differ *)
Definition same (o o' : out) : Prop :=
  match o, o' with
  | (Pass, v, w), (Pass, v', w') => v = v' /\ w = w'
  | (Fail _, v, w), (Fail _, v', w') => v = v' /\ w = w'
  | (Panic m, v, w), (Panic m', v', w') => m = m' /\ v = v' /\ w = w'
  | _, _ => False
  end.

Theorem reduce_same E c v w o : Runs E c v w o -> exists o', Runs E (reduce c) v w o' /\ same o o'.
Proof.
  assert (SR : forall o, rs o <> OOF -> same o o).
  { intros [[[] ?] ?] N; cbn; auto. }
  intros H.
  assert (ID : reduce c = c -> exists o', Runs E (reduce c) v w o' /\ same o o').
  { intros ->. exists o. split; auto. apply SR. destruct H as (n & _ & N). exact N. }
  destruct c as [| | | | | | | | | |l|l|l| |]; try (apply ID; reflexivity);
    destruct l as [|x [|y l]]; try (apply ID; reflexivity); clear ID; cbn [reduce];
    destruct H as (n & H & N); (destruct n as [|n]; [subst o; cbn in N; congruence|]);
    cbn [validate any_loop all_loop oneof_loop] in H;
    destruct (validate n E x v w) as [[rc v1] w1] eqn:HV; exists (rc, v1, w1);
    (split; [exists n; split; [exact HV|]; destruct rc; try discriminate; subst o; cbn in N; congruence|]);
    destruct rc; subst o; cbn; auto; cbn in N; congruence.
Qed.

Theorem reduce_same_back E c v w o : Runs E (reduce c) v w o -> exists o', Runs E c v w o' /\ same o o'.
Proof.
  assert (SR : forall o, rs o <> OOF -> same o o).
  { intros [[[] ?] ?] N; cbn; auto. }
  intros H.
  assert (ID : reduce c = c -> exists o', Runs E c v w o' /\ same o o').
  { intros R. rewrite R in H. exists o. split; auto. apply SR. destruct H as (n & _ & N). exact N. }
  destruct c as [| | | | | | | | | |l|l|l| |]; try (apply ID; reflexivity);
    destruct l as [|x [|y l]]; try (apply ID; reflexivity); clear ID; cbn [reduce] in H;
    destruct H as (n & H & N); destruct o as [[rc v1] w1]; cbn in N;
    eexists; (split; [exists (S n); cbn [validate any_loop all_loop oneof_loop]; rewrite H|]).
  all: try (split; [reflexivity|destruct rc; cbn; congruence]).
  all: destruct rc; cbn; auto; congruence.
Qed.
