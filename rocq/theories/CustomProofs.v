(** Objects with property methods (Custom.v) against the validator of Validate.v. *)
From Verif Require Import Base GoFloat GoValue Maybe Formats Constraint StructInfo Validate Reach Frame StructProofs ReadOnly Simulate HeapProofs Custom.
Open Scope Z_scope. Open Scope string_scope. Open Scope list_scope.

(** ** Specification: an object that describes a map *)
(** a value GetPropValue can hand out and be understood: not nil (read as "no such
    property") and not a Maybe (which would be opened) *)
Definition present (x : gval) : Prop := x <> GNil /\ is_maybe (RV false x) = false.

(** [D s m]: in state s the object stands for the map m.  The methods answer accordingly;
    values in the map are those satisfying [V]. *)
Record faithful {S} (C : custom S) (V : gval -> Prop) (D : S -> list (string * gval) -> Prop) : Prop := {
  f_sorted : forall s m, D s m -> ssorted m;
  f_values : forall s m k x, D s m -> sget k m = Some x -> V x;
  f_self : forall s m, D s m -> exists T fs, deref1 (c_self C s) = RV false (GStruct T fs);
  f_names : forall s m, D s m -> exists l, c_names C s = Some l /\ Permutation l (keys m);
  f_get : forall s m k x, D s m -> sget k m = Some x -> c_get C s k = Some x;
  f_none : forall s m k, D s m -> sget k m = None ->
    c_get C s k = Some GNil \/ c_get C s k = None /\ get_prop (deref1 (c_self C s)) k = Some RZero;
  f_set : exists f, c_set C = Some f /\
    forall s m k d, D s m -> sget k m = None -> V d -> exists s', f s k d = inl s' /\ D s' (sset k d m);
  f_put : forall s m k x y, D s m -> sget k m = Some x -> V y -> D (c_put C s k y) (supd k y m)
}.

(** an enumeration element is neither a map like the described one nor of the struct's type *)
Definition foreign {S} (C : custom S) (e : gval) : Prop :=
  typ e <> "map[string]interface {}" /\ forall s, typ e <> typ (c_self C s).

(** ** Validation does not turn a value into nil, a Maybe or a pointer *)
Definition top (v : gval) : nat * string :=
  match v with GNil => (0%nat, "") | GMaybe _ => (1%nat, "") | GPtr T _ _ => (2%nat, T) | _ => (3%nat, "") end.

Lemma top_set_path path y v : path <> [] -> top (set_path path y v) = top v.
Proof. destruct path; [congruence|]. destruct v; reflexivity. Qed.

Lemma top_put_target k y x : top (put_target k y x) = top x.
Proof.
  destruct x; try reflexivity; cbn [put_target].
  - now destruct m.
  - destruct (extract _) as [props|]; auto. destruct (field_name props k); auto.
    destruct (field_by_name _ _) as [[path [fi x]]|] eqn:B; auto.
    apply field_by_name_path in B as (_ & _ & NE). now apply top_set_path.
Qed.

Lemma top_put v k y : top (put_prop v k y) = top v.
Proof. destruct v; try apply top_put_target. destruct p as [[[|] x]|]; reflexivity. Qed.

Lemma top_set_target E a x k d x' : set_target E a x k d = GOk x' -> top x' = top x.
Proof.
  destruct x; cbn [set_target]; try discriminate.
  - destruct kk; try discriminate; destruct d; try (intros [= <-]; reflexivity);
      destruct (_ || _)%bool; try discriminate; destruct m; try discriminate; intros [= <-]; reflexivity.
  - destruct (extract _) as [props|]; try discriminate. destruct (field_name props k) as [fn|]; try discriminate.
    destruct (field_by_name _ _) as [[path [fi f]]|] eqn:B; try discriminate.
    apply field_by_name_path in B as (_ & _ & NE).
    destruct d; try discriminate;
      repeat match goal with |- context[match ?e with _ => _ end] => destruct e; try discriminate end;
      intros [= <-]; now apply top_set_path.
Qed.

Lemma top_set E v k d v' : set_prop E v k d = GOk v' -> top v' = top v.
Proof.
  destruct v; cbn [set_prop]; try apply top_set_target.
  destruct p as [[[|] x]|]; try discriminate; destruct x; try discriminate;
    unfold gmapres; repeat match goal with |- context[match ?e with _ => _ end] => destruct e; try discriminate end;
    intros [= <-]; reflexivity.
Qed.

Lemma top_validate E n c v w r v' w' : validate n E c v w = (r, v', w') -> top v' = top v.
Proof.
  intros H. apply (validate_pres E (fun _ => True) (fun _ => True) (fun a b => top b = top a)) in H; try tauto; auto; try congruence.
  - intros. split; auto. apply top_put.
  - intros. split; auto. eapply top_set; eauto.
  - intros. now apply Forall_forall.
Qed.

Lemma top_present v v' : top v' = top v -> present v -> present v'.
Proof. unfold present. destruct v, v'; cbn; intros [=] [H1 H2]; subst; split; try congruence. Qed.

(** ** Sets of names *)
Lemma canon_fold l : forall (m : list (string * unit)), ssorted m ->
  ssorted (fold_left (fun m k => sset k tt m) l m) /\
  forall k, In k (keys (fold_left (fun m k => sset k tt m) l m)) <-> In k l \/ In k (keys m).
Proof.
  induction l as [|x l IH]; intros m S; cbn; [tauto|].
  destruct (IH (sset x tt m)) as [A B]; [now apply sset_sorted|]. split; auto.
  intros k. rewrite B, sset_keys. intuition congruence.
Qed.

Lemma canon_keys {A} l (m : list (string * A)) : ssorted m -> Permutation l (keys m) -> canon l = keys m.
Proof.
  intros S P. destruct (canon_fold l []) as [A1 A2]; [constructor|]. apply sorted_same; auto.
  intros k. unfold canon. rewrite A2. cbn. split; [intros [H|[]]|intros H; left]; [now apply (Permutation_in _ P)|now apply (Permutation_in _ (Permutation_sym P))].
Qed.

(** ** The verdict on a faithful object is that on the map it describes *)
Lemma no_cnil c : no_constr c = is_cnil c. Proof. reflexivity. Qed.

Lemma ieq_types e v : typ e <> typ v -> v <> GNil -> ieq e v = Some false.
Proof.
  intros N V. assert (X : is_gnil v = false) by (destruct v; auto; congruence).
  assert (Y : String.eqb (typ e) (typ v) = false) by now apply String.eqb_neq.
  destruct e; cbn [ieq is_gnil]; rewrite ?X; auto; rewrite Y; reflexivity.
Qed.

Section Sim.
Context {S : Type} (C : custom S) (D : S -> list (string * gval) -> Prop) (F : faithful C present D) (E : env).

Definition fit (c : constr) : Prop :=
  (forall l e, Applied E c (CEnum l) -> In e l -> foreign C e) /\
  (forall o k p d, Applied E c (CObj o) -> In (k, p) (o_props o) -> Default E p d -> present d).
Lemma fit_kid c x : fit c -> In x (coapplied E c) -> fit x.
Proof. intros [A B] I. split; intros; [eapply A|eapply B]; eauto; econstructor; eauto. Qed.

Definition sim (a : @cout S) (b : out) : Prop :=
  same_verdict (fst (fst a)) (fst (fst b)) /\ snd a = snd b /\
  exists m, snd (fst b) = gmap m /\ D (snd (fst a)) m.
Definition osim (a : res * @cstate S * orc) (b : res * ostate * orc) : Prop :=
  same_verdict (fst (fst a)) (fst (fst b)) /\ snd a = snd b /\
  exists s m pm sn, snd (fst a) = (s, pm, sn) /\ snd (fst b) = (gmap m, pm, sn) /\ D s m /\ incl pm (keys m).
Definition good (cr : @crecT S) (r : recT) : Prop :=
  forall c s m w, fit c -> D s m -> sim (cr c s w) (r c (gmap m) w).

Lemma sim_intro r r' s w m : same_verdict r r' -> D s m -> sim (r, s, w) (r', gmap m, w).
Proof. intros. repeat split; auto. exists m; auto. Qed.
Lemma osim_intro r r' s pm sn w m : same_verdict r r' -> D s m -> incl pm (keys m) -> osim (r, (s, pm, sn), w) (r', (gmap m, pm, sn), w).
Proof. intros. repeat split; auto. exists s, m, pm, sn; auto. Qed.
Lemma incl_remove k pm (l : list string) : incl pm l -> incl (remove_s k pm) l.
Proof. intros H x X. apply remove_s_In in X as [X _]. auto. Qed.
Lemma same_refl_v r : same_verdict r r. Proof. now destruct r. Qed.

(** property access *)
Lemma cget_at s m k x : D s m -> sget k m = Some x -> cget C s k = Some (RV false x) /\ present x.
Proof.
  intros H G. unfold cget. rewrite (f_get _ _ _ F _ _ _ _ H G). assert (P := f_values _ _ _ F _ _ _ _ H G).
  split; auto. destruct P as [N _]. destruct x; auto. congruence.
Qed.
Lemma cget_no s m k : D s m -> sget k m = None -> cget C s k = Some RZero.
Proof. intros H G. unfold cget. destruct (f_none _ _ _ F _ _ _ H G) as [->|[-> ->]]; auto. Qed.
Lemma get_map m k : get_prop (deref1 (gmap m)) k = match sget k m with None => Some RZero | Some x => Some (RV true x) end.
Proof. reflexivity. Qed.
Lemma cput_at s m k x y : D s m -> sget k m = Some x -> present y -> D (cput C s k y) (supd k y m).
Proof. intros H G P. unfold cput. rewrite (f_get _ _ _ F _ _ _ _ H G). eapply f_put; eauto. Qed.
Lemma look_at x : present x -> look_prop (RV false x) = LHere false x /\ look_prop (RV true x) = LHere false x.
Proof. intros [_ P]. cbn [look_prop]. now rewrite P. Qed.
Lemma cset_at s m k d : D s m -> sget k m = None -> present d ->
  exists s', cset C E s k d = GOk s' /\ set_prop E (gmap m) k d = GOk (gmap (sset k d m)) /\ D s' (sset k d m).
Proof.
  intros H G P. destruct (f_set _ _ _ F) as (f & Q & Hf). destruct (Hf _ _ _ _ H G P) as (s' & R & D').
  exists s'. unfold cset. rewrite Q, R. destruct P as [N _]. destruct d; try congruence; auto.
Qed.

(** combinations *)
Section loops.
Context (cr : @crecT S) (r : recT) (K : good cr r).

Lemma call_sim cs : Forall fit cs -> forall s m w, D s m -> sim (call_loop cr cs s w) (all_loop r cs (gmap m) w).
Proof.
  induction 1 as [|c cs Hc H IH]; intros s m w HD; cbn; [now apply sim_intro|].
  destruct (K c s m w Hc HD) as (A & B & m' & G & D'). destruct (cr c s w) as [[r1 s1] w1], (r c (gmap m) w) as [[r2 v2] w2]; cbn in *; subst.
  destruct r1, r2; try (destruct A; fail); try (apply sim_intro; auto; fail). now apply IH.
Qed.
Lemma cany_sim cs : Forall fit cs -> forall s m w, D s m -> sim (cany_loop cr cs s w) (any_loop r cs (gmap m) w).
Proof.
  induction 1 as [|c cs Hc H IH]; intros s m w HD; cbn; [now apply sim_intro|].
  destruct (K c s m w Hc HD) as (A & B & m' & G & D'). destruct (cr c s w) as [[r1 s1] w1], (r c (gmap m) w) as [[r2 v2] w2]; cbn in *; subst.
  destruct r1, r2; try (destruct A; fail); try (apply sim_intro; auto; fail). now apply IH.
Qed.
Lemma coneof_sim cs : Forall fit cs -> forall n s m w, D s m -> sim (coneof_loop cr cs n s w) (oneof_loop r cs n (gmap m) w).
Proof.
  induction 1 as [|c cs Hc H IH]; intros n s m w HD; cbn; [apply sim_intro; auto; apply same_refl_v|].
  destruct (K c s m w Hc HD) as (A & B & m' & G & D'). destruct (cr c s w) as [[r1 s1] w1], (r c (gmap m) w) as [[r2 v2] w2]; cbn in *; subst.
  destruct r1, r2; try (destruct A; fail); try (apply sim_intro; auto; fail); now apply IH.
Qed.
Lemma cnot_sim c s m w : fit c -> D s m -> sim (cnot cr c s w) (not_validate r c (gmap m) w).
Proof.
  intros Hc HD. assert (X : sim (match cr c s w with (Pass, s', w') => (Fail "'not' validation failed", s', w') | (Fail _, s', w') => (Pass, s', w') | o => o end)
    (match r c (gmap m) w with (Pass, s', w') => (Fail "'not' validation failed", s', w') | (Fail _, s', w') => (Pass, s', w') | o => o end)).
  { destruct (K c s m w Hc HD) as (A & B & m' & G & D'). destruct (cr c s w) as [[r1 s1] w1], (r c (gmap m) w) as [[r2 v2] w2]; cbn in *; subst.
    destruct r1, r2; try (destruct A; fail); apply sim_intro; auto. }
  destruct c; try exact X. cbn. now apply sim_intro.
Qed.
Lemma cdeps_sim o sn ns : Forall fit (map snd (o_sdeps o)) -> forall s m w, D s m -> sim (cdeps cr o sn ns s w) (deps_loop r o sn ns (gmap m) w).
Proof.
  intros FS. induction ns as [|k ns IH]; intros s m w HD; [now apply sim_intro|]. rewrite deps_eq. cbn [cdeps].
  destruct (prop_deps o k) as [|d ds].
  - rewrite no_cnil. destruct (is_cnil (schema_dep o k)) eqn:N; [now apply IH|].
    assert (Hc : fit (schema_dep o k)).
    { unfold schema_dep in *. destruct (sget k (o_sdeps o)) as [c|] eqn:G; [|discriminate]. rewrite Forall_forall in FS. apply FS.
      apply sget_in in G. now apply (in_map snd) in G. }
    destruct (K _ s m w Hc HD) as (A & B & m' & G & D'). destruct (cr _ s w) as [[r1 s1] w1], (r _ (gmap m) w) as [[r2 v2] w2]; cbn in *; subst.
    destruct r1, r2; try (destruct A; fail); try (apply sim_intro; auto; fail). now apply IH.
  - destruct (missing_dep sn (d :: ds)); [now apply sim_intro|now apply IH].
Qed.
End loops.

(** properties *)
Section object.
Context (n : nat).
Let rec := validate n E.

Lemma rec_present c x w r x' w' : rec c x w = (r, x', w') -> present x -> present x'.
Proof. intros H. apply top_present. eapply top_validate; eauto. Qed.

Lemma cprops_sim o ps : (forall k p d, In (k, p) ps -> Default E p d -> present d) ->
  forall s m pm sn w, D s m -> incl pm (keys m) ->
  osim (cprops C rec (get_default n E) E o ps (s, pm, sn) w) (props_loop rec (get_default n E) E o ps (gmap m, pm, sn) w).
Proof.
  induction ps as [|[k c] ps IH]; intros HP s m pm sn w HD IN; cbn [cprops props_loop]; [now apply osim_intro|].
  assert (IH' := fun s m pm sn w => IH (fun k p d I => HP k p d (or_intror I)) s m pm sn w). clear IH.
  rewrite get_map. destruct (sget k m) as [x|] eqn:G.
  - destruct (cget_at _ _ _ _ HD G) as [-> P]. destruct (look_at _ P) as [-> ->].
    destruct (rec c x w) as [[rs x'] w'] eqn:R. assert (P' := rec_present _ _ _ _ _ _ R P).
    assert (D' := cput_at _ _ _ _ _ HD G P'). change (put_prop (gmap m) k x') with (gmap (supd k x' m)).
    assert (IN' : incl (remove_s k pm) (keys (supd k x' m))) by (rewrite supd_keys; now apply incl_remove).
    destruct rs; try (apply osim_intro; auto; exact I). now apply IH'.
  - rewrite (cget_no _ _ _ HD G). cbn [look_prop]. destruct (is_required o k); [now apply osim_intro|].
    destruct (get_default n E c) as [|d| |] eqn:GD; try (apply osim_intro; auto; exact I); [now apply IH'|].
    assert (P : present d) by (eapply HP; [now left|eapply get_default_sound; eauto]).
    destruct (cset_at _ _ _ _ HD G P) as (s' & -> & -> & D'). apply IH'; auto.
    intros x X. apply sset_keys. right. auto.
Qed.

Lemma cpat_sim src c ns : forall s m pm sn w, D s m -> incl pm (keys m) -> incl ns (keys m) ->
  osim (cpat C rec E src c ns (s, pm, sn) w) (pat_inner rec E src c ns (gmap m, pm, sn) w).
Proof.
  induction ns as [|k ns IH]; intros s m pm sn w HD PM IN; cbn [cpat pat_inner]; [now apply osim_intro|].
  assert (IN2 : incl ns (keys m)) by (intros j J; apply IN; now right).
  destruct (negb (e_rx E src k)); [now apply IH|].
  rewrite get_map. destruct (sget k m) as [x|] eqn:G; [|apply sget_none_keys in G; destruct G; apply IN; now left].
  destruct (cget_at _ _ _ _ HD G) as [-> P]. cbn [interface].
  destruct (rec c x w) as [[rs x'] w'] eqn:R. assert (P' := rec_present _ _ _ _ _ _ R P).
  assert (D' := cput_at _ _ _ _ _ HD G P'). change (put_prop (gmap m) k x') with (gmap (supd k x' m)).
  assert (PM' : incl (remove_s k pm) (keys (supd k x' m))) by (rewrite supd_keys; now apply incl_remove).
  destruct rs; try (apply osim_intro; auto; exact I). apply IH; auto. now rewrite supd_keys.
Qed.

Lemma cpats_sim ps : forall s m pm sn w, D s m -> incl pm (keys m) ->
  osim (cpats C rec E ps (s, pm, sn) w) (pats_loop rec E ps (gmap m, pm, sn) w).
Proof.
  induction ps as [|[[id src] c] ps IH]; intros s m pm sn w HD PM; cbn [cpats pats_loop]; [now apply osim_intro|].
  destruct (shuffle w pm) as [ns w1] eqn:SH.
  assert (IN : incl ns (keys m)) by (intros j J; apply PM; eapply Permutation_in; [symmetry; eapply shuffle_perm; eauto|exact J]).
  destruct (cpat_sim src c ns s m pm sn w1 HD PM IN) as (A & B & s2 & m2 & pm2 & sn2 & Q1 & Q2 & D2 & P2).
  destruct (cpat _ _ _ _ _ _ _ _) as [[r1 st1] w2], (pat_inner _ _ _ _ _ _ _) as [[r2 st2] w3]; cbn in *; subst.
  destruct r1, r2; try (destruct A; fail); try (apply osim_intro; auto; fail). now apply IH.
Qed.

Lemma cadd_sim c ns : forall s m w, D s m -> incl ns (keys m) ->
  sim (cadd C rec c ns s w) (add_loop rec c ns (gmap m) w).
Proof.
  induction ns as [|k ns IH]; intros s m w HD IN; cbn [cadd add_loop]; [now apply sim_intro|].
  rewrite get_map. destruct (sget k m) as [x|] eqn:G; [|apply sget_none_keys in G; destruct G; apply IN; now left].
  destruct (cget_at _ _ _ _ HD G) as [-> P]. cbn [interface].
  destruct (rec c x w) as [[rs x'] w'] eqn:R. assert (P' := rec_present _ _ _ _ _ _ R P).
  assert (D' := cput_at _ _ _ _ _ HD G P'). change (put_prop (gmap m) k x') with (gmap (supd k x' m)).
  destruct rs; try (apply sim_intro; auto; exact I). apply IH; auto. rewrite supd_keys. intros j J; apply IN; now right.
Qed.

Lemma cobj_sim cr o s m w : good cr rec -> fit (CObj o) -> D s m ->
  sim (cobj C rec cr (get_default n E) E o s w) (obj_validate rec (get_default n E) E o (gmap m) w).
Proof.
  intros K FT HD. rewrite obj_eq. unfold cobj, cnames.
  destruct (f_names _ _ _ F _ _ HD) as (l & -> & PL). rewrite (canon_keys _ _ (f_sorted _ _ _ F _ _ HD) PL).
  rewrite (Permutation_length PL).
  destruct (_ && _); [now apply sim_intro|]. destruct (_ && _); [now apply sim_intro|].
  destruct (shuffle w (o_props o)) as [ps w1] eqn:SH.
  assert (HP : forall k p d, In (k, p) ps -> Default E p d -> present d).
  { intros k p d I. destruct FT as [_ B]. eapply B; [constructor|]. eapply Permutation_in; [|exact I]. symmetry. eapply shuffle_perm; eauto. }
  destruct (cprops_sim o ps HP s m (keys m) [] w1 HD (incl_refl _)) as (A & B & s2 & m2 & pm2 & sn2 & Q1 & Q2 & D2 & P2).
  destruct (cprops _ _ _ _ _ _ _ _) as [[r1 st1] w2], (props_loop _ _ _ _ _ _ _) as [[r2 st2] w2']; cbn in A, B, Q1, Q2; subst.
  destruct r1, r2; try (destruct A; fail); try (apply sim_intro; auto; fail).
  destruct (shuffle w2' (o_pats o)) as [pats w3] eqn:SH2.
  destruct (cpats_sim pats s2 m2 pm2 sn2 w3 D2 P2) as (A4 & B4 & s4 & m4 & pm4 & sn4 & Q3 & Q4 & D4 & P4).
  destruct (cpats _ _ _ _ _ _) as [[r3 st3] w4], (pats_loop _ _ _ _ _) as [[r4 st4] w4']; cbn in A4, B4, Q3, Q4; subst.
  destruct r3, r4; try (destruct A4; fail); try (apply sim_intro; auto; fail).
  match goal with |- sim _ (match ?x with _ => _ end) => set (rb := x) end.
  assert (X : sim (cextra C rec o pm4 s4 w4') rb).
  { unfold rb, cextra. clear rb. destruct pm4 as [|k pm4]; [now apply sim_intro|]. rewrite no_cnil. destruct (is_cnil (o_add o)); [now apply sim_intro|].
    destruct (shuffle w4' (k :: pm4)) as [ns w5] eqn:SH3. apply cadd_sim; auto.
    intros j J; apply P4; eapply Permutation_in; [symmetry; eapply shuffle_perm; eauto|exact J]. }
  clearbody rb. destruct (cextra C rec o pm4 s4 w4') as [[r5 s6] w6].
  destruct X as (A5 & B5 & m6 & Q6 & D6). destruct rb as [[r6 v6] w6']. cbn in A5, B5, Q6, D6. subst.
  destruct r5, r6; try (destruct A5; fail); try (apply sim_intro; auto; fail).
  destruct (shuffle w6' sn4) as [ns w7]. apply (cdeps_sim _ _ K); auto.
  apply Forall_forall. intros x X. eapply fit_kid; eauto.
Qed.
End object.

Lemma shallow s m n c w : D s m -> fit c ->
  match c with CObj _ | CAny _ | CAll _ | COneOf _ | CNot _ | CRef _ => False | _ => True end ->
  same_verdict (fst (fst (validate n E c (c_self C s) w))) (fst (fst (validate n E c (gmap m) w))) /\
  snd (validate n E c (gmap m) w) = w /\ snd (fst (validate n E c (gmap m) w)) = gmap m.
Proof.
  intros HD [FE _] H. destruct n as [|n]; [cbn; auto|].
  destruct (f_self _ _ _ F _ _ HD) as (T & fs & Q).
  destruct c; try (destruct H; fail); cbn [validate fst snd]; repeat split; auto.
  - destruct (c_self C s); try discriminate; cbn; auto. destruct p; [cbn; auto|discriminate].
  - destruct (c_self C s); try discriminate; cbn; auto.
  - unfold str_validate. rewrite Q. cbn. auto.
  - unfold num_validate. rewrite Q. cbn. auto.
  - unfold int_validate. rewrite Q. cbn. auto.
  - destruct (c_self C s); try discriminate; cbn; auto.
  - assert (X : forall v, (forall e, In e l -> typ e <> typ v) -> v <> GNil -> enum_loop l v = Fail "value is not in enumeration").
    { clear. induction l as [|e l IH]; intros v HV NV; cbn; auto. rewrite ieq_types; auto with datatypes. }
    rewrite !X; try exact I; try discriminate; try (intros e J; now destruct (FE l e (ap_refl _ _) J)).
    intros Z. rewrite Z in Q. discriminate.
Qed.

Theorem custom_sim n : good (cvalidate C n E) (validate n E).
Proof.
  induction n as [|n IH]; intros c s m w FT HD; [now apply sim_intro|].
  assert (FL : Forall fit (coapplied E c)) by (apply Forall_forall; intros; eapply fit_kid; eauto).
  destruct c; try (destruct (shallow s m (Datatypes.S n) _ w HD FT I) as (A & B & Q); split; [exact A|split; [now rewrite B|]];
                   exists m; split; [exact Q|exact HD]); cbn [cvalidate validate coapplied] in *.
  - now apply cobj_sim.
  - now apply (cany_sim _ _ IH).
  - now apply (call_sim _ _ IH).
  - now apply (coneof_sim _ _ IH).
  - inversion FL; subst. now apply (cnot_sim _ _ IH).
  - destruct (e_refs E name) as [c|]; [|now apply sim_intro]. inversion FL; subst. now apply IH.
Qed.
End Sim.

(** The verdict on an object that describes a map is the verdict on the map, and the object
    afterwards describes what the map has become.  Guards: no value in the map is nil or a
    Maybe ([present]), no default is, and enumerations the object itself is compared with
    hold neither maps nor structs of its type. *)
Theorem custom_verdict {S} (C : custom S) D E n c s m w r s' w' r1 v1 w1 :
  faithful C present D ->
  (forall l e, Applied E c (CEnum l) -> In e l -> foreign C e) ->
  (forall o k p d, Applied E c (CObj o) -> In (k, p) (o_props o) -> Default E p d -> present d) ->
  D s m ->
  cvalidate C n E c s w = (r, s', w') -> validate n E c (gmap m) w = (r1, v1, w1) ->
  same_verdict r r1 /\ w' = w1 /\ exists m', v1 = gmap m' /\ D s' m'.
Proof.
  intros F A B HD H1 H2. destruct (custom_sim C D F E n c s m w (conj A B) HD) as (X & Y & Z).
  rewrite H1, H2 in *. auto.
Qed.

(** ** Methods that all fail count for nothing *)
Definition mute {S} (C : custom S) : Prop :=
  (forall s, c_names C s = None) /\ (forall s k, c_get C s k = None) /\ c_set C = None /\
  forall s x, c_self C (c_with C s x) = x.

Lemma fold_sset_sorted {A} (l : list (string * A)) : forall m, ssorted m -> ssorted (fold_left (fun m kv => sset (fst kv) (snd kv) m) l m).
Proof. induction l as [|x l IH]; intros m H; cbn; auto. apply IH. now apply sset_sorted. Qed.
Lemma extract_sorted v props : extract v = Some props -> ssorted props.
Proof.
  destruct v; cbn [extract]; try discriminate.
  - assert (H : ssorted (@nil (string * propinfo))) by constructor. revert H. generalize (@nil (string * propinfo)) as acc.
    induction fs as [|[fi x] fs IH]; intros acc H Q; cbn in Q; [injection Q as <-; auto|].
    destruct (f_anon fi). { destruct (f_iface fi); try discriminate. destruct (extract x); try discriminate. eapply IH; [|exact Q]. now apply fold_sset_sorted. }
    destruct (negb _); [eauto|]. destruct (String.eqb _ _); [eauto|]. eapply IH; [|exact Q]. now apply sset_sorted.
  - intros [= <-]. constructor.
Qed.
Lemma prop_names_sorted props v l : ssorted props -> prop_names props v = Some l -> StronglySorted slt l /\ incl l (keys props).
Proof.
  unfold ssorted. revert l. induction props as [|[k p] props IH]; intros l HS Q.
  - injection Q as <-. split; [constructor|easy].
  - inversion HS as [|? ? S1 S2]; subst. unfold prop_names in Q. cbn [fold_right fst snd] in Q. change (fold_right _ _ props) with (prop_names props v) in Q.
    change (keys ((k, p) :: props)) with (k :: keys props).
    destruct (prop_names props v) as [l0|]; [|discriminate]. destruct (IH l0 S1 eq_refl) as [A B].
    assert (X : StronglySorted slt (k :: l0) /\ incl (k :: l0) (k :: keys props)).
    { split; [constructor; auto; apply Forall_forall; intros y Y; rewrite Forall_forall in S2; auto|].
      intros y [->|Y]; [now left|right; auto]. }
    assert (Y : StronglySorted slt l0 /\ incl l0 (k :: keys props)) by (split; auto; intros y Y; right; auto).
    destruct (p_maybe p); [|injection Q as <-; auto].
    destruct (field_by_name v _) as [[path [fi x]]|]; [|discriminate].
    destruct (maybe_of (RV (f_iface fi) x)) as [m|]; [|discriminate]. destruct (m_valid m); injection Q as <-; auto.
Qed.
Lemma canon_sorted l : StronglySorted slt l -> canon l = l.
Proof.
  intros H. destruct (canon_fold l []) as [A1 A2]; [constructor|]. apply sorted_same; auto.
  intros k. unfold canon. rewrite A2. cbn. tauto.
Qed.

(** a struct or a pointer to one *)
Definition structy (v : gval) : Prop := exists T fs, deref1 v = RV false (GStruct T fs).

Lemma names_canon v l : structy v -> get_names (deref1 v) = GOk l -> canon l = l.
Proof.
  intros (T & fs & Q). rewrite Q. unfold get_names. cbn [elem].
  destruct (extract (GStruct T fs)) as [props|] eqn:X; [|discriminate].
  destruct (prop_names props _) as [l'|] eqn:P; [|discriminate]. intros [= <-].
  apply canon_sorted. eapply prop_names_sorted; [eapply extract_sorted; eauto|eauto].
Qed.

Lemma put_struct T fs k y : exists fs', put_target k y (GStruct T fs) = GStruct T fs'.
Proof.
  cbn [put_target]. destruct (extract _) as [props|]; eauto. destruct (field_name props k); eauto.
  destruct (field_by_name _ _) as [[path [fi x]]|] eqn:B; eauto.
  apply field_by_name_path in B as (_ & _ & NE). destruct path; [congruence|]. cbn. eauto.
Qed.
Lemma structy_put v k y : structy v -> structy (put_prop v k y).
Proof.
  intros (T & fs & Q). destruct v; try discriminate.
  - destruct p as [[i x]|]; try discriminate. cbn in Q. injection Q as -> ->. destruct (put_struct T fs k y) as [fs' H].
    exists T, fs'. cbn [put_prop]. now rewrite H.
  - cbn in Q. injection Q as -> ->. destruct (put_struct T fs k y) as [fs' H]. exists T, fs'. cbn [put_prop]. now rewrite H.
Qed.
Lemma set_struct E a T fs k d v : set_target E a (GStruct T fs) k d = GOk v -> exists fs', v = GStruct T fs'.
Proof.
  cbn [set_target]. destruct (extract _) as [props|]; try discriminate. destruct (field_name props k) as [fn|]; try discriminate.
  destruct (field_by_name _ _) as [[path [fi f]]|] eqn:B; try discriminate.
  apply field_by_name_path in B as (_ & _ & NE). destruct path as [|i path]; [congruence|].
  destruct d; try discriminate;
    repeat match goal with |- context[match ?e with _ => _ end] => destruct e; try discriminate end;
    intros [= <-]; cbn; eauto.
Qed.
Lemma structy_set E v k d v' : structy v -> set_prop E v k d = GOk v' -> structy v'.
Proof.
  intros (T & fs & Q). destruct v; try discriminate.
  - destruct p as [[i x]|]; try discriminate. cbn in Q. injection Q as -> ->. cbn [set_prop]. unfold gmapres.
    destruct (set_target _ _ _ _ _) as [x| |] eqn:ST; try discriminate. intros [= <-]. apply set_struct in ST as [fs' ->]. exists T, fs'. auto.
  - cbn in Q. injection Q as -> ->. intros H. apply (set_struct E false) in H as [fs' ->]. exists T, fs'. auto.
Qed.

Section Mute.
Context {S : Type} (C : custom S) (M : mute C) (E : env).
Definition self (a : @cout S) : out := (fst (fst a), c_self C (snd (fst a)), snd a).
Definition oself (a : res * @cstate S * orc) : res * ostate * orc :=
  let '(r, (s, pm, sn), w) := a in (r, (c_self C s, pm, sn), w).
Definition ok (s : S) : Prop := structy (c_self C s).
Definition mgood (cr : @crecT S) (r : recT) : Prop :=
  forall c s w, ok s -> self (cr c s w) = r c (c_self C s) w /\ ok (snd (fst (cr c s w))).

Lemma mget s k : cget C s k = get_prop (deref1 (c_self C s)) k.
Proof. unfold cget. destruct M as (_ & -> & _). reflexivity. Qed.
Lemma mput s k y : c_self C (cput C s k y) = put_prop (c_self C s) k y.
Proof. unfold cput. destruct M as (_ & -> & _ & W). apply W. Qed.
Lemma mput_ok s k y : ok s -> ok (cput C s k y).
Proof. unfold ok. rewrite mput. apply structy_put. Qed.
Lemma mset s k d : ok s ->
  match cset C E s k d with
  | GOk s' => set_prop E (c_self C s) k d = GOk (c_self C s') /\ ok s'
  | GErr m => set_prop E (c_self C s) k d = GErr m
  | GPanic m => set_prop E (c_self C s) k d = GPanic m
  end.
Proof.
  intros O. unfold cset, ok. destruct M as (_ & -> & -> & W). destruct (set_prop E (c_self C s) k d) as [x| |] eqn:ST; auto.
  rewrite W. split; auto. eapply structy_set; eauto.
Qed.

Section loops.
Context (cr : @crecT S) (r : recT) (K : mgood cr r).
Local Ltac go c s w O :=
  let A := fresh "A" in let B := fresh "B" in
  destruct (K c s w O) as [A B]; destruct (cr c s w) as [[? ?] ?]; cbn in A, B; rewrite <- A; clear A.
Lemma mcall cs : forall s w, ok s -> self (call_loop cr cs s w) = all_loop r cs (c_self C s) w /\ ok (snd (fst (call_loop cr cs s w))).
Proof. induction cs as [|c cs IH]; intros s w O; cbn; auto. go c s w O. destruct r0; try (now apply IH); cbn; auto. Qed.
Lemma mcany cs : forall s w, ok s -> self (cany_loop cr cs s w) = any_loop r cs (c_self C s) w /\ ok (snd (fst (cany_loop cr cs s w))).
Proof. induction cs as [|c cs IH]; intros s w O; cbn; auto. go c s w O. destruct r0; try (now apply IH); cbn; auto. Qed.
Lemma mconeof cs : forall n s w, ok s -> self (coneof_loop cr cs n s w) = oneof_loop r cs n (c_self C s) w /\ ok (snd (fst (coneof_loop cr cs n s w))).
Proof. induction cs as [|c cs IH]; intros n s w O; cbn; auto. go c s w O. destruct r0; try (now apply IH); cbn; auto. Qed.
Lemma mcnot c s w : ok s -> self (cnot cr c s w) = not_validate r c (c_self C s) w /\ ok (snd (fst (cnot cr c s w))).
Proof. intros O. destruct c; cbn; auto; match goal with |- context[cr ?c s w] => go c s w O end; destruct r0; cbn; auto. Qed.
Lemma mcdeps o sn ns : forall s w, ok s -> self (cdeps cr o sn ns s w) = deps_loop r o sn ns (c_self C s) w /\ ok (snd (fst (cdeps cr o sn ns s w))).
Proof.
  induction ns as [|k ns IH]; intros s w O; [cbn; auto|]. rewrite deps_eq. cbn [cdeps].
  destruct (prop_deps o k) as [|d ds].
  - rewrite no_cnil. destruct (is_cnil (schema_dep o k)); [now apply IH|]. go (schema_dep o k) s w O. destruct r0; try (now apply IH); cbn; auto.
  - destruct (missing_dep sn (d :: ds)); [cbn; auto|now apply IH].
Qed.
End loops.

Section object.
Context (rec : recT) (gd : constr -> dres).
Let okst (a : res * @cstate S * orc) : Prop := ok (fst (fst (snd (fst a)))).
Lemma mprops o ps : forall s pm sn w, ok s ->
  oself (cprops C rec gd E o ps (s, pm, sn) w) = props_loop rec gd E o ps (c_self C s, pm, sn) w /\ okst (cprops C rec gd E o ps (s, pm, sn) w).
Proof.
  induction ps as [|[k c] ps IH]; intros s pm sn w O; cbn [cprops props_loop]; [cbn; auto|]. rewrite mget.
  destruct (get_prop _ k) as [pv|]; [|cbn; auto]. destruct (look_prop pv) as [| |u x]; [cbn; auto| |].
  - destruct (is_required o k); [cbn; auto|]. destruct (gd c) as [|d| |]; try (cbn; auto; fail).
    assert (X := mset s k d O). destruct (cset C E s k d) as [s'| |]; [destruct X as [-> O']; now apply IH|rewrite X; cbn; auto|rewrite X; cbn; auto].
  - destruct (rec c x w) as [[rs x'] w']. assert (O' := mput_ok s k x' O).
    destruct u; [|rewrite <- mput]; destruct rs; try (cbn; auto; fail); now apply IH.
Qed.
Lemma mpat src c ns : forall s pm sn w, ok s ->
  oself (cpat C rec E src c ns (s, pm, sn) w) = pat_inner rec E src c ns (c_self C s, pm, sn) w /\ okst (cpat C rec E src c ns (s, pm, sn) w).
Proof.
  induction ns as [|k ns IH]; intros s pm sn w O; cbn [cpat pat_inner]; [cbn; auto|].
  destruct (negb _); [now apply IH|]. rewrite mget. destruct (get_prop _ k) as [pv|]; [|cbn; auto].
  destruct (interface pv) as [x|]; [|cbn; auto]. destruct (rec c x w) as [[rs x'] w']. assert (O' := mput_ok s k x' O). rewrite <- mput.
  destruct rs; try (cbn; auto; fail); now apply IH.
Qed.
Lemma mpats ps : forall s pm sn w, ok s ->
  oself (cpats C rec E ps (s, pm, sn) w) = pats_loop rec E ps (c_self C s, pm, sn) w /\ okst (cpats C rec E ps (s, pm, sn) w).
Proof.
  induction ps as [|[[id src] c] ps IH]; intros s pm sn w O; cbn [cpats pats_loop]; [cbn; auto|].
  destruct (shuffle w pm) as [ns w1]. destruct (mpat src c ns s pm sn w1 O) as [A B].
  destruct (cpat _ _ _ _ _ _ _ _) as [[r1 [[s2 pm2] sn2]] w2]. cbn in A, B. rewrite <- A. destruct r1; try (now apply IH); cbn; auto.
Qed.
Lemma madd c ns : forall s w, ok s -> self (cadd C rec c ns s w) = add_loop rec c ns (c_self C s) w /\ ok (snd (fst (cadd C rec c ns s w))).
Proof.
  induction ns as [|k ns IH]; intros s w O; cbn [cadd add_loop]; [cbn; auto|]. rewrite mget. destruct (get_prop _ k) as [pv|]; [|cbn; auto].
  destruct (interface pv) as [x|]; [|cbn; auto]. destruct (rec c x w) as [[rs x'] w']. assert (O' := mput_ok s k x' O). rewrite <- mput.
  destruct rs; try (cbn; auto; fail); now apply IH.
Qed.
Lemma mobj cr o s w : mgood cr rec -> ok s ->
  self (cobj C rec cr gd E o s w) = obj_validate rec gd E o (c_self C s) w /\ ok (snd (fst (cobj C rec cr gd E o s w))).
Proof.
  intros K O. unfold cobj, obj_validate, cnames. destruct M as (-> & _).
  destruct (get_names (deref1 (c_self C s))) as [l| |] eqn:N; [|cbn; auto|cbn; auto]. rewrite (names_canon _ _ O N). cbv zeta.
  destruct (_ && _); [cbn; auto|]. destruct (_ && _); [cbn; auto|]. destruct (shuffle w (o_props o)) as [ps w1].
  destruct (mprops o ps s l [] w1 O) as [A B]. destruct (cprops _ _ _ _ _ _ _ _) as [[r1 [[s2 pm2] sn2]] w2]. cbn in A, B. rewrite <- A. clear A.
  destruct r1; try (cbn; auto; fail). destruct (shuffle w2 (o_pats o)) as [pats w3].
  destruct (mpats pats s2 pm2 sn2 w3 B) as [A2 B2]. destruct (cpats _ _ _ _ _ _) as [[r3 [[s4 pm4] sn4]] w4]. cbn in A2, B2. rewrite <- A2. clear A2.
  destruct r3; try (cbn; auto; fail).
  assert (Fin : forall s6 w6, ok s6 -> self (let '(ns, w7) := shuffle w6 sn4 in cdeps cr o sn4 ns s6 w7) =
      (let '(ns, w7) := shuffle w6 sn4 in deps_loop rec o sn4 ns (c_self C s6) w7) /\
      ok (snd (fst (let '(ns, w7) := shuffle w6 sn4 in cdeps cr o sn4 ns s6 w7)))).
  { intros s6 w6 O6. destruct (shuffle w6 sn4) as [ns w7]. now apply (mcdeps _ _ K). }
  unfold cextra. destruct pm4 as [|k pm4]; [now apply Fin|]. destruct (shuffle w4 (k :: pm4)) as [ns w5].
  destruct (o_add o); cbn [no_constr]; try (cbn; auto; fail);
    match goal with |- context[cadd C rec ?c ns s4 w5] =>
      destruct (madd c ns s4 w5 B2) as [A5 B5]; destruct (cadd C rec c ns s4 w5) as [[r5 s6] w6];
      unfold self in A5; cbn [fst snd] in A5, B5; rewrite <- A5; destruct r5; try (now apply Fin); cbn; auto end.
Qed.
End object.

Theorem mute_sim n : mgood (cvalidate C n E) (validate n E).
Proof.
  induction n as [|n IH]; intros c s w O; [cbn; auto|].
  assert (X : match c with CObj _ | CAny _ | CAll _ | COneOf _ | CNot _ | CRef _ | CArr _ => True
              | _ => snd (validate (Datatypes.S n) E c (c_self C s) w) = w /\ snd (fst (validate (Datatypes.S n) E c (c_self C s) w)) = c_self C s end)
    by (destruct c; cbn; auto).
  destruct c; try (assert (X1 := proj1 X); assert (X2 := proj2 X); cbn [cvalidate]; unfold self; cbn [fst snd]; split; [|exact O];
     match goal with |- context[validate (Datatypes.S n) E ?c ?v ?w] => destruct (validate (Datatypes.S n) E c v w) as [[? ?] ?] end; cbn in *; congruence); clear X.
  - assert (Y : arr_validate (validate n E) E a (c_self C s) w = (fst (fst (arr_validate (validate n E) E a (c_self C s) w)), c_self C s, w)).
    { destruct O as (T & fs & Q). destruct (c_self C s); try discriminate; reflexivity. }
    cbn [cvalidate]. split; [|exact O]. unfold self. cbn [fst snd]. symmetry. exact Y.
  - cbn [cvalidate validate]. now apply mobj.
  - cbn [cvalidate validate]. now apply (mcany _ _ IH).
  - cbn [cvalidate validate]. now apply (mcall _ _ IH).
  - cbn [cvalidate validate]. now apply (mconeof _ _ IH).
  - cbn [cvalidate validate]. now apply (mcnot _ _ IH).
  - cbn [cvalidate validate]. destruct (e_refs E name) as [c|]; [now apply IH|cbn; auto].
Qed.
End Mute.

(** A struct whose methods all return errors is validated as a struct without methods:
    same verdict and message, same changes. *)
Theorem mute_verdict {S} (C : custom S) E n c s w r s' w' :
  mute C -> structy (c_self C s) -> cvalidate C n E c s w = (r, s', w') ->
  validate n E c (c_self C s) w = (r, c_self C s', w').
Proof. intros M O H. destruct (mute_sim C M E n c s w O) as [A _]. rewrite H in A. now rewrite <- A. Qed.
