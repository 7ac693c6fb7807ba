(** The verdict depends only on the references that can be reached (C41, C59). *)
From Verif Require Import Base GoFloat GoValue Maybe Formats Constraint StructInfo Validate Reach ConstrInd.
Open Scope Z_scope.

(** the same host functions, other registered references *)
Definition set_refs (E : env) (f : string -> option constr) : env :=
  {| e_rx := e_rx E; e_time := e_time E; e_email := e_email E; e_uri := e_uri E; e_ip := e_ip E;
     e_ffmt := e_ffmt E; e_sprint := e_sprint E; e_refs := f |}.

Lemma sprint_local E f1 f2 v : forall top, sprint (set_refs E f1) top v = sprint (set_refs E f2) top v.
Proof.
  induction v using gval_ind'; intros top; try reflexivity; cbn [sprint].
  - assert (map (sprint (set_refs E f1) false) l = map (sprint (set_refs E f2) false) l) as ->; [|reflexivity].
    apply map_ext_in. intros x I. rewrite Forall_forall in H. now apply H.
  - assert (map (fun kv => fst kv +++ ":" +++ sprint (set_refs E f1) false (snd kv)) m =
            map (fun kv => fst kv +++ ":" +++ sprint (set_refs E f2) false (snd kv)) m) as ->; [|reflexivity].
    apply map_ext_in. intros x I. rewrite Forall_forall in H. now rewrite H.
Qed.

Section Loops.
  Context (r1 r2 : recT).
  Definition same (c : constr) : Prop := forall v w, r1 c v w = r2 c v w.

  Lemma all_same cs : Forall same cs -> forall v w, all_loop r1 cs v w = all_loop r2 cs v w.
  Proof. induction 1 as [|c cs H _ IH]; intros v w; cbn; auto. rewrite H. destruct (r2 c v w) as [[[] ?] ?]; auto. Qed.
  Lemma any_same cs : Forall same cs -> forall v w, any_loop r1 cs v w = any_loop r2 cs v w.
  Proof. induction 1 as [|c cs H _ IH]; intros v w; cbn; auto. rewrite H. destruct (r2 c v w) as [[[] ?] ?]; auto. Qed.
  Lemma oneof_same cs : Forall same cs -> forall k v w, oneof_loop r1 cs k v w = oneof_loop r2 cs k v w.
  Proof. induction 1 as [|c cs H _ IH]; intros k v w; cbn; auto. rewrite H. destruct (r2 c v w) as [[[] ?] ?]; auto. Qed.
  Lemma not_same c : same c -> forall v w, not_validate r1 c v w = not_validate r2 c v w.
  Proof. intros H v w. unfold not_validate. rewrite H. reflexivity. Qed.
  Lemma idx_same jobs : Forall (fun j : nat * constr => same (snd j)) jobs -> forall l w, idx_loop r1 jobs l w = idx_loop r2 jobs l w.
  Proof.
    induction 1 as [|[i c] jobs H _ IH]; intros l w; cbn; auto. cbn in H. rewrite H.
    destruct (r2 c (nth i l GNil) w) as [[[] ?] ?]; auto.
  Qed.
  Lemma arr_same E f1 f2 a : same (a_items a) -> same (a_add a) -> Forall same (a_pos a) ->
    forall v w, arr_validate r1 (set_refs E f1) a v w = arr_validate r2 (set_refs E f2) a v w.
  Proof.
    intros Hi Ha Hp v w. unfold arr_validate. destruct v; auto.
    assert (U : forall l seen, uniq_loop (set_refs E f1) seen l = uniq_loop (set_refs E f2) seen l).
    { induction l0 as [|x l0 IH]; intros seen; cbn; auto.
      rewrite (sprint_local E f1 f2 x).
      now rewrite IH. }
    rewrite U. clear U.
    assert (J : forall c s n, same c -> Forall (fun j : nat * constr => same (snd j)) (map (fun i => (i, c)) (seq s n))).
    { intros c s n Hc. apply Forall_forall. intros j Hj. apply in_map_iff in Hj as (i & <- & _). exact Hc. }
    assert (P : forall n, Forall (fun j : nat * constr => same (snd j)) (positional_jobs (a_pos a) n)).
    { intros n. unfold positional_jobs. apply Forall_forall. intros [i c] Hj. apply in_combine_r in Hj.
      rewrite Forall_forall in Hp. cbn. auto. }
    repeat match goal with |- context [if ?b then _ else _] => destruct b; auto end;
      (destruct (a_items a) eqn:Ei; [|rewrite (idx_same _ (J _ _ _ Hi)); reflexivity..]);
      rewrite (idx_same _ (P _)); destruct (idx_loop _ _ _ _) as [[[] ?] ?]; auto;
      destruct (a_add a) eqn:Ea; auto; rewrite (idx_same _ (J _ _ _ Ha)); reflexivity.
  Qed.

  Lemma props_same g1 g2 E f1 f2 o ps : Forall (fun e : string * constr => same (snd e) /\ g1 (snd e) = g2 (snd e)) ps ->
    forall st w, props_loop r1 g1 (set_refs E f1) o ps st w = props_loop r2 g2 (set_refs E f2) o ps st w.
  Proof.
    induction 1 as [|[k c] ps [H G] _ IH]; intros [[v pr] se] w; cbn [props_loop]; auto. cbn [snd] in *.
    destruct (get_prop (deref1 v) k) as [pv|]; auto. destruct (look_prop pv) as [| |u x]; auto.
    - destruct (is_required o k); auto. rewrite G. destruct (g2 c) eqn:Gd; auto.
      change (set_prop (set_refs E f1) v k d) with (set_prop (set_refs E f2) v k d).
      destruct (set_prop (set_refs E f2) v k d); auto.
    - rewrite H. destruct (r2 c x w) as [[[] ?] ?]; auto.
  Qed.
  Lemma pat_inner_same E f1 f2 src c : same c -> forall ns st w,
    pat_inner r1 (set_refs E f1) src c ns st w = pat_inner r2 (set_refs E f2) src c ns st w.
  Proof.
    intros H. induction ns as [|k ns IH]; intros [[v pr] se] w; cbn [pat_inner]; auto.
    change (e_rx (set_refs E f1) src k) with (e_rx (set_refs E f2) src k).
    destruct (negb _); auto. destruct (get_prop (deref1 v) k) as [pv|]; auto. destruct (interface pv) as [x|]; auto.
    rewrite H. destruct (r2 c x w) as [[[] ?] ?]; auto.
  Qed.
  Lemma pats_same E f1 f2 ps : Forall (fun e : (nat * string) * constr => same (snd e)) ps -> forall st w,
    pats_loop r1 (set_refs E f1) ps st w = pats_loop r2 (set_refs E f2) ps st w.
  Proof.
    induction 1 as [|[[i src] c] ps H _ IH]; intros [[v pr] se] w; cbn [pats_loop]; auto.
    destruct (shuffle w pr) as [ns w1]. rewrite (pat_inner_same E f1 f2 src c H).
    destruct (pat_inner r2 _ _ _ _ _ _) as [[[] ?] ?]; auto.
  Qed.
  Lemma add_same c : same c -> forall ns v w, add_loop r1 c ns v w = add_loop r2 c ns v w.
  Proof.
    intros H. induction ns as [|k ns IH]; intros v w; cbn [add_loop]; auto.
    destruct (get_prop (deref1 v) k) as [pv|]; auto. destruct (interface pv) as [x|]; auto.
    rewrite H. destruct (r2 c x w) as [[[] ?] ?]; auto.
  Qed.
  Lemma deps_same o se : (forall k, same (schema_dep o k)) -> forall ns v w, deps_loop r1 o se ns v w = deps_loop r2 o se ns v w.
  Proof.
    intros H. induction ns as [|k ns IH]; intros v w; cbn [deps_loop]; auto.
    destruct (prop_deps o k) as [|d ds].
    - pose proof (H k) as Hk. destruct (schema_dep o k) eqn:Es; auto;
        rewrite Hk; match goal with |- context [match ?x with _ => _ end] => destruct x as [[[] ?] ?]; auto end.
    - destruct (missing_dep se (d :: ds)); auto.
  Qed.
  Lemma obj_same g1 g2 E f1 f2 o :
    same (o_add o) -> (forall k x, In (k, x) (o_props o) -> same x /\ g1 x = g2 x) -> (forall k x, In (k, x) (o_pats o) -> same x) ->
    (forall k, same (schema_dep o k)) ->
    forall v w, obj_validate r1 g1 (set_refs E f1) o v w = obj_validate r2 g2 (set_refs E f2) o v w.
  Proof.
    intros Ha Hp Ht Hs v w. unfold obj_validate. destruct (get_names (deref1 v)); auto.
    repeat match goal with |- context [if ?b then _ else _] => destruct b; auto end.
    destruct (shuffle w (o_props o)) as [ps w1] eqn:S1. apply shuffle_perm in S1.
    rewrite (props_same g1 g2 E f1 f2 o ps).
    2: { apply Forall_forall. intros [k c] I. apply (Hp k). eapply Permutation_in; [symmetry; exact S1|exact I]. }
    destruct (props_loop _ _ _ _ _ _ _) as [[[] [[v2 pr2] se2]] w2]; auto.
    destruct (shuffle w2 (o_pats o)) as [pt w3] eqn:S2. apply shuffle_perm in S2.
    rewrite (pats_same E f1 f2 pt).
    2: { apply Forall_forall. intros [k c] I. apply (Ht k). eapply Permutation_in; [symmetry; exact S2|exact I]. }
    destruct (pats_loop _ _ _ _ _) as [[[] [[v4 pr4] se4]] w4]; auto.
    assert (R5 : match pr4 with [] => (Pass, v4, w4) | _ :: _ =>
              match o_add o with CNil => (Fail "additional properties are not allowed", v4, w4)
              | c => let '(ns, w5) := shuffle w4 pr4 in add_loop r1 c ns v4 w5 end end =
              match pr4 with [] => (Pass, v4, w4) | _ :: _ =>
              match o_add o with CNil => (Fail "additional properties are not allowed", v4, w4)
              | c => let '(ns, w5) := shuffle w4 pr4 in add_loop r2 c ns v4 w5 end end).
    { destruct pr4; auto. destruct (o_add o) eqn:Eo; auto; destruct (shuffle w4 (s :: pr4)); now rewrite (add_same _ Ha). }
    cbv zeta. rewrite R5. match goal with |- match ?x with _ => _ end = _ => destruct x as [[[] v6] w6]; auto end.
    destruct (shuffle w6 se4). now rewrite (deps_same o se4 Hs).
  Qed.
End Loops.

(** f1 and f2 agree on every name reachable from c *)
Definition agree (E : env) (f1 f2 : string -> option constr) (c : constr) : Prop :=
  forall n, Reach (set_refs E f1) c (CRef n) -> f1 n = f2 n.

Lemma agree_child E f1 f2 c x : agree E f1 f2 c -> In x (children (set_refs E f1) c) -> agree E f1 f2 x.
Proof. intros A I n R. apply A. eapply reach_step; eauto. Qed.

Lemma get_default_local E f1 f2 n : forall c, agree E f1 f2 c -> get_default n (set_refs E f1) c = get_default n (set_refs E f2) c.
Proof.
  induction n as [|n IH]; intros c A; cbn [get_default]; auto. destruct c; auto.
  cbn [e_refs set_refs]. rewrite <- (A name (reach_refl _ _)). destruct (f1 name) eqn:F; auto.
  apply IH. eapply agree_child; [exact A|]. cbn. rewrite F. now left.
Qed.

Lemma schema_dep_in o k : schema_dep o k = CNil \/ In (k, schema_dep o k) (o_sdeps o).
Proof. unfold schema_dep. destruct (sget k (o_sdeps o)) eqn:G; auto. right. now apply sget_in. Qed.

Theorem validate_local E f1 f2 n : forall c v w, agree E f1 f2 c ->
  validate n (set_refs E f1) c v w = validate n (set_refs E f2) c v w.
Proof.
  induction n as [|n IH]; intros c v w A; [reflexivity|].
  assert (K : forall x, In x (children (set_refs E f1) c) -> same (validate n (set_refs E f1)) (validate n (set_refs E f2)) x).
  { intros x I v' w'. apply IH. eapply agree_child; eauto. }
  assert (N : same (validate n (set_refs E f1)) (validate n (set_refs E f2)) CNil).
  { intros v' w'. destruct n; reflexivity. }
  destruct c as [| | | | | | |a|o|l|l|l|l|x|name]; cbn [validate]; auto.
  - apply arr_same; [apply K; now left|apply K; right; now left|]. apply Forall_forall. intros x I. apply K. right. now right.
  - apply obj_same.
    + apply K. now left.
    + intros k x I. assert (C : In x (children (set_refs E f1) (CObj o))).
      { cbn. right. apply in_or_app. right. apply in_or_app. left. apply (in_map snd) in I. exact I. }
      split; [now apply K|]. apply get_default_local. eapply agree_child; eauto.
    + intros k x I. apply K. cbn. right. apply in_or_app. left. apply (in_map snd) in I. exact I.
    + intros k. destruct (schema_dep_in o k) as [->|I]; [exact N|]. apply K. cbn. right. apply in_or_app. right.
      apply in_or_app. right. apply (in_map snd) in I. exact I.
  - apply any_same. apply Forall_forall. intros x I. now apply K.
  - apply all_same. apply Forall_forall. intros x I. now apply K.
  - apply oneof_same. apply Forall_forall. intros x I. now apply K.
  - apply not_same. apply K. now left.
  - cbn [e_refs set_refs]. rewrite <- (A name (reach_refl _ _)). destruct (f1 name) eqn:F; auto.
    apply IH. eapply agree_child; [exact A|]. cbn. rewrite F. now left.
Qed.
