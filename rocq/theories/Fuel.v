(** Fuel monotonicity of Validate: once a run finishes, more fuel changes nothing. *)
From Verif Require Import Base GoFloat GoValue Maybe Formats Constraint StructInfo Validate.
Open Scope Z_scope.

Definition rs {A B} (o : res * A * B) : res := fst (fst o).
Definition rec_le (r1 r2 : recT) : Prop := forall c v w, rs (r1 c v w) <> OOF -> r2 c v w = r1 c v w.
Definition gd_le (g1 g2 : constr -> dres) : Prop := forall c, g1 c <> DOOF -> g2 c = g1 c.

(** destruct a recursive call under a non-OOF hypothesis *)
Ltac use_rec H :=
  match goal with
  | |- context[?r2 ?c ?v ?w] =>
      match type of H with rec_le ?r1 r2 =>
        let E := fresh "E" in
        destruct (r1 c v w) as [[[]?]?] eqn:E;
        [ rewrite (H c v w ltac:(rewrite E; discriminate)), E
        | rewrite (H c v w ltac:(rewrite E; discriminate)), E
        | rewrite (H c v w ltac:(rewrite E; discriminate)), E
        | ]
      end
  end.

Section mono.
  Variables (r1 r2 : recT) (H : rec_le r1 r2).

  Lemma all_loop_mono cs : forall v w, rs (all_loop r1 cs v w) <> OOF ->
    all_loop r2 cs v w = all_loop r1 cs v w.
  Proof.
    induction cs as [|c cs IH]; intros v w N; cbn in *; [reflexivity|].
    use_rec H; auto. cbn in N. congruence.
  Qed.

  Lemma any_loop_mono cs : forall v w, rs (any_loop r1 cs v w) <> OOF ->
    any_loop r2 cs v w = any_loop r1 cs v w.
  Proof.
    induction cs as [|c cs IH]; intros v w N; cbn in *; [reflexivity|].
    use_rec H; auto. cbn in N. congruence.
  Qed.

  Lemma oneof_loop_mono cs : forall k v w, rs (oneof_loop r1 cs k v w) <> OOF ->
    oneof_loop r2 cs k v w = oneof_loop r1 cs k v w.
  Proof.
    induction cs as [|c cs IH]; intros k v w N; cbn in *; [reflexivity|].
    use_rec H; auto. cbn in N. congruence.
  Qed.

  Lemma not_mono c v w : rs (not_validate r1 c v w) <> OOF ->
    not_validate r2 c v w = not_validate r1 c v w.
  Proof.
    unfold not_validate. intros N.
    destruct c; auto; use_rec H; auto; cbn in N; congruence.
  Qed.

  Lemma idx_loop_mono jobs : forall l w, rs (idx_loop r1 jobs l w) <> OOF ->
    idx_loop r2 jobs l w = idx_loop r1 jobs l w.
  Proof.
    induction jobs as [|[i c] jobs IH]; intros l w N; cbn in *; [reflexivity|].
    use_rec H; auto. cbn in N. congruence.
  Qed.

  Lemma arr_mono E a v w : rs (arr_validate r1 E a v w) <> OOF ->
    arr_validate r2 E a v w = arr_validate r1 E a v w.
  Proof.
    unfold arr_validate. destruct v; auto.
    set (l0 := match l with Some _ => _ | None => _ end).
    destruct (_ && _); auto. destruct (_ && _); auto. destruct (_ && _); auto.
    intros N.
    assert (K : forall jobs l w, rs (idx_loop r1 jobs l w) = OOF \/
                idx_loop r2 jobs l w = idx_loop r1 jobs l w).
    { intros jobs l' w'. destruct (rs (idx_loop r1 jobs l' w')) eqn:E1; auto;
      right; apply idx_loop_mono; congruence. }
    destruct (a_items a) eqn:Ei;
      try (match goal with |- context[idx_loop r2 ?j ?l ?w] => destruct (K j l w) as [K1|K1] end;
           [exfalso; destruct (idx_loop r1 _ _ _) as [[]?]; cbn in *; congruence
           |rewrite K1; reflexivity]).
    match goal with |- context[idx_loop r2 ?j ?l ?w] => destruct (K j l w) as [K1|K1] end.
    { exfalso. destruct (idx_loop r1 _ _ _) as [[rr ?]?]; cbn in *. subst. cbn in *. congruence. }
    rewrite K1. destruct (idx_loop r1 _ _ _) as [[[] l1] w1]; auto.
    destruct (_ && _)%nat; auto.
    destruct (a_add a); auto;
      (match goal with |- context[idx_loop r2 ?j ?l ?w] => destruct (K j l w) as [K2|K2] end;
           [exfalso; destruct (idx_loop r1 _ _ _) as [[]?]; cbn in *; congruence
           |rewrite K2; reflexivity]).
  Qed.

  Variables (g1 g2 : constr -> dres) (G : gd_le g1 g2).

  Lemma props_loop_mono E o ps : forall st w, rs (props_loop r1 g1 E o ps st w) <> OOF ->
    props_loop r2 g2 E o ps st w = props_loop r1 g1 E o ps st w.
  Proof.
    induction ps as [|[k c] ps IH]; intros [[v pm] sn] w N; cbn [props_loop] in *; [reflexivity|].
    destruct (get_prop (deref1 v) k) as [pv|]; auto.
    destruct (look_prop pv) as [| |u x]; auto.
    - destruct (is_required o k); auto.
      destruct (g1 c) eqn:Eg; try (rewrite (G c) by congruence; rewrite Eg); auto.
      + destruct (set_prop E v k d); auto.
      + cbn in N. congruence.
    - use_rec H; auto. cbn in N. congruence.
  Qed.

  Lemma pat_inner_mono E src c ns : forall st w, rs (pat_inner r1 E src c ns st w) <> OOF ->
    pat_inner r2 E src c ns st w = pat_inner r1 E src c ns st w.
  Proof.
    induction ns as [|k ns IH]; intros [[v pm] sn] w N; cbn [pat_inner] in *; [reflexivity|].
    destruct (e_rx E src k); cbn [negb] in *; auto.
    destruct (get_prop (deref1 v) k) as [pv|]; auto.
    destruct (interface pv) as [x|]; auto.
    use_rec H; auto. cbn in N. congruence.
  Qed.

  Lemma pats_loop_mono E ps : forall st w, rs (pats_loop r1 E ps st w) <> OOF ->
    pats_loop r2 E ps st w = pats_loop r1 E ps st w.
  Proof.
    induction ps as [|[[i src] c] ps IH]; intros [[v pm] sn] w N; cbn [pats_loop] in *; [reflexivity|].
    destruct (shuffle w pm) as [ns w1].
    destruct (rs (pat_inner r1 E src c ns (v, pm, sn) w1)) eqn:E1;
      try (rewrite pat_inner_mono by congruence).
    all: destruct (pat_inner r1 E src c ns (v, pm, sn) w1) as [[rr st'] w2]; cbn in E1; subst rr; auto.
    cbn in N. congruence.
  Qed.

  Lemma add_loop_mono c ns : forall v w, rs (add_loop r1 c ns v w) <> OOF ->
    add_loop r2 c ns v w = add_loop r1 c ns v w.
  Proof.
    induction ns as [|k ns IH]; intros v w N; cbn [add_loop] in *; [reflexivity|].
    destruct (get_prop (deref1 v) k) as [pv|]; auto.
    destruct (interface pv) as [x|]; auto.
    use_rec H; auto. cbn in N. congruence.
  Qed.

  Lemma deps_loop_mono o sn ns : forall v w, rs (deps_loop r1 o sn ns v w) <> OOF ->
    deps_loop r2 o sn ns v w = deps_loop r1 o sn ns v w.
  Proof.
    induction ns as [|k ns IH]; intros v w N; cbn [deps_loop] in *; [reflexivity|].
    destruct (prop_deps o k) as [|d ds].
    - destruct (schema_dep o k); auto; use_rec H; auto; cbn in N; congruence.
    - destruct (missing_dep sn (d :: ds)); auto.
  Qed.

  Lemma obj_mono E o v w : rs (obj_validate r1 g1 E o v w) <> OOF ->
    obj_validate r2 g2 E o v w = obj_validate r1 g1 E o v w.
  Proof.
    unfold obj_validate. intros N.
    destruct (get_names (deref1 v)) as [fields|m|m]; auto.
    destruct (_ && _); auto. destruct (_ && _); auto.
    destruct (shuffle w (o_props o)) as [ps w1].
    destruct (props_loop r1 g1 E o ps (v, fields, []) w1) as [[rr st1] w2] eqn:E1.
    rewrite props_loop_mono.
    2:{ rewrite E1. cbn. intros ->. destruct st1 as [[? ?] ?]. cbn in N. congruence. }
    rewrite E1. destruct rr; auto.
    destruct (shuffle w2 (o_pats o)) as [pats w3].
    destruct (pats_loop r1 E pats st1 w3) as [[rr st4] w4] eqn:E2.
    rewrite pats_loop_mono.
    2:{ rewrite E2. cbn. intros ->. destruct st4 as [[? ?] ?]. cbn in N. congruence. }
    rewrite E2. destruct st4 as [[v4 premain] pseen]. destruct rr; auto.
    assert (K : forall r, True ->
       rs (match r with (Pass, v6, w6) => let '(ns, w7) := shuffle w6 pseen in deps_loop r1 o pseen ns v6 w7 | x => x end) <> OOF ->
       match r with (Pass, v6, w6) => let '(ns, w7) := shuffle w6 pseen in deps_loop r2 o pseen ns v6 w7 | x => x end =
       match r with (Pass, v6, w6) => let '(ns, w7) := shuffle w6 pseen in deps_loop r1 o pseen ns v6 w7 | x => x end).
    { intros [[[] v6] w6] _ N'; auto. destruct (shuffle w6 pseen) as [ns w7]. apply deps_loop_mono. exact N'. }
    destruct premain as [|p premain].
    - apply (K (Pass, v4, w4) I); auto.
    - destruct (o_add o) eqn:Eo; auto;
      (destruct (shuffle w4 (p :: premain)) as [ns w5];
       match goal with |- context[add_loop r2 ?cc ns v4 w5] =>
         destruct (add_loop r1 cc ns v4 w5) as [[rr v6] w6] eqn:E3;
         rewrite (add_loop_mono cc ns v4 w5), E3;
         [apply (K (rr, v6, w6) I); auto| rewrite E3; cbn; intros ->; cbn in N; congruence]
       end).
  Qed.
End mono.

Lemma get_default_mono E n : forall m c, (n <= m)%nat -> get_default n E c <> DOOF ->
  get_default m E c = get_default n E c.
Proof.
  induction n as [|n IH]; intros m c L N; [cbn in N; congruence|].
  destruct m as [|m]; [lia|]. cbn in *.
  destruct c; auto. destruct (e_refs E name); auto. apply IH; [lia|auto].
Qed.

Theorem validate_mono E n : forall m c v w, (n <= m)%nat ->
  rs (validate n E c v w) <> OOF -> validate m E c v w = validate n E c v w.
Proof.
  induction n as [|n IH]; intros m c v w L N; [cbn in N; congruence|].
  destruct m as [|m]; [lia|].
  assert (R : rec_le (validate n E) (validate m E)) by (intros ? ? ? ?; apply IH; [lia|auto]).
  assert (G : gd_le (get_default n E) (get_default m E)) by (intros ? ?; apply get_default_mono; [lia|auto]).
  cbn [validate] in *. destruct c; auto.
  - apply arr_mono; auto.
  - apply obj_mono; auto.
  - apply any_loop_mono; auto.
  - apply all_loop_mono; auto.
  - apply oneof_loop_mono; auto.
  - apply not_mono; auto.
  - destruct (e_refs E name); auto.
Qed.

(** a finished run: outcome independent of fuel *)
Definition Runs (E : env) (c : constr) (v : gval) (w : orc) (o : out) : Prop :=
  exists n, validate n E c v w = o /\ rs o <> OOF.

Lemma Runs_det E c v w o1 o2 : Runs E c v w o1 -> Runs E c v w o2 -> o1 = o2.
Proof.
  intros [n [H1 N1]] [m [H2 N2]].
  destruct (Nat.le_ge_cases n m) as [L|L].
  - rewrite <- H1, <- H2. symmetry. apply validate_mono; auto. now rewrite H1.
  - rewrite <- H1, <- H2. apply validate_mono; auto. now rewrite H2.
Qed.
