(** Running the source of generator.go: the functions for scalar constraints. *)
From Verif Require Import Base GoFloat GoValue Maybe Formats Constraint StructInfo Validate Builder GoText GoLang Generator SrcSyntax SrcText SrcTextG SrcProg SrcGen SrcProgG SrcStepG.
Open Scope string_scope.
Open Scope list_scope.
Open Scope Z_scope.

Section Ctx.
Variable cm : string.
Variables refs refnames : qv.
(** the context the generator functions get *)
Definition ctxv : qv := QRec [("cmname", QStr cm); ("pkgname", QStr "jsval"); ("refs", refs); ("refnames", refnames); ("vname", QStr "V")].
End Ctx.

(** a call that writes what the model says *)
Definition gives (o : qev (list qv)) (r : gres (string * orc)) (a : nat) (t : string) (B : list string) e v : Prop :=
  match r with
  | GOk (x, w') => o = QOk [QNil] (mk e (bufput a (t +++ x) B) v w')
  | GErr m => exists m' t' w', o = QOk [QErr m'] (mk e (bufput a t' B) v w') /\ starts m m' = true
  | GPanic _ => exists m', o = QPn m'
  end.

(** the same for a statement *)
Definition wrote (o : qoc) (r : gres (string * orc)) (a : nat) (t : string) (B : list string) e v : Prop :=
  match r with
  | GOk (x, w') => o = QNx (mk e (bufput a (t +++ x) B) v w')
  | GErr m => exists m' t' e' w', o = QRt [QErr m'] (mk e' (bufput a t' B) v w') /\ starts m m' = true
  | GPanic _ => exists m', o = QPnS m'
  end.
Lemma wrote_panic r m m' a t B e v : r = GPanic m -> wrote (QPnS m') r a t B e v.
Proof. intros ->. eexists; reflexivity. Qed.
Lemma wrote_err r m m' a t B e v t' e' w' : r = GErr m -> starts m m' = true -> wrote (QRt [QErr m'] (mk e' (bufput a t' B) v w')) r a t B e v.
Proof. intros -> H. do 4 eexists. split; [reflexivity|exact H]. Qed.

Lemma gives_panic r m m' a t B e v : r = GPanic m -> gives (QPn m') r a t B e v.
Proof. intros ->. eexists; reflexivity. Qed.
Lemma gives_err r m m' a t B e v t' w' : r = GErr m -> starts m m' = true -> gives (QOk [QErr m'] (mk e (bufput a t' B) v w')) r a t B e v.
Proof. intros -> H. do 3 eexists. split; [reflexivity|exact H]. Qed.
(** a statement that writes, and the rest of the function *)
Lemma then_gives o (m : gm string) f K a t t1 t2 B env e v w :
  wrote o (m w) a t1 B env v ->
  (forall x w1, m w = GOk (x, w1) -> gives (q_called e (List.length (bufput a t2 B)) (K (mk env (bufput a (t1 +++ x) B) v w1))) (f x w1) a t B e v) ->
  gives (q_called e (List.length (bufput a t2 B)) (qends o K)) (gbind m f w) a t B e v.
Proof.
  unfold gbind. destruct (m w) as [[x w1]|m1|m1]; cbn [wrote].
  - intros -> H. exact (H x w1 eq_refl).
  - intros (m' & t' & e' & w' & -> & Hs) _. cbn [qends q_called q_vars q_bufs qvars qbufs qvals qord].
    rewrite firstn_put. do 3 eexists. split; [reflexivity|exact Hs].
  - intros (m' & ->) _. eexists; reflexivity.
Qed.
(** the same inside a statement *)
Lemma then_wrote o (m : gm string) f K a t t1 B env e v w :
  wrote o (m w) a t1 B env v ->
  (forall x w1, m w = GOk (x, w1) -> wrote (K (mk env (bufput a (t1 +++ x) B) v w1)) (f x w1) a t B e v) ->
  wrote (qends o K) (gbind m f w) a t B e v.
Proof.
  unfold gbind. destruct (m w) as [[x w1]|m1|m1]; cbn [wrote].
  - intros -> H. exact (H x w1 eq_refl).
  - intros (m' & t' & e' & w' & -> & Hs) _. do 4 eexists. split; [reflexivity|exact Hs].
  - intros (m' & ->) _. eexists; reflexivity.
Qed.
(** leaving a scope *)
Lemma leave_wrote o r a t B l env v : wrote o r a t B (l :: env) v -> wrote (qleave o) r a t B env v.
Proof.
  destruct r as [[x w1]|m1|m1]; cbn [wrote].
  - intros ->. reflexivity.
  - intros (m' & t' & e' & w' & -> & Hs). do 4 eexists. split; [reflexivity|exact Hs].
  - intros (m' & ->). eexists; reflexivity.
Qed.
Lemma gbind_ret {A} (m : gm A) w : gbind m (fun x => gret x) w = m w.
Proof. unfold gbind, gret. destruct (m w) as [[x w1]| |]; reflexivity. Qed.

Ltac begin_ := intro Ha; unfold ctxv; open_g; qsteps.
Ltac done_ := unfold gives; cbn [gret gbind]; same_text.

Section Gen.
Variable G : genv.
Variable cm : string.
Variables refs refnames : qv.
Notation ctx := (ctxv cm refs refnames).
Notation call := (qcall (prog_g G)).
Lemma gen_null k a t B e v w : (a < List.length B)%nat ->
  gives (call (S k) "generateNullCode" [ctx; QBuf a; QC CNull] (mk e (bufput a t B) v w)) (GOk ("jsval.NullConstraint", w)) a t B e v.
Proof. begin_. unfold gives; cbn [gret reference_code]; same_text. Qed.
Lemma gen_empty k a t B e v w : (a < List.length B)%nat ->
  gives (call (S k) "generateEmptyCode" [ctx; QBuf a; QC CEmpty] (mk e (bufput a t B) v w)) (GOk ("jsval.EmptyConstraint", w)) a t B e v.
Proof. begin_. unfold gives; cbn [gret reference_code]; same_text. Qed.
Lemma gen_ref k a t B e v w n : (a < List.length B)%nat ->
  gives (call (S k) "generateReferenceCode" [ctx; QBuf a; QC (CRef n)] (mk e (bufput a t B) v w)) (reference_code G cm n w) a t B e v.
Proof. begin_. unfold gives; cbn [gret reference_code]; same_text. Qed.

Lemma has_default k d e B v w :
  call (S k) "defaultValue.HasDefault" [QDv d] (mk e B v w) = QOk [QBool match d with Some _ => true | None => false end] (mk e B v w).
Proof. open_g. qsteps. now rewrite firstn_all. Qed.

Lemma default_value k g e B v w :
  call (S k) "defaultValue.DefaultValue" [QDv (Some g)] (mk e B v w) = QOk [QGo g] (mk e B v w).
Proof. open_g. qsteps. now rewrite firstn_all. Qed.

Lemma gen_int k a t B e v w d c : (a < List.length B)%nat ->
  gives (call (S (S k)) "generateIntegerCode" [ctx; QBuf a; QC (CInt d c)] (mk e (bufput a t B) v w)) (integer_code d c w) a t B e v.
Proof.
  begin_. cond_write (n_amin c). cond_write (n_xmin c). cond_write (n_amax c). cond_write (n_xmax c).
  rewrite has_default; qsteps. unfold integer_code. destruct d as [g|]; qsteps; [|done_].
  rewrite default_value; qsteps.
  destruct g as [| | | |T is32 f| | | | | | | |]; qsteps; try (eexists; reflexivity).
  destruct is32; qsteps; try (eexists; reflexivity).
  change (String.eqb T "float64") with (qsame T "float64").
  destruct (qsame T "float64"); qsteps; [done_|eexists; reflexivity].
Qed.
Lemma gen_num k a t B e v w d c : (a < List.length B)%nat ->
  gives (call (S (S k)) "generateNumberCode" [ctx; QBuf a; QC (CNum d c)] (mk e (bufput a t B) v w)) (number_code G d c w) a t B e v.
Proof.
  begin_. cond_write (n_amin c). cond_write (n_xmin c). cond_write (n_amax c). cond_write (n_xmax c).
  rewrite has_default; qsteps. unfold number_code. destruct d as [g|]; qsteps; [|done_].
  rewrite default_value; qsteps.
  destruct g; qsteps; done_.
Qed.
Lemma gen_bool k a t B e v w d : (a < List.length B)%nat ->
  gives (call (S (S k)) "generateBooleanCode" [ctx; QBuf a; QC (CBool d)] (mk e (bufput a t B) v w)) (boolean_code G d w) a t B e v.
Proof.
  begin_. rewrite has_default; qsteps. unfold boolean_code. destruct d as [g|]; qsteps; [|done_].
  rewrite default_value; qsteps.
  destruct g; qsteps; done_.
Qed.

End Gen.
