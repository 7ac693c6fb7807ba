(** Maybe values: histories of Set and Reset (C36) and JSON (C37). *)
From Verif Require Import Base GoFloat GoValue Formats Maybe Validate.
Open Scope Z_scope.
Local Ltac splits := repeat match goal with |- _ /\ _ => split end.

(** ** Specification *)
Inductive mkind := KBool | KFloat | KInt | KString | KTime | KUint.
Definition kind_of (m : maybe) : mkind :=
  match m with MBool _ _ => KBool | MFloat _ _ => KFloat | MInt _ _ => KInt | MString _ _ => KString | MTime _ _ => KTime | MUint _ _ => KUint end.

Section Spec.
Variable tp : string -> Z + string.   (* time.Parse(time.RFC3339, .) *)

(** what Set accepts for each type, and the value it stores: exactly the predeclared Go
    types listed, converted by Go's rules *)
Inductive Takes : mkind -> gval -> gval -> Prop :=
| tk_bool b : Takes KBool (GBool "bool" b) (GBool "bool" b)
| tk_float32 f : Takes KFloat (GFloat "float32" true f) (GFloat "float64" false (f32_to_f64 f))
| tk_float64 f : Takes KFloat (GFloat "float64" false f) (GFloat "float64" false f)
| tk_int k z : Takes KInt (GInt (ikind_s k) k z) (GInt "int64" Kint64 z)
| tk_int_float f : Takes KInt (GFloat "float64" false f) (GInt "int64" Kint64 (f64_to_int64 f))
| tk_string s : Takes KString (GStr "string" s) (GStr "string" s)
| tk_time t : Takes KTime (GTime t) (GTime t)
| tk_time_text s t : tp s = inl t -> Takes KTime (GStr "string" s) (GTime t)
| tk_uint k z : k <> Kuintptr -> Takes KUint (GUint (ukind_s k) k z) (GUint "uint64" Kuint64 z)
| tk_uint_float f : Takes KUint (GFloat "float64" false f) (GUint "uint64" Kuint64 (f64_to_uint64 f)).

(** histories, oldest first *)
Inductive mcall := MSet (x : gval) | MReset.
Definition m_do (m : maybe) (c : mcall) : maybe :=
  match c with
  | MSet x => match m_set tp m x with inl m' => m' | inr _ => m end
  | MReset => m_reset m
  end.

(** the outcome of a history, read off the calls: was the last effective call a
    successful Set, and what did the last successful Set store *)
Inductive Outcome (k : mkind) : list mcall -> bool -> option gval -> Prop :=
| oc_nil : Outcome k [] false None
| oc_set h b o x y : Outcome k h b o -> Takes k x y -> Outcome k (h ++ [MSet x]) true (Some y)
| oc_bad h b o x : Outcome k h b o -> (forall y, ~ Takes k x y) -> Outcome k (h ++ [MSet x]) b o
| oc_reset h b o : Outcome k h b o -> Outcome k (h ++ [MReset]) false o.

(** ** Proofs *)
Lemma m_set_kind m x m' : m_set tp m x = inl m' -> kind_of m' = kind_of m.
Proof.
  destruct m, x; cbn; try discriminate; repeat match goal with
    | |- context [if ?b then _ else _] => destruct b; cbn
    | |- context [match tp ?s with _ => _ end] => destruct (tp s); cbn
    end; try discriminate; intros [= <-]; reflexivity.
Qed.

(** Set succeeds exactly on the listed types; it then makes the value valid. *)
Theorem set_exact m x m' : m_set tp m x = inl m' <-> m_valid m' = true /\ kind_of m' = kind_of m /\ Takes (kind_of m) x (m_value m').
Proof.
  split.
  - intros H. pose proof (m_set_kind _ _ _ H) as K. split; [|split; [assumption|]]; revert H; clear K.
    + destruct m, x; cbn; try discriminate; repeat match goal with
      | |- context [if ?b then _ else _] => destruct b; cbn
      | |- context [match tp ?s with _ => _ end] => destruct (tp s); cbn
      end; try discriminate; intros [= <-]; reflexivity.
    + destruct m, x; cbn; try discriminate.
      * destruct (String.eqb_spec T "bool") as [->|]; [|discriminate]. intros [= <-]. constructor.
      * destruct is32.
        -- destruct (String.eqb_spec T "float32") as [->|]; [|discriminate]. intros [= <-]. constructor.
        -- destruct (String.eqb_spec T "float64") as [->|]; [|discriminate]. intros [= <-]. constructor.
      * destruct (String.eqb_spec T (ikind_s k)) as [->|]; [|discriminate]. intros [= <-]. constructor.
      * destruct is32; [discriminate|]. destruct (String.eqb_spec T "float64") as [->|]; [|discriminate]. intros [= <-]. constructor.
      * destruct (String.eqb_spec T "string") as [->|]; [|discriminate]. intros [= <-]. constructor.
      * destruct (String.eqb_spec T "string") as [->|]; [|discriminate]. destruct (tp s) eqn:P; [|discriminate].
        intros [= <-]. now constructor.
      * intros [= <-]. constructor.
      * destruct (String.eqb_spec T (ukind_s k)) as [->|]; cbn [andb]; [|discriminate].
        destruct (negb _) eqn:N; [|discriminate]. intros [= <-]. constructor. intros ->. discriminate N.
      * destruct is32; [discriminate|]. destruct (String.eqb_spec T "float64") as [->|]; [|discriminate]. intros [= <-]. constructor.
  - intros (V & K & T). destruct m, m'; try discriminate K; cbn in V; subst; cbn in T; inversion T; subst; cbn; try reflexivity.
    + now rewrite String.eqb_refl.
    + match goal with H : tp _ = inl _ |- _ => now rewrite H end.
    + rewrite String.eqb_refl. destruct k; try reflexivity. congruence.
Qed.

Lemma takes_total m x y : Takes (kind_of m) x y -> exists m', m_set tp m x = inl m' /\ m_value m' = y.
Proof.
  intros T. destruct m; cbn in T; inversion T; subst; cbn; rewrite ?String.eqb_refl;
    try match goal with H : tp _ = inl _ |- _ => rewrite H end; try (eexists; split; reflexivity).
  destruct k; try (eexists; split; reflexivity). congruence.
Qed.

(** Otherwise it returns an error (and, being a failed call, leaves the value alone: the
    model's Set returns no new value). *)
Theorem set_fails m x : (exists e, m_set tp m x = inr e) <-> forall y, ~ Takes (kind_of m) x y.
Proof.
  split.
  - intros (e & H) y T. destruct (takes_total _ _ _ T) as (m' & Q & _). congruence.
  - intros N. destruct (m_set tp m x) as [m'|e] eqn:Q; [|eauto]. apply set_exact in Q as (_ & _ & T). destruct (N _ T).
Qed.

Lemma takes_det k x y z : Takes k x y -> Takes k x z -> y = z.
Proof. intros A B. destruct A; inversion B; subst; congruence. Qed.

Lemma reset_facts m : kind_of (m_reset m) = kind_of m /\ m_valid (m_reset m) = false /\ m_value (m_reset m) = m_value m.
Proof. destruct m; auto. Qed.

(** After any history, starting from an invalid value, Valid and Value are what the calls say. *)
Theorem maybe_history m h : m_valid m = false ->
  exists b o, Outcome (kind_of m) h b o /\
    let m' := fold_left m_do h m in
    kind_of m' = kind_of m /\ m_valid m' = b /\ m_value m' = match o with Some y => y | None => m_value m end.
Proof.
  intros V. induction h as [|c h IH] using rev_ind.
  - exists false, None. cbn. split; [constructor|auto].
  - destruct IH as (b & o & O & K & B & W). rewrite fold_left_app. cbn [fold_left]. set (m1 := fold_left m_do h m) in *.
    destruct c as [x|]; cbn [m_do].
    + destruct (m_set tp m1 x) as [m2|e] eqn:S.
      * apply set_exact in S as (V2 & K2 & T). exists true, (Some (m_value m2)). rewrite K in T. split; [econstructor; eassumption|].
        splits; congruence.
      * exists b, o. split; [|auto]. apply oc_bad; [assumption|]. rewrite <- K. apply set_fails. eauto.
    + exists false, o. destruct (reset_facts m1) as (K1 & V1 & W1). split; [econstructor; eassumption|]. splits; congruence.
Qed.

(** The outcome of a history is unique, so the theorem above determines Valid and Value. *)
Theorem outcome_unique k h b o b' o' : Outcome k h b o -> Outcome k h b' o' -> b = b' /\ o = o'.
Proof.
  intros H. revert b' o'. induction H as [|h b o x y H IH T|h b o x H IH N|h b o H IH]; intros b' o' H'.
  - inversion H' as [| | |]; auto; match goal with Q : _ ++ [_] = [] |- _ => destruct (app_cons_not_nil _ _ _ (eq_sym Q)) end.
  - inversion H' as [Q|h1 b1 o1 x1 y1 H1 T1 Q|h1 b1 o1 x1 H1 N1 Q|h1 b1 o1 H1 Q].
    + destruct (app_cons_not_nil _ _ _ Q).
    + apply app_inj_tail in Q as (-> & Q). injection Q as ->. split; [reflexivity|]. f_equal. eapply takes_det; eassumption.
    + apply app_inj_tail in Q as (-> & Q). injection Q as ->. destruct (N1 _ T).
    + apply app_inj_tail in Q as (-> & Q). discriminate.
  - inversion H' as [Q|h1 b1 o1 x1 y1 H1 T1 Q|h1 b1 o1 x1 H1 N1 Q|h1 b1 o1 H1 Q].
    + destruct (app_cons_not_nil _ _ _ Q).
    + apply app_inj_tail in Q as (-> & Q). injection Q as ->. destruct (N _ T1).
    + apply app_inj_tail in Q as (-> & Q). subst. eauto.
    + apply app_inj_tail in Q as (-> & Q). discriminate.
  - inversion H' as [Q|h1 b1 o1 x1 y1 H1 T1 Q|h1 b1 o1 x1 H1 N1 Q|h1 b1 o1 H1 Q].
    + destruct (app_cons_not_nil _ _ _ Q).
    + apply app_inj_tail in Q as (-> & Q). discriminate.
    + apply app_inj_tail in Q as (-> & Q). discriminate.
    + apply app_inj_tail in Q as (-> & _). subst. destruct (IH _ _ H1). auto.
Qed.
End Spec.

(** ** JSON *)
(** strings made of valid UTF-8 sequences *)
Fixpoint utf8_from (skip : nat) (s : string) : bool :=
  match s with
  | EmptyString => true
  | String c r =>
      match skip with
      | S k => utf8_from k r
      | O => let '(rn, k) := decode1 c r in negb ((rn =? rune_error) && Nat.eqb k 0) && utf8_from k r
      end
  end.

Lemma json_string_utf8 s : utf8_from 0 s = true -> json_string s = s.
Proof.
  unfold json_string. generalize 0%nat as k. induction s as [|c s IH]; intros k; cbn [utf8_from json_string_from]; [reflexivity|].
  destruct k as [|k]; [|intros H; f_equal; auto].
  destruct (decode1 c s) as [rn k]. destruct ((rn =? rune_error) && Nat.eqb k 0); [discriminate|]. intros H. f_equal. auto.
Qed.

(** values each type can hold: Go's ranges, text that JSON can carry *)
Definition in_range (m : maybe) : Prop :=
  match m with
  | MInt _ z => min_int64 <= z <= max_int64
  | MUint _ z => 0 <= z <= max_uint64
  | MString _ s => utf8_from 0 s = true
  | _ => True
  end.

(** the time, if it is one, survives printing and parsing (whole seconds do) *)
Definition time_prints (tp : string -> Z + string) (tf : Z -> string) (m : maybe) : Prop :=
  match m with MTime _ t => tp (json_string (tf t)) = inl t | _ => True end.

(** Encoding a valid Maybe and decoding the result into a fresh one gives it back. *)
Definition maybe_json_full : Prop :=
  forall tp tf m m0 j, time_prints tp tf m -> in_range m -> m_valid m = true ->
    kind_of m0 = kind_of m -> m_valid m0 = false -> m_marshal tf m = Some j -> m_unmarshal tp m0 j = Some m.

Theorem maybe_json_refuted : ~ maybe_json_full.
Proof.
  intros F. specialize (F (fun _ => inl 5) (fun _ => ""%string) (MTime true 5) zero_MTime (JStr "")).
  enough (Some (MTime false 5) = Some (MTime true 5)) by discriminate.
  apply F; reflexivity || exact I.
Qed.

(** It does for every type but MaybeTime, for every value JSON can carry. *)
Theorem maybe_json tp tf m m0 j : kind_of m <> KTime -> in_range m -> m_valid m = true ->
  kind_of m0 = kind_of m -> m_marshal tf m = Some j -> m_unmarshal tp m0 j = Some m.
Proof.
  intros N R V K. destruct m, m0; try discriminate K; cbn [m_valid m_marshal] in V |- *; subst; cbn [in_range] in R.
  - intros [= <-]. reflexivity.
  - destruct f; try discriminate; intros [= <-]; reflexivity.
  - intros [= <-]. unfold m_unmarshal, dec_int. destruct (Z.leb_spec min_int64 z); [|lia]. destruct (Z.leb_spec z max_int64); [|lia]. reflexivity.
  - intros [= <-]. cbn. now rewrite json_string_utf8.
  - now destruct N.
  - intros [= <-]. unfold m_unmarshal, dec_int. destruct (Z.leb_spec 0 z); [|lia]. destruct (Z.leb_spec z max_uint64); [|lia]. reflexivity.
Qed.

(** A decoded MaybeTime keeps whatever flag it had: a fresh one stays invalid, so Validate
    treats the property as missing. *)
Theorem time_json_stays tp tf v t v0 t0 : tp (json_string (tf t)) = inl t ->
  exists j, m_marshal tf (MTime v t) = Some j /\ m_unmarshal tp (MTime v0 t0) j = Some (MTime v0 t) /\
    (v0 = false -> look_prop (RV false (GMaybe (MTime v0 t))) = LMissing).
Proof. intros P. exists (JStr (json_string (tf t))). cbn. rewrite P. splits; try reflexivity. now intros ->. Qed.

(** JSON null marks every type but MaybeTime valid with its zero value, and is an error for
    MaybeTime (whose text must parse). *)
Theorem null_json tp m : (forall t, tp ""%string <> inl t) ->
  m_unmarshal tp m JNull =
    match kind_of m with
    | KBool => Some (MBool true false) | KFloat => Some (MFloat true fzero) | KInt => Some (MInt true 0)
    | KString => Some (MString true "") | KTime => None | KUint => Some (MUint true 0)
    end.
Proof. intros N. destruct m; cbn; try reflexivity. destruct (tp ""%string) eqn:P; [destruct (N _ eq_refl)|reflexivity]. Qed.

(** Invalid UTF-8 does not survive: the guard [in_range] is needed. *)
Theorem string_json_needs_utf8 : exists s, forall tp tf, 
  match m_marshal tf (MString true s) with Some j => m_unmarshal tp zero_MString j <> Some (MString true s) | None => False end.
Proof. exists (String "255" EmptyString). intros tp tf. vm_compute. discriminate. Qed.

(** A history, and its outcome. *)
Example history_example tp :
  let h := [MSet (GInt "int8" Kint8 7); MSet (GStr "string" "x"); MReset; MSet (GBool "bool" true)] in
  Outcome tp KInt h false (Some (GInt "int64" Kint64 7)) /\ fold_left (m_do tp) h zero_MInt = MInt false 7.
Proof.
  cbv zeta. split; [|reflexivity].
  change [MSet (GInt "int8" Kint8 7); MSet (GStr "string" "x"); MReset; MSet (GBool "bool" true)]
    with (((([] ++ [MSet (GInt "int8" Kint8 7)]) ++ [MSet (GStr "string" "x")]) ++ [MReset]) ++ [MSet (GBool "bool" true)]).
  apply oc_bad; [|intros y T; inversion T]. eapply oc_reset. apply oc_bad; [|intros y T; inversion T].
  eapply oc_set; [constructor|]. apply (tk_int tp Kint8).
Qed.
