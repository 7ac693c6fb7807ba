(** When a build succeeds, fails and panics (C42, C46). *)
From Verif Require Import Base GoFloat GoValue Maybe Formats Constraint StructInfo Validate Builder BuildSpec BuildProofs BuildRefs.
Open Scope Z_scope.

(** no fault in the schema or in any definition it refers to *)
Definition sound (D : resolver) (s : schema) : Prop :=
  Good s /\ forall m, Referred D s m -> exists s', Def D s m s' /\ Good s'.
(** somewhere in the schema or a definition: a type that does not exist or a name that does not resolve *)
Definition erroneous (D : resolver) (s : schema) : Prop := s = SNil \/ Unknown s \/ bad_ref D s.
(** somewhere a nil schema, or items without a schema *)
Definition hollow (D : resolver) (s : schema) : Prop := s <> SNil /\ (Nilish s \/ nil_ref D s).

Lemma Def_fun D s m s1 s2 : Def D s m s1 -> Def D s m s2 -> s1 = s2.
Proof. intros H1 H2. inversion H1; inversion H2; subst; try congruence; exfalso; auto. Qed.

Section Cases.
  Context (D : resolver) (s : schema).
  Hypothesis sorted0 : Sorted s.
  Hypothesis sortedD : forall m s', lookup D m = Some s' -> Sorted s'.

  (** a validator is returned only for sound schemas *)
  Lemma built_sound n w c rf log : build_with n D s w = Built c rf log -> sound D s.
  Proof.
    intros B. pose proof (build_outcome n D s w sorted0 sortedD) as O. rewrite B in O.
    destruct O as (_ & G & Sr & _ & K & H). split; auto. intros m R. apply K in R. apply sget_some_keys in R as [x Hx].
    destruct (H m x Hx) as (s' & D1 & G1 & _). eauto.
  Qed.

  Lemma sound_not_bad : sound D s -> ~ erroneous D s /\ ~ hollow D s.
  Proof.
    intros [[G1 G2] S]. split.
    - intros [->|[U|(m & R & [[N L]|(s' & Ds & U)])]]; auto.
      + apply G2. constructor.
      + destruct (S m R) as (s' & Ds & _). inversion Ds; subst; [apply N; auto|congruence].
      + destruct (S m R) as (s2 & Ds2 & [Gs _]). rewrite (Def_fun _ _ _ _ _ Ds Ds2) in U. auto.
    - intros [_ [N|(m & s' & R & Ds & N)]]; auto.
      destruct (S m R) as (s2 & Ds2 & [_ Gs]). rewrite (Def_fun _ _ _ _ _ Ds Ds2) in N. auto.
  Qed.

  (** C46: faults anywhere, also in definitions, are never accepted *)
  Theorem faults_rejected n w : erroneous D s \/ hollow D s -> forall c rf log, build_with n D s w <> Built c rf log.
  Proof. intros F c rf log B. destruct (sound_not_bad (built_sound _ _ _ _ _ B)). tauto. Qed.

  Section Ending.
    Context (U : list string).
    Hypothesis finite : forall m, Referred D s m -> In m U.
    Let N := (2 * List.length U + 3)%nat.

    (** sound schemas give a validator, in every iteration order *)
    Theorem sound_builds w : sound D s -> exists c rf log, build_with N D s w = Built c rf log.
    Proof.
      intros S. pose proof (build_outcome N D s w sorted0 sortedD) as O.
      pose proof (build_terminates D s U sorted0 sortedD finite w) as T. fold N in T.
      destruct (build_with N D s w) as [c rf log|m|m|] eqn:B; eauto.
      - exfalso. destruct (sound_not_bad S) as [H _]. now apply H.
      - exfalso. destruct (sound_not_bad S) as [_ H]. apply H. split; auto. intros ->. destruct S as [[_ G] _]. apply G. constructor.
      - congruence.
    Qed.

    (** without nil schemas every fault is an error *)
    Theorem errors_reported w : erroneous D s -> ~ hollow D s -> exists m, build_with N D s w = BErr m.
    Proof.
      intros F H. pose proof (build_outcome N D s w sorted0 sortedD) as O.
      pose proof (build_terminates D s U sorted0 sortedD finite w) as T. fold N in T.
      destruct (build_with N D s w) as [c rf log|m|m|] eqn:B; eauto.
      - exfalso. apply (faults_rejected N w (or_introl F) _ _ _ B).
      - exfalso. apply H. split; auto. intros ->. discriminate B.
      - congruence.
    Qed.

    (** and a nil schema, with no other fault, is a panic *)
    Theorem hollow_panics w : hollow D s -> ~ erroneous D s -> exists m, build_with N D s w = BPanic m.
    Proof.
      intros H F. pose proof (build_outcome N D s w sorted0 sortedD) as O.
      pose proof (build_terminates D s U sorted0 sortedD finite w) as T. fold N in T.
      destruct (build_with N D s w) as [c rf log|m|m|] eqn:B; eauto.
      - exfalso. apply (faults_rejected N w (or_intror H) _ _ _ B).
      - exfalso. now apply F.
      - congruence.
    Qed.
  End Ending.
End Cases.

(** Build(nil) is an error *)
Theorem build_nil n D w : exists m, build_with n D SNil w = BErr m.
Proof. eexists. reflexivity. Qed.

(** no reference is built twice *)
Theorem build_once n D s w c rf log : Sorted s -> (forall m s', lookup D m = Some s' -> Sorted s') ->
  build_with n D s w = Built c rf log -> NoDup log.
Proof. intros So SD B. pose proof (build_outcome n D s w So SD) as O. rewrite B in O. apply O. Qed.

(** ** Finite documents: every reference that resolves stands for one of finitely many schemas *)
Lemma finite_union {A B} (P : A -> B -> Prop) (l : list A) :
  (forall x, In x l -> exists U, forall y, P x y -> In y U) -> exists U, forall x y, In x l -> P x y -> In y U.
Proof.
  induction l as [|a l IH]; intros H; [exists []; intros ? ? []|].
  destruct (H a (or_introl eq_refl)) as [U1 H1]. destruct IH as [U2 H2]; [intros; apply H; now right|].
  exists (U1 ++ U2). intros x y [<-|Hx] Hp; apply in_or_app; eauto.
Qed.

Lemma used_finite s : exists U, forall n, Used s n -> In n U.
Proof.
  induction s as [|c IH] using schema_subs_ind; [exists []; inversion 1|].
  destruct (finite_union Used (subs c) IH) as [U HU]. exists (sc_ref c :: U). intros n H. inversion H; subst; [now left|].
  right. eapply HU; [|eauto]. now apply Kid_subs.
Qed.

(** C42: building a finite document ends, in every iteration order, however its references go round *)
Theorem finite_document_builds D s docs : Sorted s -> (forall m s', lookup D m = Some s' -> Sorted s') ->
  (forall m s', lookup D m = Some s' -> In s' docs) -> exists n, forall w, build_with n D s w <> BOOF.
Proof.
  intros So SD F. destruct (finite_union Used (s :: docs) (fun x _ => used_finite x)) as [U HU].
  exists (2 * List.length U + 3)%nat. apply build_terminates; auto.
  intros m R. destruct R as [m H|k s' m _ Dk H]; [eapply HU; [|eauto]; now left|].
  eapply HU; [|eauto]. destruct Dk; [now left|]. right. eauto.
Qed.
