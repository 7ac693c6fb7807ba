(** A validator built from a plain schema decides exactly what the schema means (C43). *)
From Verif Require Import Base GoFloat FloatSpec FloatProofs GoValue Maybe Formats HostSpec Constraint StructInfo Validate Fuel Reach Terminate Builder BuildSpec BuildProofs BuildRefs BuildErr Spec SpecSound SpecMain Scalars DocSpec Height SchemaSpec SchemaForm SchemaRegular SchemaMeans.
Open Scope Z_scope.

(** ** Schemas that make progress: references at the level of the same value never go round *)
Inductive Same : schema -> string -> Prop :=
| sm_ref c : sc_ref c <> ""%string -> Same (Sch c) (sc_ref c)
| sm_comb c x n : sc_ref c = ""%string -> In x (comb_kids c) -> Same x n -> Same (Sch c) n
| sm_dep c k x n : sc_ref c = ""%string -> In TObject (types_of c) -> sget k (sc_depSchemas c) = Some x -> Same x n -> Same (Sch c) n.
Inductive Round (D : resolver) (root : schema) : string -> string -> Prop :=
| ro_one a s b : Def D root a s -> Same s b -> Round D root a b
| ro_more a b c : Round D root a b -> Round D root b c -> Round D root a c.
Definition steady (D : resolver) (root : schema) : Prop := forall n, ~ Round D root n n.
(** no default is itself an array or an object *)
Definition scalar_defaults (D : resolver) (root : schema) : Prop :=
  forall c, Sub D root root (Sch c) -> sc_ref c = ""%string -> scalar (sc_default c).

Lemma sorted_kid c x : Sorted (Sch c) -> Kid c x -> Sorted x.
Proof.
  intros So K. inversion So as [|c' _ _ _ _ H]; subst. apply H. rewrite !in_app_iff. destruct K; auto.
Qed.
Lemma sub_facts D s x : Sorted s -> (forall m s', lookup D m = Some s' -> Sorted s') -> sound D s ->
  Sub D s s x -> Good x /\ Sorted x /\ forall m, Used x m -> Referred D s m.
Proof.
  intros So SD [G GD]. induction 1 as [|c x _ (G1 & S1 & U1) R K|c x _ (G1 & S1 & U1) R Ds].
  - splits; auto. intros m U. now apply rf_root.
  - splits; [eapply good_kid; eauto|eapply sorted_kid; eauto|]. intros m U. apply U1. eapply us_kid; eauto.
  - assert (RF : Referred D s (sc_ref c)) by (apply U1; now constructor). destruct (GD _ RF) as (s' & D' & G').
    rewrite (Def_fun _ _ _ _ _ Ds D'). splits; auto.
    + destruct D' as [|n s' _ L]; auto. eapply SD; eauto.
    + intros m U. eapply rf_def; eauto.
Qed.

Lemma shallow_reduce f l n : f = CAll \/ f = CAny \/ f = COneOf -> Shallow (reduce (f l)) n -> exists y, In y l /\ Shallow y n.
Proof.
  intros Q H. destruct l as [|y [|z l]].
  - exfalso. destruct Q as [->|[->| ->]]; inversion H; subst; match goal with I : In _ [] |- _ => destruct I end.
  - exists y. split; [now left|]. destruct Q as [->|[->| ->]]; exact H.
  - destruct Q as [->|[->| ->]]; inversion H; subst; eauto.
Qed.
Lemma shallow_same s : forall n, Shallow (bc s) n -> Same s n.
Proof.
  induction s as [|c IH] using schema_subs_ind; intros n H; [inversion H|].
  destruct (String.eqb_spec (sc_ref c) "") as [R|R].
  - rewrite bc_step in H by assumption. apply shallow_reduce in H as (y & I & H); [|auto].
    assert (KC : forall x, In x (comb_kids c) -> Shallow (bc x) n -> Same (Sch c) n).
    { intros x Hx Sx. eapply sm_comb; eauto. apply IH; auto. apply Kid_subs. now apply kid_comb. }
    assert (KM : forall f l, f = CAll \/ f = CAny \/ f = COneOf -> (forall x, In x l -> In x (comb_kids c)) -> Shallow (reduce (f (map bc l))) n -> Same (Sch c) n).
    { intros f l Q L Sx. apply shallow_reduce in Sx as (y' & I' & Sx); [|auto]. apply in_map_iff in I' as (x & <- & I'). eauto. }
    apply in_app_iff in I as [I|I].
    + unfold bc_comb in I. unfold comb_kids in *. destruct (sc_not c) as [|z] eqn:Qn.
      * destruct (sc_allOf c) as [|a0 al] eqn:Qa; [destruct (sc_anyOf c) as [|b0 bl] eqn:Qb; [destruct (sc_oneOf c) as [|d0 dl] eqn:Qd; [destruct I|]|]|];
          destruct I as [<-|[]]; (eapply KM; [|intros x Hx; exact Hx|exact H]); auto.
      * destruct I as [<-|[]]. inversion H; subst. apply (KC (Sch z)); [now left|auto].
    + unfold bc_types in I. destruct (types_of c) as [|t ts] eqn:T.
      * destruct (sc_enum c); [destruct I|]. destruct I as [<-|[]]. inversion H.
      * destruct I as [<-|[]]. rewrite <- T in H. apply shallow_reduce in H as (y' & I' & H); [|auto]. apply in_map_iff in I' as (u & <- & I').
        assert (Q : u = TObject).
        { destruct u; auto; exfalso; inversion H. }
        subst u.
        assert (SO : forall y, Shallow y n -> forall o, y = CObj o -> exists k, Shallow (schema_dep o k) n) by (destruct 1; try discriminate; intros o' [= <-]; eauto).
        destruct (SO _ H _ eq_refl) as [k H']. clear H SO.
        change (Shallow (schema_dep (match bc_one c TObject with CObj o => o | _ => new_obj end) k) n) in H'. rewrite obj_sdep in H'.
        destruct (sget k (sc_depSchemas c)) as [x|] eqn:G; [|inversion H'].
        eapply sm_dep; eauto. apply IH; auto. apply Kid_subs. eapply dep_kid; eauto.
  - cbn [bc] in H. pose proof R as R'. apply String.eqb_neq in R'. rewrite R' in H. inversion H; subst. now constructor.
Qed.

Section Built.
  Context (E : env) (D : resolver) (s : schema) (bytes : bool) (n : nat) (w : orc) (c : constr) (rf : refs) (log : list string).
  Hypothesis sorted0 : Sorted s.
  Hypothesis sortedD : forall m s', lookup D m = Some s' -> Sorted s'.
  Hypothesis B : build_with n D s w = Built c rf log.
  Hypothesis HP : all_plain E D s bytes s.

  Lemma built_facts : c = bc s /\
    (forall m x, sget m rf = Some x -> exists s', Def D s m s' /\ Good s' /\ x = bc s') /\
    (forall c, Sub D s s (Sch c) -> sc_ref c <> ""%string -> exists x, sget (sc_ref c) rf = Some x) /\
    (forall x, Sub D s s x -> Good x) /\ (forall x, Sub D s s x -> Sorted x).
  Proof.
    pose proof (build_outcome n D s w sorted0 sortedD) as O. rewrite B in O. destruct O as (-> & G & Sr & _ & HK & HD).
    pose proof (built_sound D s sorted0 sortedD n w _ _ _ B) as SO. pose proof (sub_facts D s) as SF.
    splits; auto.
    - intros c' Hs R. destruct (SF _ sorted0 sortedD SO Hs) as (_ & _ & U). apply sget_some_keys. apply HK, U. now constructor.
    - intros x Hs. now apply (SF x).
    - intros x Hs. now apply (SF x).
  Qed.

  (** every run that ends gives the verdict of the schema *)
  Theorem built_means v o r v' o' : json v -> (bytes = true -> one_byte v) ->
    Runs (with_refs E rf) c v o (r, v', o') ->
    (r = Pass /\ Valid E D s s v /\ ~ Invalid E D s s v) \/
    ((exists m, r = Fail m) /\ Invalid E D s s v /\ ~ Valid E D s s v).
  Proof.
    intros J OB RU. destruct built_facts as (-> & HD & HK & HG & HS).
    pose proof (built_regular E D s rf bytes HD HG HS HP s (sub_here _ _ _)) as RG.
    pose proof (documented_run _ _ _ _ _ _ _ RG (json_doc v J) RU) as O.
    assert (M : forall k, (holds (with_refs E rf) k true (bc s) v -> Valid E D s s v) /\ (holds (with_refs E rf) k false (bc s) v -> Invalid E D s s v)).
    { intros k. apply (holds_means E D s rf bytes HD HK HG HP k s (sub_here _ _ _)). split; auto. }
    destruct O as [(-> & S & _)|(F & V & _)].
    - left. apply (derivation_height _ true) in S as [k S]. apply M in S. splits; auto. intros I. eapply Valid_not_Invalid; eauto.
    - right. apply (derivation_height _ false) in V as [k V]. apply M in V. splits; auto. intros I. eapply Valid_not_Invalid; eauto.
  Qed.

  Lemma round_calls a b : calls_plus (with_refs E rf) a b -> Round D s a b.
  Proof.
    destruct built_facts as (_ & HD & _).
    assert (C : forall a b, calls (with_refs E rf) a b -> Round D s a b).
    { intros x y (z & G & Sh). destruct (HD x z G) as (s' & Ds & _ & ->). eapply ro_one; eauto. now apply shallow_same. }
    induction 1; [auto|]. eapply ro_more; eauto.
  Qed.

  (** and on schemas that make progress every run ends *)
  Theorem built_decides v o : steady D s -> scalar_defaults D s -> json v -> (bytes = true -> one_byte v) ->
    exists r v' o', Runs (with_refs E rf) c v o (r, v', o') /\
    ((r = Pass /\ Valid E D s s v /\ ~ Invalid E D s s v) \/
     ((exists m, r = Fail m) /\ Invalid E D s s v /\ ~ Valid E D s s v)).
  Proof.
    intros ST SC J OB. destruct built_facts as (Q & HD & HK & HG & HS).
    pose proof (built_regular E D s rf bytes HD HG HS HP s (sub_here _ _ _)) as RG.
    destruct (documented_exact (with_refs E rf) c v o) as (r & v' & o' & RU & _).
    - now rewrite Q.
    - now apply json_doc.
    - exists (keys rf). intros m H. apply sget_some_keys. change (sget m rf <> None) in H. destruct (sget m rf); [eauto|congruence].
    - intros m H. apply round_calls in H. now apply (ST m).
    - intros d (ob & k & p & R & I & Dp). rewrite Q in R. apply (form_reach E D s rf HD s) in R; [|apply fo_bc; constructor].
      assert (Fp : Form D s s p) by (eapply (form_child E D s rf HD); [exact R|eapply child_prop; eauto]).
      destruct (form_default E D s rf HD s p d Dp Fp) as (c' & Hs & Rc & <- & _). now apply SC.
    - exists r, v', o'. split; [exact RU|exact (built_means v o r v' o' J OB RU)].
  Qed.
End Built.
