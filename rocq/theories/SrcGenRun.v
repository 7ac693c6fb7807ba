(** Generator.Process of generator.go run from its source text on any list of validators, and the
    code it writes run in turn. *)
From Coq Require Import Permutation.
From Verif Require Import Base GoFloat GoValue Maybe Formats Constraint StructInfo Validate Reach ConstrInd Local Builder GoText GoLang GoEval Generator GenLex GenParse GenCode GenLike GenSpec GenFaith GenRound GenObj GenMain GenProcess GenTheorems.
From Verif Require Import SrcSyntax SrcText SrcTextG SrcProg SrcGen SrcProgG SrcStepG SrcGenFun SrcGenTree SrcGenAll SrcGenMerge SrcGenProc.
From Verif Require GenCases.
Open Scope string_scope.
Open Scope list_scope.
Open Scope Z_scope.

(** What Process, as written in generator.go, does with the validators vs and an empty writer;
    w gives the orders of its map loops. *)
Definition source_process (G : genv) (k : nat) (vs : list validator) (w : orc) : qev (list qv) :=
  qcall (prog_g G) k "Generator.Process" [QNil; QBuf 0; QVals (seq 0 (List.length vs))] (mk [] [""] vs w).

Lemma from_refs G cm r rn (l : list (string * constr)) : (forall n c, In (n, c) l -> tame G cm c) ->
  exists K, forall k, (K <= k)%nat -> forall n c, In (n, c) l -> gen_at G cm r rn k c.
Proof.
  intro H. destruct (from_all G cm r rn (map snd l)) as [K HK].
  { intros x Hx. apply in_map_iff in Hx as ([n c] & <- & Hin). apply gen_code. exact (H n c Hin). }
  exists K. intros k Hk n c Hin. apply HK; [exact Hk|]. apply in_map_iff. now exists (n, c).
Qed.

(** Process as written writes the file the model gives, names the validators as the model does,
    and fails or panics where the model does.  The source runs through the references of each
    validator, the model once through all of them: so the orders left for the rest have to agree. *)
Theorem process_source G vs :
  Forall (fun v => ssorted (v_refs v)) vs ->
  (forall v, In v vs -> tame G (map_name (merge_refs vs)) (v_root v)) ->
  (forall n c, sget n (merge_refs vs) = Some c -> tame G (map_name (merge_refs vs)) c) ->
  exists K, forall k, (K <= k)%nat -> forall w w', skipn (refs_count vs) w = skipn (List.length (merge_refs vs)) w' ->
  match process G vs w' with
  | GOk (x, w1) => source_process G k vs w = QOk [QNil] (mk [] [x] (name_all vs) w1)
  | GErr m => exists m' s, source_process G k vs w = QOk [QErr m'] s /\ starts m m' = true
  | GPanic _ => exists m', source_process G k vs w = QPn m'
  end.
Proof.
  intros Hs Hv Hr.
  remember (merge_refs vs) as refs eqn:Er.
  assert (Hsr : ssorted refs) by (subst refs; rewrite merge_refs_put; apply merge_sorted; constructor).
  destruct (from_all G (map_name refs) (QMap (SrcGenVal.of_ref refs)) (QMap (ref_map refs)) (map v_root vs)) as [K1 H1].
  { intros x Hx. apply in_map_iff in Hx as (v & <- & Hin). apply gen_code. now apply Hv. }
  destruct (from_refs G (map_name refs) (QMap (SrcGenVal.of_ref refs)) (QMap (ref_map refs)) refs) as [K2 H2].
  { intros n c Hin. apply (Hr n c). apply nodup_sget; [now apply ssorted_nodup|exact Hin]. }
  exists (S (S (S (Nat.max K1 K2)))). intros k Hk w w' Hw.
  destruct k as [|[|[|k]]]; try lia.
  apply (process_run G vs refs k); try assumption.
  - now symmetry.
  - intros v Hin. apply H1; [lia|]. now apply in_map.
  - intros n c Hg. apply (H2 (S (S k))) with (n := n); [lia|]. now apply sget_in.
Qed.

(** Such orders exist for any orders of the source's loops. *)
Definition model_order (vs : list validator) (w : orc) : orc := repeat O (List.length (merge_refs vs)) ++ skipn (refs_count vs) w.
Lemma model_order_rest vs w : skipn (refs_count vs) w = skipn (List.length (merge_refs vs)) (model_order vs w).
Proof.
  unfold model_order. rewrite skipn_app, (skipn_all2 (repeat _ _)) by (rewrite repeat_length; lia).
  rewrite repeat_length, Nat.sub_diag. reflexivity.
Qed.

(** Constraints for which usable code is written are tame. *)
Lemma emittable_visits hm c x : emittable hm c -> In x (visits c) -> x = CNil \/ emittable hm x.
Proof.
  destruct c; cbn [emittable visits subs]; try solve [intros _ []].
  - intros (Hi & Ha & Hp & _) [<-|[<-|Hx]]; [exact Hi|exact Ha|right]. exact (proj1 (allp_in _ _) Hp x Hx).
  - intros (Ha & _ & Hp & _ & Hq & _) [<-|Hx]; [exact Ha|right].
    apply in_app_or in Hx as [Hx|Hx]; apply in_map_iff in Hx as (e & <- & Hin); [apply (proj1 (allp_in _ _) Hq e Hin)|apply (proj1 (allp_in _ _) Hp e Hin)].
  - intros H Hx. right. exact (proj1 (allp_in _ _) H x Hx).
  - intros H Hx. right. exact (proj1 (allp_in _ _) H x Hx).
  - intros H Hx. right. exact (proj1 (allp_in _ _) H x Hx).
  - intros [].
Qed.
Lemma emittable_tame G hm c : c = CNil \/ emittable hm c -> tame G (GenRound.cm_of hm) c.
Proof.
  intros Hc a Hu. remember (CArr a) as d eqn:Ed. revert Hc a Ed.
  induction Hu as [c|c x d Hx Hu IH]; intros Hc a Ed.
  - subst c. destruct Hc as [Hc|Hc]; [discriminate|]. cbn [emittable] in Hc. destruct Hc as (_ & _ & Hp & _).
    intros x Hx w m He. destruct (emit_good G hm x (proj1 (allp_in _ _) Hp x Hx)) as (s & e & Hd & _).
    destruct (Hd w) as [w1 E]. congruence.
  - apply IH; [|exact Ed]. destruct Hc as [->|Hc]; [destruct Hx|]. eapply emittable_visits; eauto.
Qed.
Lemma map_name_refs vs : map_name (merge_refs vs) = GenRound.cm_of (has_refs vs).
Proof. unfold has_refs. destruct (merge_refs vs); reflexivity. Qed.

Lemma contents_tame G vs : contents_ok vs ->
  (forall v, In v vs -> tame G (map_name (merge_refs vs)) (v_root v)) /\
  (forall n c, sget n (merge_refs vs) = Some c -> tame G (map_name (merge_refs vs)) c).
Proof.
  intros [Hv Hr]. rewrite map_name_refs. split.
  - intros v Hin. apply emittable_tame. right. apply Hv, Hin.
  - intros n c Hg. apply emittable_tame. right. specialize (Hr n c Hg).
    assert (Hh : has_refs vs = true) by (unfold has_refs; destruct (merge_refs vs); [discriminate|reflexivity]).
    rewrite Hh. exact Hr.
Qed.

(** The file written by generator.go, run: the validators it leaves behave like the originals.
    The writer is read from the source text of generator.go; the file is lexed, parsed and run by
    the model of Go programs (GoLang, GoEval). *)
Theorem source_generated_equivalent E G vs :
  Forall (fun v => ssorted (v_refs v)) vs -> names_ok vs -> contents_ok vs ->
  (forall v, In v vs -> faithful (v_root v)) ->
  (forall n c, sget n (merge_refs vs) = Some c -> faithful c) ->
  exists K, forall k, (K <= k)%nat -> forall w, exists s w' st,
    source_process G k vs w = QOk [QNil] (mk [] [s] (name_all vs) w') /\ run_go s = Some st /\
    (forall i v, nth_error vs i = Some v -> agree E (own_refs v) (fun n => sget n (merge_refs vs)) (v_root v) ->
     exists j, sget (v_name (named i v)) (e_vars st) = Some (VJ j) /\ j_name j = v_name (named i v) /\
       Same E (own_refs v) (v_root v) (run_refs st) (j_root j) /\
       (forall addr addr' n x r x',
        outcomes E (own_refs v) (v_name (named i v)) addr (v_root v) n x r x' <->
        outcomes E (run_refs st) (j_name j) addr' (j_root j) n x r x')).
Proof.
  intros Hs Hn Hc Hf1 Hf2. destruct (contents_tame G vs Hc) as [T1 T2].
  destruct (process_source G vs Hs T1 T2) as [K HK]. exists K. intros k Hk w.
  destruct (generated_code_equivalent E G vs Hn Hc Hf1 Hf2 (model_order vs w)) as (s & w' & st & Hp & Hrun & Hall).
  exists s, w', st. split; [|split; [exact Hrun|exact Hall]].
  specialize (HK k Hk w (model_order vs w) (model_order_rest vs w)). now rewrite Hp in HK.
Qed.

(** A concrete case: the two validators of GenCases, sharing a reference. *)
Example case_sorted : Forall (fun v => ssorted (v_refs v)) [GenCases.v1; GenCases.v2].
Proof. repeat constructor. Qed.
Example case_source_process : exists x,
  source_process GenCases.G0 30 [GenCases.v1; GenCases.v2] [] = QOk [QNil] (mk [] [x] (name_all [GenCases.v1; GenCases.v2]) []) /\
  match process GenCases.G0 [GenCases.v1; GenCases.v2] [] with GOk (y, _) => x = y | _ => False end /\ (300 < String.length x)%nat.
Proof. eexists. split; [vm_compute; reflexivity|]. split; vm_compute; [reflexivity|repeat constructor]. Qed.
Example case_source_equivalent : exists K, forall k, (K <= k)%nat -> forall w, exists s w' st j1 j2,
  source_process GenCases.G0 k [GenCases.v1; GenCases.v2] w = QOk [QNil] (mk [] [s] (name_all [GenCases.v1; GenCases.v2]) w') /\
  run_go s = Some st /\ sget "V0" (e_vars st) = Some (VJ j1) /\ sget "Other" (e_vars st) = Some (VJ j2) /\
  Same GenCases.E0 (own_refs GenCases.v1) GenCases.o1 (run_refs st) (j_root j1).
Proof.
  destruct GenCases.case_faithful as [F1 F2]. destruct (contents_tame GenCases.G0 _ GenCases.case_contents) as [T1 T2].
  destruct (process_source GenCases.G0 _ case_sorted T1 T2) as [K HK]. exists K. intros k Hk w.
  destruct (GenCases.case_equivalent (model_order [GenCases.v1; GenCases.v2] w)) as (s & w' & st & j1 & j2 & Hp & Hrun & Hj1 & Hj2 & Hsame & _).
  exists s, w', st, j1, j2. specialize (HK k Hk w _ (model_order_rest _ w)). rewrite Hp in HK. auto.
Qed.
(** and one where it fails: a Not cannot be generated *)
Example case_source_fails : exists m s,
  source_process GenCases.G0 30 [GenCases.val (CNot CNull)] [] = QOk [QErr m] s /\ starts "syntax error" m = true.
Proof. do 2 eexists. split; vm_compute; reflexivity. Qed.
