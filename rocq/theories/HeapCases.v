(** Documents and default values that share maps: what goes wrong, and cases of the
    theorems of HeapProofs.v (C70-C72). *)
From Verif Require Import Base GoFloat GoValue Maybe Formats Constraint StructInfo Validate Fuel Reach Refuted Heap HeapProofs.
Open Scope Z_scope.
Open Scope string_scope.
Open Scope list_scope.

Definition no_hrefs : string -> option hconstr := fun _ => None.
Definition hobject (props : list (string * hconstr)) (mx : Z) : hconstr :=
  KObj {| o_add := KNil; o_pats := []; o_props := props; o_propdeps := []; o_req := []; o_min := -1; o_max := mx; o_sdeps := [] |}.
Definition one : hval := HNum (f64_of_Z 1).

(** ** C70: equal documents get equal verdicts, whatever was validated before *)
Definition again_full : Prop := forall E R n c v1 v2 h g fp1 fp2 w r1 h1 w1 r2 h2 w2,
  (forall k, e_refs E k = option_map erase (R k)) ->
  rep h v1 g fp1 -> rep h v2 g fp2 -> NoDup (fp1 ++ fp2) ->
  (forall d, HHas R c d -> within (fun a => ~ In a (fp1 ++ fp2)) d) ->
  hvalidate E R n c v1 h w = (r1, h1, w1) -> hvalidate E R n c v2 h1 w = (r2, h2, w2) -> r2 = r1.
(** the first constraint puts its default, a map, into the document; the second fills in
    a default inside that map - which the first constraint still holds *)
Definition again_c : hconstr :=
  KAll [hobject [("a", KStr (Some (HMap 0)) new_str)] (-1);
        hobject [("a", hobject [("b", KInt (Some one) new_num)] 0)] (-1)].
Definition again_h : heap := [[]; []; []].
Ltac find_defaults := repeat match goal with
  | H : False |- _ => destruct H
  | H : In _ (hkids _) |- _ => cbn in H; repeat (destruct H as [H|H]); try contradiction; subst
  | H : own_default _ = Some _ |- _ => cbn in H; injection H as <-; cbn; auto
  | H : HHas _ _ _ |- _ => inversion H; clear H; subst; try discriminate
  end.
Lemma again_has d : HHas no_hrefs again_c d -> d = HMap 0 \/ d = one.
Proof. intros H. find_defaults. Qed.
Theorem again_refuted : ~ again_full.
Proof.
  intros F. assert (X : forall a, (a < 3)%nat -> rep again_h (HMap a) (gmap []) [a]).
  { intros a L. constructor; auto. destruct a as [|[|[|a]]]; try lia; constructor. }
  assert (V1 : hvalidate (env0 no_refs) no_hrefs 5 again_c (HMap 1) again_h [] = (Pass, [[("b", one)]; [("a", HMap 0)]; []], [])) by (vm_compute; reflexivity).
  assert (V2 : hvalidate (env0 no_refs) no_hrefs 5 again_c (HMap 2) [[("b", one)]; [("a", HMap 0)]; []] [] =
    (Fail "object property 'a' validation failed: more properties than maxProperties", [[("b", one)]; [("a", HMap 0)]; [("a", HMap 0)]], [])) by (vm_compute; reflexivity).
  assert (Y : Fail "object property 'a' validation failed: more properties than maxProperties" = Pass); [|discriminate].
  refine (F (env0 no_refs) no_hrefs 5%nat again_c (HMap 1) (HMap 2) again_h (gmap []) [1%nat] [2%nat] [] _ _ _ _ _ _ (fun _ => eq_refl) (X 1%nat _) (X 2%nat _) _ _ V1 V2); try lia.
  - repeat constructor; cbn; lia.
  - intros d H. apply again_has in H as [->| ->]; cbn; [lia|exact I].
Qed.
(** two documents validated by one validator share the default from then on *)
Example joined : hvalidate (env0 no_refs) no_hrefs 5 (hobject [("a", KStr (Some (HMap 0)) new_str)] (-1)) (HMap 2)
    (snd (fst (hvalidate (env0 no_refs) no_hrefs 5 (hobject [("a", KStr (Some (HMap 0)) new_str)] (-1)) (HMap 1) again_h []))) [] =
  (Pass, [[]; [("a", HMap 0)]; [("a", HMap 0)]], []).
Proof. vm_compute. reflexivity. Qed.

(** default values without maps: a constraint for nested documents *)
Definition point_c : hconstr :=
  hobject [("next", hobject [("x", KInt (Some one) new_num)] (-1)); ("tags", KArr {| a_items := hobject [("t", KStr (Some (HArr [one; HStr "s"])) new_str)] 1; a_pos := []; a_add := KEmpty; a_min := -1; a_max := -1; a_uniq := true |})] (-1).
Definition point_h : heap := [[("next", HMap 1); ("tags", HArr [HMap 2; HMap 3])]; []; []; [("t", HStr "u")]; [("next", HMap 5)]; [("x", HStr "v")]].
Definition point_g : gval := gmap [("next", gmap []); ("tags", gslice [gmap []; gmap [("t", gstr "u")]])].
Lemma point_defaults d : HHas no_hrefs point_c d -> mapless d.
Proof.
  intros H. find_defaults.
Qed.
Lemma point_rep : rep point_h (HMap 0) point_g [0; 1; 2; 3]%nat.
Proof.
  constructor; [cbn; lia|]. change [1; 2; 3]%nat with ([1] ++ ([2; 3] ++ []))%nat. constructor.
  - constructor; [cbn; lia|constructor].
  - constructor; [|constructor]. constructor. change [2; 3]%nat with ([2] ++ ([3] ++ []))%nat. constructor; [constructor; [cbn; lia|constructor]|]. constructor; [|constructor].
    constructor; [cbn; lia|]. change (@nil nat) with (@nil nat ++ @nil nat). constructor; [|constructor]. apply (rep_scalar point_h (HStr "u") I).
Qed.
Lemma point_rep2 : rep point_h (HMap 4) (gmap [("next", gmap [("x", gstr "v")])]) [4; 5]%nat.
Proof.
  constructor; [cbn; lia|]. change [5]%nat with ([5] ++ [])%nat. constructor; [|constructor]. constructor; [cbn; lia|].
  change (@nil nat) with (@nil nat ++ @nil nat). constructor; [|constructor]. apply (rep_scalar point_h (HStr "v") I).
Qed.
Example point_run : exists h', hvalidate (env0 no_refs) no_hrefs 9 point_c (HMap 0) point_h [] = (Pass, h', []) /\
  rep h' (HMap 0) (gmap [("next", gmap [("x", gfloat (f64_of_Z 1))]); ("tags", gslice [gmap [("t", gslice [gfloat (f64_of_Z 1); gstr "s"])]; gmap [("t", gstr "u")]])]) [0; 1; 2; 3]%nat /\
  h_at h' 4 = h_at point_h 4 /\ h_at h' 5 = h_at point_h 5.
Proof.
  assert (N : NoDup [0; 1; 2; 3]%nat) by (repeat constructor; cbn; lia).
  pose proof (heap_unshared (env0 no_refs) no_hrefs 9 point_c (HMap 0) point_h [] point_g _ (fun _ => eq_refl) point_defaults point_rep N) as S.
  destruct (hvalidate (env0 no_refs) no_hrefs 9 point_c (HMap 0) point_h []) as [[r h'] w']. destruct S as (g' & V & X & _ & K).
  assert (V2 : validate 9 (env0 no_refs) (erase point_c) point_g [] = (Pass,
    gmap [("next", gmap [("x", gfloat (f64_of_Z 1))]); ("tags", gslice [gmap [("t", gslice [gfloat (f64_of_Z 1); gstr "s"])]; gmap [("t", gstr "u")]])], [])) by (vm_compute; reflexivity).
  rewrite V2 in V. injection V as <- <- <-. exists h'. split; [reflexivity|]. split; [exact X|]. split; apply K; cbn; lia.
Qed.
Example point_apart : fst (hruns (env0 no_refs) no_hrefs 9 point_c [(HMap 0, []); (HMap 4, [])] point_h) =
  [Pass; Fail "object property 'next' validation failed: object property 'x' validation failed: value is not numeric"].
Proof.
  assert (X : repl point_h [HMap 0; HMap 4]%nat [point_g; gmap [("next", gmap [("x", gstr "v")])]] ([0; 1; 2; 3] ++ ([4; 5] ++ []))%nat)
    by (constructor; [exact point_rep|constructor; [exact point_rep2|constructor]]).
  assert (N : NoDup ([0; 1; 2; 3] ++ ([4; 5] ++ []))%nat) by (repeat constructor; cbn; lia).
  rewrite (hruns_alone (env0 no_refs) no_hrefs 9 point_c [(HMap 0, []); (HMap 4, [])] (fun _ => eq_refl) point_defaults _ _ _ X N). vm_compute. reflexivity.
Qed.

(** ** C71: the verdict depends on what the document contains *)
Definition content_full : Prop := forall E R n c v h v' h' g fp fp' w,
  (forall k, e_refs E k = option_map erase (R k)) -> (forall d, HHas R c d -> mapless d) -> rep h v g fp -> rep h' v' g fp' ->
  fst (fst (hvalidate E R n c v h w)) = fst (fst (hvalidate E R n c v' h' w)).
(** the default filled in below x is there below y too when both are one map *)
Definition pair_c : hconstr := hobject [("x", hobject [("k", KInt (Some one) new_num)] (-1)); ("y", hobject [] 0)] (-1).
Definition pair_h : heap := [[]; []; [("x", HMap 0); ("y", HMap 0)]; [("x", HMap 0); ("y", HMap 1)]].
Lemma pair_defaults d : HHas no_hrefs pair_c d -> mapless d.
Proof.
  intros H. find_defaults.
Qed.
Lemma pair_rep a b : (a < 2)%nat -> (b < 2)%nat -> repm pair_h [("x", HMap a); ("y", HMap b)] [("x", gmap []); ("y", gmap [])] ([a] ++ ([b] ++ [])).
Proof.
  assert (X : forall a, (a < 2)%nat -> rep pair_h (HMap a) (gmap []) [a]) by (intros z L; constructor; [cbn; lia|destruct z as [|[|z]]; try lia; constructor]).
  intros A B. apply repm_cons; [now apply X|]. apply repm_cons; [now apply X|]. apply repm_nil.
Qed.
Theorem content_refuted : ~ content_full.
Proof.
  intros F. specialize (F (env0 no_refs) no_hrefs 5%nat pair_c (HMap 2) pair_h (HMap 3) pair_h (gmap [("x", gmap []); ("y", gmap [])]) [2; 0; 0]%nat [3; 0; 1]%nat [] (fun _ => eq_refl) pair_defaults).
  assert (A : rep pair_h (HMap 2) (gmap [("x", gmap []); ("y", gmap [])]) [2; 0; 0]%nat) by (constructor; [cbn; lia|apply (pair_rep 0 0); lia]).
  assert (B : rep pair_h (HMap 3) (gmap [("x", gmap []); ("y", gmap [])]) [3; 0; 1]%nat) by (constructor; [cbn; lia|apply (pair_rep 0 1); lia]).
  specialize (F A B). vm_compute in F. discriminate.
Qed.
(** it does when nothing is shared, and when there are no default values *)
Theorem content_exact E R n c v h v' h' g fp fp' w : (forall k, e_refs E k = option_map erase (R k)) -> rep h v g fp -> rep h' v' g fp' ->
  (forall d, HHas R c d -> mapless d) /\ NoDup fp /\ NoDup fp' \/ (forall d, ~ HHas R c d) ->
  fst (fst (hvalidate E R n c v h w)) = fst (fst (hvalidate E R n c v' h' w)).
Proof.
  intros RE X Y [(D & N & N')|D].
  - pose proof (heap_unshared E R n c v h w g fp RE D X N) as A. pose proof (heap_unshared E R n c v' h' w g fp' RE D Y N') as B.
    destruct (hvalidate E R n c v h w) as [[r1 h1] w1]. destruct (hvalidate E R n c v' h' w) as [[r2 h2] w2].
    destruct A as (g1 & A & _). destruct B as (g2 & B & _). cbn. congruence.
  - destruct (heap_readonly E R n c v h w g fp RE D X) as (r1 & w1 & -> & A). destruct (heap_readonly E R n c v' h' w g fp' RE D Y) as (r2 & w2 & -> & B). cbn. congruence.
Qed.
(** a shared document without defaults *)
Example shared_run : let c := hobject [("x", hobject [] (-1)); ("y", hobject [] 0)] (-1) in
  (forall d, ~ HHas no_hrefs c d) /\ hvalidate (env0 no_refs) no_hrefs 5 c (HMap 2) pair_h [] = (Pass, pair_h, []).
Proof.
  split; [|vm_compute; reflexivity]. intros d H. find_defaults.
Qed.

(** ** C72: validation changes nothing outside the document *)
Definition outside_full : Prop := forall E R n c v h w S r h' w', within S v -> closed S h ->
  hvalidate E R n c v h w = (r, h', w') -> forall a, ~ S a -> h_at h' a = h_at h a.
Theorem outside_refuted : ~ outside_full.
Proof.
  intros F. specialize (F (env0 no_refs) no_hrefs 5%nat again_c (HMap 1) again_h [] (fun a => a = 1%nat) Pass [[("b", one)]; [("a", HMap 0)]; []] []).
  assert (Q : h_at [[("b", one)]; [("a", HMap 0)]; []] 0 = h_at again_h 0); [|discriminate].
  apply F; [reflexivity| |vm_compute; reflexivity|lia]. intros a -> k x [].
Qed.
Lemma mapless_within S : forall d, mapless d -> within S d.
Proof.
  fix IH 1. intros [| | | |l|] M; try exact I; [|destruct M]. induction l as [|x l IHl]; [exact I|]. destruct M as [M1 M2]. split; [now apply IH|now apply IHl].
Qed.
Theorem outside_exact E R n c v h w S r h' w' : within S v -> closed S h -> (forall d, HHas R c d -> mapless d) ->
  hvalidate E R n c v h w = (r, h', w') -> forall a, ~ S a -> h_at h' a = h_at h a.
Proof. intros W C D V. exact (proj1 (heap_frame E R n c v h w S r h' w' W (fun d H => mapless_within S d (D d H)) C V)). Qed.
(** the addresses a default may be found at are the only others *)
Example again_frame : closed (fun a => a = 1%nat \/ a = 0%nat) again_h /\ (forall d, HHas no_hrefs again_c d -> within (fun a => a = 1%nat \/ a = 0%nat) d) /\
  h_at (snd (fst (hvalidate (env0 no_refs) no_hrefs 5 again_c (HMap 1) again_h []))) 2 = [].
Proof.
  split; [intros a [->| ->] k x []|]. split; [intros d H; apply again_has in H as [->| ->]; cbn; auto|]. vm_compute. reflexivity.
Qed.
