(** A faithful constraint and its round trip are interchangeable. *)
From Verif Require Import Base GoFloat GoValue Maybe Formats Constraint StructInfo Validate Reach ConstrInd Local GoText GoEval GenLike GenSpec.
Open Scope Z_scope.

Lemma allp_in {A} (P : A -> Prop) l : allp P l <-> forall x, In x l -> P x.
Proof.
  induction l as [|a l IH]; cbn; [intuition|]. rewrite IH. split; [intros [A1 A2] x [<-|I]; auto|intuition].
Qed.

Lemma kept_cmp rd f : kept_bound rd f -> forall g, fle g (rd f) = fle g f /\ flt g (rd f) = flt g f /\ fle (rd f) g = fle f g /\ flt (rd f) g = flt f g.
Proof.
  intros [-> | [A B]] g; [repeat split; reflexivity|].
  assert (Z : forall x, feq x fzero = true -> exists s, x = S754_zero s).
  { intros [s|s| |[] m e]; intros H; try discriminate H; eauto. destruct s; discriminate H. }
  destruct (Z _ A) as [s ->]. destruct (Z _ B) as [t ->]. destruct g as [|[]| |[] m e]; repeat split; reflexivity.
Qed.

Lemma num_keep rd m : kept_num rd m -> forall f, num_check m f = num_check (regen_num rd m) f.
Proof.
  intros (K1 & K2 & K3 & K4) f. unfold num_check, regen_num. cbn. rewrite K4.
  assert (M : (n_amul m && negb (feq (n_mul m) fzero))%bool = false).
  { destruct (n_amul m); [|reflexivity]. now rewrite K3. }
  rewrite M. cbn [andb].
  destruct (n_amin m).
  - destruct (kept_cmp rd _ (K1 eq_refl) f) as (A1 & A2 & _ & _). rewrite A1, A2.
    destruct (n_amax m); [|reflexivity].
    destruct (kept_cmp rd _ (K2 eq_refl) f) as (_ & _ & A3 & A4). now rewrite A3, A4.
  - destruct (n_amax m); [|reflexivity].
    destruct (kept_cmp rd _ (K2 eq_refl) f) as (_ & _ & A3 & A4). now rewrite A3, A4.
Qed.

Lemma enum_keep l s : allp item_ok l -> allp kept_item l -> enum_loop l (gstr s) = enum_loop (map regen_item l) (gstr s).
Proof.
  induction l as [|v l IH]; [reflexivity|]. cbn [allp]. intros [A B] [C D]. cbn [map enum_loop].
  replace (ieq (regen_item v) (gstr s)) with (ieq v (gstr s)); [now rewrite IH|].
  destruct v; try contradiction; cbn.
  - cbn. destruct (String.eqb _ "string"); reflexivity.
  - cbn. destruct (String.eqb _ "string"); reflexivity.
  - cbn in C. subst. reflexivity.
Qed.

Lemma str_keep s E x : str_ok s -> match s_enum s with Some l => allp kept_item l | None => True end ->
  str_check E s x = str_check E (regen_str s) x.
Proof.
  intros (_ & _ & _ & _ & O) K. unfold str_check, regen_str. cbn [s_max s_min s_rx s_fmt s_enum].
  assert (EN : match s_enum s with None => Pass | Some l => enum_loop l (gstr x) end =
               match option_map (map regen_item) (s_enum s) with None => Pass | Some l => enum_loop l (gstr x) end).
  { destruct (s_enum s); [|reflexivity]. cbn. destruct O. now apply enum_keep. }
  rewrite <- EN.
  assert (L : 0 <= slen x) by (unfold slen; lia).
  destruct (-1 <? s_max s) eqn:M1; cbn [andb].
  - rewrite M1. cbn [andb]. destruct (s_max s <? slen x); [reflexivity|].
    destruct (0 <? s_min s) eqn:M2.
    + reflexivity.
    + apply Z.ltb_ge in M2. replace (slen x <? s_min s) with false by (symmetry; apply Z.ltb_ge; lia).
      replace (slen x <? 0) with false by (symmetry; apply Z.ltb_ge; lia). now rewrite !andb_false_r.
  - cbn. destruct (0 <? s_min s) eqn:M2.
    + reflexivity.
    + apply Z.ltb_ge in M2. replace (slen x <? s_min s) with false by (symmetry; apply Z.ltb_ge; lia).
      replace (slen x <? 0) with false by (symmetry; apply Z.ltb_ge; lia). now rewrite !andb_false_r.
Qed.

Lemma bound_keep z : bound_like z (if -1 <? z then z else -1).
Proof. unfold bound_like. destruct (-1 <? z) eqn:B; [auto|]. apply Z.ltb_ge in B. right. lia. Qed.

Lemma all2_map {A B} (R : A -> B -> Prop) f l : (forall x, In x l -> R x (f x)) -> all2 R l (map f l).
Proof. induction l as [|x l IH]; cbn; auto. Qed.

Theorem faithful_like hm c : c = CNil \/ emittable hm c -> faithful c -> like c (regen c).
Proof.
  induction c as [c IH] using constr_subs_ind. intros EM F.
  destruct c as [| | |d|d s|d m|d m|a|o|l|l|l|l|x|nm]; (destruct EM as [EM|EM]; [try discriminate EM|]); cbn [emittable faithful] in *; try contradiction;
    try exact I.
  - destruct d as [[]|]; try contradiction; cbn; [now subst|reflexivity].
  - destruct EM as [D O]. cbn. split; [|intros; now apply str_keep].
    destruct d as [[]|]; try contradiction; cbn; [|reflexivity]. now destruct D as [-> _].
  - destruct EM as [D O], F as [D2 K]. cbn. split; [|now apply num_keep].
    destruct d as [[]|]; try contradiction; cbn; [|reflexivity]. destruct D2 as (-> & -> & D2). cbn. now rewrite D2.
  - destruct F as [-> K]. split; [reflexivity|]. now apply num_keep.
  - destruct EM as (E1 & E2 & E3 & _), F as (F1 & F2 & F3 & F4). cbn [regen like a_items a_pos a_add a_min a_max a_uniq].
    rewrite allp_in in E3. rewrite allp_in in F3.
    split; [apply IH; cbn; auto|]. split.
    { apply all2_map. intros x X. apply IH; cbn; auto. }
    split; [|split; [apply bound_keep|split; [apply bound_keep|reflexivity]]].
    destruct (is_nil (a_add a)) eqn:N; [|left; apply IH; cbn; auto].
    destruct F4 as [F4|F4]; [destruct (a_add a); try discriminate; congruence|auto].
  - destruct EM as (E1 & E2 & E3 & E4 & E5 & E6 & E7 & E8 & E9), F as (F1 & F2 & F3 & F4 & F5 & F6).
    cbn [regen like o_add o_props o_pats o_min o_max]. rewrite allp_in in E3. rewrite allp_in in E5. rewrite allp_in in F2. rewrite allp_in in F3.
    split; [apply IH; cbn; auto|]. split; [|split; [|repeat split; auto; lia]].
    + apply all2_map. intros p X. cbn. split; auto. apply IH; [cbn; right; apply in_or_app; right; apply in_or_app; left; now apply in_map| |now apply F2]. right. now apply E3.
    + eexists. split; [reflexivity|]. apply all2_map. intros p X. cbn. split; auto.
      apply IH; [cbn; right; apply in_or_app; left; now apply in_map| |now apply F3]. right. now apply E5.
  - destruct F as [N F]. rewrite allp_in in F. rewrite allp_in in EM. destruct l as [|x l]; [congruence|]. cbn [regen like]. apply all2_map.
    intros y Y. apply IH; cbn in *; auto.
  - rewrite allp_in in F. rewrite allp_in in EM. destruct l as [|x l]; [exact I|]. cbn [regen like]. apply all2_map.
    intros y Y. apply IH; cbn in *; auto.
  - destruct F as [N F]. rewrite allp_in in F. rewrite allp_in in EM. destruct l as [|x l]; [congruence|]. cbn [regen like]. apply all2_map.
    intros y Y. apply IH; cbn in *; auto.
  - reflexivity.
Qed.
