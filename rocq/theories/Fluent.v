(** The fluent API: what a sequence of setter calls builds (C40).  Calls are data; a chain
    [New().A(..).B(..)] is the list [A ..; B ..]. *)
From Verif Require Import Base GoFloat GoValue Constraint Validate Scalars.
Open Scope Z_scope.

(** ** Chains *)
(** string.go:17-22,184-221 *)
Inductive str_call :=
| SDefault (v : gval) | SMaxLength (n : Z) | SMinLength (n : Z) | SRegexp (rx : string) | SFormat (f : string) | SEnum (l : list gval).
Definition str_step (s : option gval * strcfg) (c : str_call) : option gval * strcfg :=
  match c with
  | SDefault v => (Some v, snd s)
  | SMaxLength n => (fst s, str_maxLength n (snd s))
  | SMinLength n => (fst s, str_minLength n (snd s))
  | SRegexp r => (fst s, str_regexp r (snd s))
  | SFormat f => (fst s, str_format f (snd s))
  | SEnum l => (fst s, str_enum l (snd s))
  end.
Definition str_chain (l : list str_call) : option gval * strcfg := fold_left str_step l (None, new_str).

(** number.go:12-62 and, for Integer, 159-191 *)
Inductive num_call :=
| NDefault (v : gval) | NMaximum (f : f64) | NMinimum (f : f64) | NMultipleOf (f : f64)
| NExclusiveMinimum (b : bool) | NExclusiveMaximum (b : bool) | NEnum (l : list gval).
Definition num_step (s : option gval * numcfg) (c : num_call) : option gval * numcfg :=
  match c with
  | NDefault v => (Some v, snd s)
  | NMaximum f => (fst s, num_maximum f (snd s))
  | NMinimum f => (fst s, num_minimum f (snd s))
  | NMultipleOf f => (fst s, num_multipleOf f (snd s))
  | NExclusiveMinimum b => (fst s, num_exclMin b (snd s))
  | NExclusiveMaximum b => (fst s, num_exclMax b (snd s))
  | NEnum l => (fst s, num_enum l (snd s))
  end.
Definition num_chain (l : list num_call) : option gval * numcfg := fold_left num_step l (None, new_num).

(** array.go:125-171 *)
Inductive arr_call :=
| AItems (c : constr) | APositional (l : list constr) | AAdditional (c : constr) | AMin (n : Z) | AMax (n : Z) | AUnique (b : bool).
Definition arr_step (a : arrcfg) (c : arr_call) : arrcfg :=
  match c with
  | AItems x => arr_items x a | APositional l => arr_positional l a | AAdditional x => arr_additional x a
  | AMin n => arr_min n a | AMax n => arr_max n a | AUnique b => arr_unique b a
  end.
Definition arr_chain (l : list arr_call) : arrcfg := fold_left arr_step l new_arr.

(** object.go:36-126 *)
Inductive obj_call :=
| ORequired (l : list string) | OMin (n : Z) | OMax (n : Z) | OAdditional (c : constr) | OAddProp (k : string) (c : constr)
| OPattern (k : nat * string) (c : constr) | OPropDep (from : string) (to : list string) | OSchemaDep (from : string) (c : constr).
Definition obj_step (o : objcfg) (c : obj_call) : objcfg :=
  match c with
  | ORequired l => obj_required l o | OMin n => obj_min n o | OMax n => obj_max n o | OAdditional x => obj_additional x o
  | OAddProp k x => obj_addProp k x o | OPattern k x => obj_pattern k x o | OPropDep k l => obj_propDep k l o | OSchemaDep k x => obj_schemaDep k x o
  end.
Definition obj_chain (l : list obj_call) : objcfg := fold_left obj_step l new_obj.

(** ** What a chain means, stated on the list of calls alone *)
(** the argument of the last call selected by [f], if any *)
Fixpoint last_arg {C A} (f : C -> option A) (l : list C) : option A :=
  match l with
  | [] => None
  | c :: r => match last_arg f r with Some x => Some x | None => f c end
  end.
Definition last_or {C A} (f : C -> option A) (l : list C) (d : A) : A :=
  match last_arg f l with Some x => x | None => d end.
Definition is_some {A} (o : option A) : bool := match o with Some _ => true | None => false end.

Lemma last_snoc {C A} (f : C -> option A) l c : last_arg f (l ++ [c]) = match f c with Some x => Some x | None => last_arg f l end.
Proof. induction l as [|x l IH]; cbn; [now destruct (f c)|]. rewrite IH. now destruct (f c). Qed.

Definition s_default c := match c with SDefault v => Some v | _ => None end.
Definition s_maxl c := match c with SMaxLength n => Some n | _ => None end.
Definition s_minl c := match c with SMinLength n => Some n | _ => None end.
Definition s_regex c := match c with SRegexp r => Some r | _ => None end.
Definition s_form c := match c with SFormat f => Some f | _ => None end.
Definition s_enums c := match c with SEnum l => Some l | _ => None end.

(** Every aspect of a String chain is the argument of the last call of its setter, or the
    documented initial value. *)
Theorem str_chain_exact l :
  fst (str_chain l) = last_arg s_default l /\
  s_max (snd (str_chain l)) = last_or s_maxl l (-1) /\
  s_min (snd (str_chain l)) = last_or s_minl l 0 /\
  s_rx (snd (str_chain l)) = last_arg s_regex l /\
  s_fmt (snd (str_chain l)) = last_or s_form l ""%string /\
  s_enum (snd (str_chain l)) = last_arg s_enums l.
Proof.
  unfold last_or. induction l as [|c l IH] using rev_ind; [repeat split; reflexivity|].
  unfold str_chain in *. rewrite fold_left_app. cbn [fold_left]. rewrite !last_snoc.
  destruct IH as (A & B & C & D & E & F). destruct c; cbn; repeat split; assumption || reflexivity.
Qed.

Definition n_default c := match c with NDefault v => Some v | _ => None end.
Definition n_maxi c := match c with NMaximum n => Some n | _ => None end.
Definition n_mini c := match c with NMinimum n => Some n | _ => None end.
Definition n_mult c := match c with NMultipleOf n => Some n | _ => None end.
Definition n_exmin c := match c with NExclusiveMinimum b => Some b | _ => None end.
Definition n_exmax c := match c with NExclusiveMaximum b => Some b | _ => None end.
Definition n_enums c := match c with NEnum l => Some l | _ => None end.

Theorem num_chain_exact l :
  let '(d, c) := num_chain l in
  d = last_arg n_default l /\
  n_amax c = is_some (last_arg n_maxi l) /\ n_max c = last_or n_maxi l fzero /\
  n_amin c = is_some (last_arg n_mini l) /\ n_min c = last_or n_mini l fzero /\
  n_amul c = is_some (last_arg n_mult l) /\ n_mul c = last_or n_mult l fzero /\
  n_xmin c = last_or n_exmin l false /\ n_xmax c = last_or n_exmax l false /\
  n_enum c = last_arg n_enums l.
Proof.
  unfold last_or. induction l as [|c l IH] using rev_ind; [repeat split; reflexivity|].
  unfold num_chain in *. rewrite fold_left_app. cbn [fold_left]. rewrite !last_snoc.
  destruct (fold_left num_step l (None, new_num)) as [d k].
  destruct IH as (A & B & C & D & E & F & G & H & I & J). destruct c; cbn; repeat split; assumption || reflexivity.
Qed.

Definition a_itemsc c := match c with AItems x => Some x | _ => None end.
Definition a_posc c := match c with APositional l => Some l | _ => None end.
Definition a_addc c := match c with AAdditional x => Some x | _ => None end.
Definition a_minc c := match c with AMin n => Some n | _ => None end.
Definition a_maxc c := match c with AMax n => Some n | _ => None end.
Definition a_uniqc c := match c with AUnique b => Some b | _ => None end.

(** Note the initial value of AdditionalItems: everything is allowed. *)
Theorem arr_chain_exact l :
  a_items (arr_chain l) = last_or a_itemsc l CNil /\
  a_pos (arr_chain l) = last_or a_posc l [] /\
  a_add (arr_chain l) = last_or a_addc l CEmpty /\
  a_min (arr_chain l) = last_or a_minc l (-1) /\
  a_max (arr_chain l) = last_or a_maxc l (-1) /\
  a_uniq (arr_chain l) = last_or a_uniqc l false.
Proof.
  unfold last_or. induction l as [|c l IH] using rev_ind; [repeat split; reflexivity|].
  unfold arr_chain in *. rewrite fold_left_app. cbn [fold_left]. rewrite !last_snoc.
  destruct IH as (A & B & C & D & E & F). destruct c; cbn; repeat split; assumption || reflexivity.
Qed.

Definition o_minc c := match c with OMin n => Some n | _ => None end.
Definition o_maxc c := match c with OMax n => Some n | _ => None end.
Definition o_addc c := match c with OAdditional x => Some x | _ => None end.
Definition o_propc k c := match c with OAddProp k' x => if String.eqb k' k then Some x else None | _ => None end.
Definition o_sdepc k c := match c with OSchemaDep k' x => if String.eqb k' k then Some x else None | _ => None end.
Definition o_patc (i : nat) c := match c with OPattern k x => if Nat.eqb (fst k) i then Some (snd k, x) else None | _ => None end.
Definition required_in (k : string) (l : list obj_call) : Prop := exists ks, In (ORequired ks) l /\ In k ks.
(** all dependencies declared for k, in call order *)
Definition deps_of (k : string) (l : list obj_call) : list string :=
  flat_map (fun c => match c with OPropDep k' to => if String.eqb k' k then to else [] | _ => [] end) l.

(** the pattern registered under a *Regexp pointer *)
Fixpoint pat_get (i : nat) (l : list ((nat * string) * constr)) : option (string * constr) :=
  match l with
  | [] => None
  | ((j, s), c) :: r => if Nat.eqb j i then Some (s, c) else pat_get i r
  end.

Lemma pat_set_get k c l i : pat_get i (pat_set k c l) = if Nat.eqb (fst k) i then Some (snd k, c) else pat_get i l.
Proof.
  destruct k as [k s]. cbn [fst snd]. induction l as [|[[j s'] c'] l IH]; cbn [pat_set pat_get fst].
  - reflexivity.
  - destruct (Nat.compare_spec k j) as [->|N|N]; cbn [pat_get].
    + destruct (Nat.eqb j i); reflexivity.
    + destruct (Nat.eqb k i); reflexivity.
    + rewrite IH. destruct (Nat.eqb_spec j i) as [->|]; [|reflexivity]. destruct (Nat.eqb_spec k i); [lia|reflexivity].
Qed.

Lemma required_snoc ks m k : (exists x, sget k (fold_left (fun m k => sset k tt m) ks m) = Some x) <-> In k ks \/ exists x, sget k m = Some x.
Proof.
  revert m. induction ks as [|a ks IH]; intros m; cbn [fold_left In].
  - tauto.
  - rewrite IH. destruct (String.eqb_spec a k) as [->|N].
    + rewrite sget_sset_same. intuition eauto.
    + rewrite sget_sset_other by auto. tauto.
Qed.

(** Every aspect of an Object chain. *)
Theorem obj_chain_exact l :
  o_min (obj_chain l) = last_or o_minc l (-1) /\
  o_max (obj_chain l) = last_or o_maxc l (-1) /\
  o_add (obj_chain l) = last_or o_addc l CNil /\
  (forall k, sget k (o_props (obj_chain l)) = last_arg (o_propc k) l) /\
  (forall k, sget k (o_sdeps (obj_chain l)) = last_arg (o_sdepc k) l) /\
  (forall i, pat_get i (o_pats (obj_chain l)) = last_arg (o_patc i) l) /\
  (forall k, is_required (obj_chain l) k = true <-> required_in k l) /\
  (forall k, prop_deps (obj_chain l) k = deps_of k l).
Proof.
  unfold last_or. induction l as [|c l IH] using rev_ind.
  { cbn. repeat split; try reflexivity; try discriminate. intros (? & [] & _). }
  unfold obj_chain in *. rewrite fold_left_app. cbn [fold_left].
  destruct IH as (A & B & C & D & E & F & G & H). set (o := fold_left obj_step l new_obj) in *.
  repeat match goal with |- _ /\ _ => split end.
  - rewrite last_snoc. destruct c; cbn; assumption || reflexivity.
  - rewrite last_snoc. destruct c; cbn; assumption || reflexivity.
  - rewrite last_snoc. destruct c; cbn; assumption || reflexivity.
  - intros k0. rewrite last_snoc. destruct c; cbn; try apply D.
    destruct (String.eqb_spec k k0) as [->|]; [apply sget_sset_same|]. rewrite sget_sset_other by auto. apply D.
  - intros k0. rewrite last_snoc. destruct c; cbn; try apply E.
    destruct (String.eqb_spec from k0) as [->|]; [apply sget_sset_same|]. rewrite sget_sset_other by auto. apply E.
  - intros i. rewrite last_snoc. destruct c; cbn; try apply F. rewrite pat_set_get.
    destruct (Nat.eqb (fst k) i); [reflexivity|apply F].
  - intros k0.
    assert (R : required_in k0 (l ++ [c]) <-> required_in k0 l \/ exists ks, c = ORequired ks /\ In k0 ks).
    { unfold required_in. split.
      - intros (ks & I & J). apply in_app_or in I as [I|[->|[]]]; eauto.
      - intros [(ks & I & J)|(ks & -> & J)]; exists ks; (split; [apply in_or_app|assumption]); cbn; auto. }
    rewrite R, <- G. clear R. unfold is_required.
    destruct c; cbn; try (split; [auto|intros [?|(ks & Q & _)]; [assumption|discriminate]]).
    pose proof (required_snoc l0 (o_req o) k0) as Q.
    destruct (sget k0 (fold_left _ l0 (o_req o))) eqn:S1; destruct (sget k0 (o_req o)) eqn:S2.
    + tauto.
    + split; [intros _; right|reflexivity]. exists l0. split; [reflexivity|]. destruct (proj1 Q) as [|(? & ?)]; eauto. discriminate.
    + destruct (proj2 Q) as (? & ?); eauto. discriminate.
    + split; [discriminate|]. intros [?|(ks & [= <-] & J)]; [discriminate|]. destruct (proj2 Q) as (? & ?); [now left|discriminate].
  - intros k0. unfold deps_of in *. rewrite flat_map_app. cbn [flat_map].
    rewrite <- H. unfold prop_deps. destruct c; cbn; rewrite ?app_nil_r; try reflexivity.
    destruct (String.eqb_spec from k0) as [->|].
    + now rewrite sget_sset_same.
    + rewrite sget_sset_other by auto. now rewrite app_nil_r.
Qed.

(** ** Calls of setters for different aspects commute *)
Definition str_aspect (c : str_call) : nat := match c with SDefault _ => 0 | SMaxLength _ => 1 | SMinLength _ => 2 | SRegexp _ => 3 | SFormat _ => 4 | SEnum _ => 5 end.
Definition num_aspect (c : num_call) : nat := match c with NDefault _ => 0 | NMaximum _ => 1 | NMinimum _ => 2 | NMultipleOf _ => 3 | NExclusiveMinimum _ => 4 | NExclusiveMaximum _ => 5 | NEnum _ => 6 end.
Definition arr_aspect (c : arr_call) : nat := match c with AItems _ => 0 | APositional _ => 1 | AAdditional _ => 2 | AMin _ => 3 | AMax _ => 4 | AUnique _ => 5 end.
Definition obj_aspect (c : obj_call) : nat :=
  match c with ORequired _ => 0 | OMin _ => 1 | OMax _ => 2 | OAdditional _ => 3 | OAddProp _ _ => 4 | OPattern _ _ => 5 | OPropDep _ _ => 6 | OSchemaDep _ _ => 7 end.

Theorem setters_commute :
  (forall s a b, str_aspect a <> str_aspect b -> str_step (str_step s a) b = str_step (str_step s b) a) /\
  (forall s a b, num_aspect a <> num_aspect b -> num_step (num_step s a) b = num_step (num_step s b) a) /\
  (forall s a b, arr_aspect a <> arr_aspect b -> arr_step (arr_step s a) b = arr_step (arr_step s b) a) /\
  (forall s a b, obj_aspect a <> obj_aspect b -> obj_step (obj_step s a) b = obj_step (obj_step s b) a).
Proof.
  repeat match goal with |- _ /\ _ => split end; intros s a b N; destruct a, b; cbn in *; try congruence; reflexivity.
Qed.

(** ** Integer() *)
(** The Go type of the value of a chain starting with Integer(): MultipleOf and Enum are
    promoted from the embedded NumberConstraint and return it (number.go:12,44), after which the
    chain continues on a *NumberConstraint. *)
Definition int_chain_is_int (l : list num_call) : bool :=
  forallb (fun c => match c with NMultipleOf _ | NEnum _ => false | _ => true end) l.
Definition int_chain (l : list num_call) : constr :=
  let '(d, c) := num_chain l in if int_chain_is_int l then CInt d c else CNum d c.

(** A chain on Integer() gives a constraint that rejects fractions. *)
Definition integer_chain_full : Prop :=
  forall E l n f w, (0 < n)%nat -> ffloor f <> f -> feq (ffloor f) f = false ->
    fst (fst (validate n E (int_chain l) (gfloat f) w)) <> Pass.

Theorem integer_chain_refuted : ~ integer_chain_full.
Proof.
  intros F. set (half := binary_normalize 53 1024 1 (-1) false).
  apply (F {| e_rx := fun _ _ => true; e_time := fun _ => inr ""%string; e_email := fun _ => None; e_uri := fun _ => true; e_ip := fun _ => true;
              e_ffmt := fun _ => ""%string; e_sprint := fun _ => ""%string; e_refs := fun _ => None |} [NMultipleOf half] 1%nat half []).
  - lia.
  - vm_compute. discriminate.
  - vm_compute. reflexivity.
  - vm_compute. reflexivity.
Qed.

(** Exactly the chains without MultipleOf and Enum do. *)
Theorem integer_chain_exact l : int_chain_is_int l = true <->
  forall c, In c l -> (forall f, c <> NMultipleOf f) /\ (forall e, c <> NEnum e).
Proof.
  unfold int_chain_is_int. rewrite forallb_forall. split; intros H c I.
  - specialize (H c I). destruct c; try discriminate; split; discriminate.
  - specialize (H c I). destruct c; try reflexivity; destruct H as (H1 & H2); [destruct (H1 f)|destruct (H2 l0)]; reflexivity.
Qed.

Theorem integer_chain_guarded E l n f w : int_chain_is_int l = true -> feq (ffloor f) f = false ->
  fst (fst (validate (S n) E (int_chain l) (gfloat f) w)) <> Pass.
Proof.
  intros H F. unfold int_chain. destruct (num_chain l) as [d c]. rewrite H. cbn. now rewrite F.
Qed.

(** A chain with every setter in it. *)
Example chain_example :
  prop_deps (obj_chain [OAddProp "a" CNull; ORequired ["b"%string]; OPropDep "a" ["b"%string]; OAddProp "a" CEmpty; OPropDep "a" ["c"%string]; ORequired ["c"%string]]) "a" = ["b"; "c"]%string /\
  sget "a" (o_props (obj_chain [OAddProp "a" CNull; OAddProp "a" CEmpty])) = Some CEmpty.
Proof. split; reflexivity. Qed.
