(** The functions of the builder that fill in a single constraint, run from their source:
    builder/string.go, number.go, bool.go. *)
From Verif Require Import Base GoFloat GoValue Maybe Formats Constraint StructInfo Validate Builder SrcSyntax SrcText SrcTextB SrcProg SrcStore SrcProgB SrcStepB SrcSetters SrcRep.
Open Scope string_scope.
Open Scope list_scope.
Open Scope Z_scope.

(** the type asked for is among those of the schema *)
Definition typed (t : ptype) (c : scfg) : Prop := sc_type c = [] \/ In t (sc_type c).
Lemma ptype_refl t : ptype_eqb t t = true.
Proof. destruct t; cbn; try reflexivity. apply Nat.eqb_refl. Qed.
Lemma contains_in t l : In t l -> contains (BTp t) (map BTp l) = true.
Proof.
  intro H. unfold contains. apply existsb_exists. exists (BTp t). split; [now apply in_map|]. cbn. apply ptype_refl.
Qed.
(** only new cells, and [a] *)
Definition grown (a : nat) (h h' : list bv) : Prop :=
  (List.length h <= List.length h')%nat /\ forall x, (x < List.length h)%nat -> x <> a -> cell x h' = cell x h.

Lemma len_nil {A B} (f : A -> B) : (0 <? Z.of_nat (List.length (map f []))) = false.
Proof. reflexivity. Qed.
Lemma grown_put a v h : grown a h (put a v h).
Proof. split; [now rewrite put_length|]. intros x _ Hx. now apply cell_other. Qed.
Lemma grown_trans a h1 h2 h3 : grown a h1 h2 -> grown a h2 h3 -> grown a h1 h3.
Proof. intros [H1 H2] [H3 H4]. split; [lia|]. intros x Hx Hn. rewrite H4 by (try lia; exact Hn). now apply H2. Qed.
Lemma grown_refl a h : grown a h h.
Proof. split; [lia|reflexivity]. Qed.
Lemma grown_app a h k : grown a h (h ++ k).
Proof. split; [rewrite app_length; lia|]. intros x Hx _. now apply cell_old. Qed.
Lemma default_nil c : is_gnil (sc_default c) = true -> default_of c = None.
Proof. unfold default_of. destruct (sc_default c); cbn; congruence. Qed.
Lemma default_some c : is_gnil (sc_default c) = false -> default_of c = Some (sc_default c).
Proof. unfold default_of. destruct (sc_default c); cbn; congruence. Qed.
Ltac set_by lem := erewrite lem by eassumption.
Ltac skip H := cbn [set_opt]; unfold id; rewrite (put_same _ _ _ H); reflexivity.
(** the statement about to run puts [X] in the cell *)
Ltac leads X tac :=
  lazymatch goal with G : grown ?a ?h0 ?h, Ha : cell ?a ?h = Some _ |- context [bexec ?cx ?call ?bx ?n ?x (st ?E ?h ?w)] =>
    let H := fresh in let h' := fresh "h" in let Hc := fresh "Ha" in let Hg := fresh "G" in
    assert (H : bexec cx call bx n x (st E h w) = BNx (st E (put a X h) w)); [tac Ha|rewrite H; clear H; cbn [bends]];
    pose proof (cell_put a X h (cell_lt _ _ _ Ha)) as Hc;
    pose proof (grown_trans a _ _ _ G (grown_put a X h)) as Hg;
    set (h' := put a X h) in *; clearbody h'; clear Ha G; try clear h;
    rename Hc into Ha; rename Hg into G
  end.
Ltac optional o lem Ha := destruct o eqn:?; stepsb; [set_by lem; stepsb; reflexivity|skip Ha].
Ltac type_check Ht c :=
  match goal with |- context [bexec ?cx ?call ?bx ?n ?x ?s0] =>
    let H := fresh in
    assert (H : bexec cx call bx n x s0 = BNx s0);
    [destruct Ht as [Ht|Ht]; [|apply contains_in in Ht];
     [stepsb; reflexivity
     |let Hn := fresh in destruct (0 <? Z.of_nat (List.length (map BTp (sc_type c)))) eqn:Hn; stepsb; reflexivity]
    |rewrite H; clear H; cbn [bends]]
  end.
(** it leaves the store [h'] *)
Ltac leaves h' tac :=
  lazymatch goal with |- context [bexec ?cx ?call ?bx ?n ?x (st ?E ?h ?w)] =>
    let H := fresh in
    assert (H : bexec cx call bx n x (st E h w) = BNx (st E h' w)); [tac|rewrite H; clear H; cbn [bends]]
  end.
(** the store after c.Enum(lst...) for a constraint that has no enumeration yet *)
Definition with_enum (a : nat) (mk : bv -> bv) (l : list gval) (v : bv) (h : list bv) : list bv :=
  match l with [] => h | _ :: _ => put a (mk (BPtr (List.length h) [])) (h ++ [enum_struct v]) end.
Definition enum_of (l : list gval) (h : list bv) : bv := match l with [] => BNil | _ :: _ => BPtr (List.length h) [] end.
Definition enum_list (l : list gval) : option (list gval) := match l with [] => None | _ :: _ => Some l end.
Lemma with_enum_grown a mk l v h0 h : grown a h0 h -> grown a h0 (with_enum a mk l v h).
Proof.
  intro G. destruct l as [|g l]; [exact G|]. cbn [with_enum].
  eapply grown_trans; [exact G|]. eapply grown_trans; [apply grown_app|apply grown_put].
Qed.
Lemma with_enum_cell a mk l v h : cell a h = Some (mk BNil) -> cell a (with_enum a mk l v h) = Some (mk (enum_of l h)).
Proof. intro H. destruct l as [|g l]; [exact H|]. cbn [with_enum]. apply cell_put. rewrite app_length. apply cell_lt in H. lia. Qed.
Lemma with_enum_rep a mk l v h0 h X n : cell a h = Some (mk BNil) -> grown a h0 h -> slice_items v = Some (map BIf n) ->
  erep (List.length h0) (List.length (put a X (with_enum a mk l v h))) (put a X (with_enum a mk l v h)) (enum_of l h)
    (match l with [] => None | _ :: _ => Some n end).
Proof.
  intros H [G _] Hv. rewrite put_length. destruct l as [|g l]; [constructor|]. cbn [with_enum enum_of].
  apply cell_lt in H. econstructor; [|rewrite put_put, cell_other by lia; apply cell_new|exact Hv].
  rewrite put_length, app_length. cbn [List.length]. lia.
Qed.
(** a list given as the only value *)
Lemma gvals_map l : gvals (map BIf l) = Some l.
Proof. induction l as [|g l IH]; cbn; [reflexivity|]. rewrite IH. reflexivity. Qed.
Lemma src_num_enum_list D tn vs w k a d c l h : cell a h = Some (num_struct d c BNil) ->
  bcall (prog D tn) (S (S k)) "NumberConstraint.Enum" [BPtr a []; BList (map BIf l)] (st vs h w) =
  BOk [BPtr a []] (st vs (put a (num_struct d c (BPtr (List.length h) [])) (h ++ [enum_struct (BList [BIf (GSlice "[]interface {}" true (Some l))])])) w).
Proof. intro. bounds. open_b. rewrite gvals_map. stepsb. repeat (open_b; stepsb). reflexivity. Qed.

Lemma src_bool_default_b D tn vs h w k a d b : cell a h = Some (bool_struct d) ->
  bcall (prog D tn) (S (S k)) "BooleanConstraint.Default" [BPtr a []; BBool b] (st vs h w) = BOk [BPtr a []] (st vs (put a (bool_struct (Some (gbool b))) h) w).
Proof. intro. ran. Qed.
Lemma build_boolean_eq c : build_boolean c = CBool (option_map gbool (as_bool (sc_default c))).
Proof.
  unfold build_boolean, as_bool. destruct (sc_default c) as [|T b| | | | | | | | | | |]; try reflexivity.
  destruct (String.eqb T "bool") eqn:E; [apply String.eqb_eq in E; subst T; reflexivity|].
  cbn [option_map]. f_equal.
  repeat match goal with |- context [match ?x with _ => _ end] => is_var x; destruct x; try reflexivity end; discriminate E.
Qed.
Section B.
  Variable D : bv -> resolver.
  Variable tn : nat -> string.
  Notation P := (prog D tn).
  Variables (vs : list bscope) (w : orc) (k : nat) (ctx : bv).
  (** builder/string.go:10-42 *)
  Lemma src_buildString c a h : cell a h = Some (str_struct None new_str BNil) -> typed TString c ->
    exists d cfg h' e, build_string c = CStr d cfg /\
      bcall P (S (S (S k))) "buildStringConstraint" [ctx; BPtr a []; BSch c] (st vs h w) = BOk [BNil] (st vs h' w) /\
      grown a h h' /\ cell a h' = Some (str_struct d cfg e) /\ erep (List.length h) (List.length h') h' e (s_enum cfg).
  Proof.
    intros Ha Ht. bounds. unfold build_string.
    pose proof (grown_refl a h) as G. open_b.
    rewrite brun_cons. type_check Ht c.
    rewrite brun_cons.
    leads (str_struct None (set_opt str_maxLength (sc_maxLen c) new_str) BNil) ltac:(optional (sc_maxLen c) src_str_maxLength).
    set (c1 := set_opt str_maxLength (sc_maxLen c) new_str) in *.
    rewrite brun_cons.
    leads (str_struct None (set_opt str_minLength (sc_minLen c) c1) BNil) ltac:(optional (sc_minLen c) src_str_minLength).
    set (c2 := set_opt str_minLength (sc_minLen c) c1) in *.
    rewrite brun_cons.
    leads (str_struct None (set_opt str_regexp (sc_pattern c) c2) BNil) ltac:(optional (sc_pattern c) src_str_regexp).
    set (c3 := set_opt str_regexp (sc_pattern c) c2) in *.
    rewrite brun_cons.
    leads (str_struct None ((if String.eqb (sc_format c) "" then id else str_format (sc_format c)) c3) BNil)
      ltac:(fun Ha => change (String.eqb (sc_format c) "") with (same (sc_format c) ""); destruct (same (sc_format c) "") eqn:?; stepsb; [skip Ha|set_by src_str_format; stepsb; reflexivity]).
    set (c4 := (if String.eqb (sc_format c) "" then id else str_format (sc_format c)) c3) in *.
    assert (H4 : s_enum c4 = None) by (subst c4 c3 c2 c1; destruct (String.eqb (sc_format c) ""), (sc_pattern c), (sc_minLen c), (sc_maxLen c); reflexivity).
    clearbody c4. clear c1 c2 c3.
    set (v := BList (map BIf (sc_enum c))). set (c5 := (match sc_enum c with [] => id | l => str_enum l end) c4).
    rewrite brun_cons. leaves (with_enum a (str_struct None c5) (sc_enum c) v h1)
      ltac:(destruct (sc_enum c) eqn:?; stepsb; [reflexivity|set_by src_str_enum; stepsb; reflexivity]).
    assert (Ha' : cell a h1 = Some (str_struct None c5 BNil)).
    { subst c5. destruct (sc_enum c); exact Ha. }
    pose proof (with_enum_cell a _ (sc_enum c) v _ Ha') as Ha2.
    pose proof (with_enum_grown a (str_struct None c5) (sc_enum c) v _ _ G) as G2.
    pose proof (with_enum_rep a _ (sc_enum c) v _ _ (str_struct (default_of c) c5 (enum_of (sc_enum c) h1)) (sc_enum c) Ha' G eq_refl) as He.
    set (h2 := with_enum a (str_struct None c5) (sc_enum c) v h1) in *. set (e2 := enum_of (sc_enum c) h1) in *.
    clearbody h2 e2.
    rewrite brun_cons. leaves (put a (str_struct (default_of c) c5 e2) h2)
      ltac:(destruct (is_gnil (sc_default c)) eqn:Ed; [rewrite (default_nil c Ed); stepsb; skip Ha2|rewrite (default_some c Ed); stepsb; set_by src_str_default; stepsb; reflexivity]).
    stepsb. exists (default_of c), c5. do 2 eexists. split; [reflexivity|]. split; [reflexivity|].
    split; [eapply grown_trans; [exact G2|apply grown_put]|]. split; [apply cell_put; exact (cell_lt _ _ _ Ha2)|].
    replace (s_enum c5) with (match sc_enum c with [] => None | _ :: _ => Some (sc_enum c) end); [exact He|].
    subst c5. destruct (sc_enum c); [symmetry; exact H4|reflexivity].
  Qed.
  Ltac now_at a h Ha := match goal with |- context [BOk _ (st _ (put a ?X h) _)] =>
    pose proof (cell_put a X h (cell_lt _ _ _ Ha)); remember (put a X h) eqn:? end.
  Ltac limit o x lem1 lem2 a h Ha := destruct o eqn:?; [|stepsb; skip Ha]; stepsb; set_by lem1; cbn [set_opt]; now_at a h Ha;
    (destruct x eqn:?; stepsb; [set_by lem2; stepsb; subst; rewrite put_put; reflexivity|subst; reflexivity]).
  (** builder/number.go:45-79 *)
  Lemma src_buildNumber c a h : cell a h = Some (num_struct None new_num BNil) -> typed TNumber c ->
    exists d cfg h' e, build_number c = CNum d cfg /\
      bcall P (S (S (S k))) "buildNumberConstraint" [ctx; BPtr a []; BSch c] (st vs h w) = BOk [BNil] (st vs h' w) /\
      grown a h h' /\ cell a h' = Some (num_struct d cfg e) /\ erep (List.length h) (List.length h') h' e (n_enum cfg).
  Proof.
    intros Ha Ht. bounds. unfold build_number, build_numeric.
    pose proof (grown_refl a h) as G. open_b.
    rewrite brun_cons. type_check Ht c.
    set (c1 := (match sc_min c with None => id | Some f => fun m => set_opt num_exclMin (sc_xmin c) (num_minimum f m) end) new_num).
    rewrite brun_cons.
    leads (num_struct None c1 BNil) ltac:(fun Ha => subst c1; limit (sc_min c) (sc_xmin c) src_num_minimum src_num_exclMin a h Ha).
    set (c2 := (match sc_max c with None => id | Some f => fun m => set_opt num_exclMax (sc_xmax c) (num_maximum f m) end) c1).
    rewrite brun_cons.
    leads (num_struct None c2 BNil) ltac:(fun Ha => subst c2; limit (sc_max c) (sc_xmax c) src_num_maximum src_num_exclMax a h0 Ha).
    rewrite brun_cons.
    leads (num_struct None (set_opt num_multipleOf (sc_mult c) c2) BNil) ltac:(optional (sc_mult c) src_num_multipleOf).
    set (c4 := set_opt num_multipleOf (sc_mult c) c2) in *.
    assert (H4 : n_enum c4 = None) by (subst c4 c2 c1; destruct (sc_mult c), (sc_min c), (sc_xmin c), (sc_max c), (sc_xmax c); reflexivity).
    clearbody c4. clear c1 c2.
    set (v := BList [BIf (GSlice "[]interface {}" true (Some (sc_enum c)))]). set (c5 := (match sc_enum c with [] => id | l => num_enum [GSlice "[]interface {}" true (Some l)] end) c4).
    rewrite brun_cons. leaves (with_enum a (num_struct None c5) (sc_enum c) v h0)
      ltac:(destruct (sc_enum c) eqn:?; stepsb; [reflexivity|change (BIf g :: map BIf l) with (map BIf (g :: l)); set_by src_num_enum_list; stepsb; reflexivity]).
    assert (Ha' : cell a h0 = Some (num_struct None c5 BNil)).
    { subst c5. destruct (sc_enum c); exact Ha. }
    pose proof (with_enum_cell a _ (sc_enum c) v _ Ha') as Ha2.
    pose proof (with_enum_grown a (num_struct None c5) (sc_enum c) v _ _ G) as G2.
    pose proof (with_enum_rep a _ (sc_enum c) v _ _ (num_struct (default_of c) c5 (enum_of (sc_enum c) h0)) [GSlice "[]interface {}" true (Some (sc_enum c))] Ha' G eq_refl) as He.
    set (h2 := with_enum a (num_struct None c5) (sc_enum c) v h0) in *. set (e2 := enum_of (sc_enum c) h0) in *.
    clearbody h2 e2.
    rewrite brun_cons. leaves (put a (num_struct (default_of c) c5 e2) h2)
      ltac:(destruct (is_gnil (sc_default c)) eqn:Ed; [rewrite (default_nil c Ed); stepsb; skip Ha2|rewrite (default_some c Ed); stepsb; set_by src_num_default; stepsb; reflexivity]).
    stepsb. exists (default_of c), c5. do 2 eexists. split; [reflexivity|]. split; [reflexivity|].
    split; [eapply grown_trans; [exact G2|apply grown_put]|]. split; [apply cell_put; exact (cell_lt _ _ _ Ha2)|].
    match type of He with erep _ _ _ _ ?x => replace (n_enum c5) with x; [exact He|] end.
    subst c5. destruct (sc_enum c); [symmetry; exact H4|reflexivity].
  Qed.
  (** builder/number.go:10-43 *)
  Lemma src_buildInteger c a h : cell a h = Some (int_struct None new_num BNil) -> typed TInteger c ->
    exists d cfg h' e, build_integer c = CInt d cfg /\
      bcall P (S (S (S k))) "buildIntegerConstraint" [ctx; BPtr a []; BSch c] (st vs h w) = BOk [BNil] (st vs h' w) /\
      grown a h h' /\ cell a h' = Some (int_struct d cfg e) /\ erep (List.length h) (List.length h') h' e (n_enum cfg).
  Proof.
    intros Ha Ht. bounds. unfold build_integer, build_numeric.
    pose proof (grown_refl a h) as G. open_b.
    rewrite brun_cons. type_check Ht c.
    set (c1 := (match sc_min c with None => id | Some f => fun m => set_opt num_exclMin (sc_xmin c) (num_minimum f m) end) new_num).
    rewrite brun_cons.
    leads (int_struct None c1 BNil) ltac:(fun Ha => subst c1; limit (sc_min c) (sc_xmin c) src_int_minimum src_int_exclMin a h Ha).
    set (c2 := (match sc_max c with None => id | Some f => fun m => set_opt num_exclMax (sc_xmax c) (num_maximum f m) end) c1).
    rewrite brun_cons.
    leads (int_struct None c2 BNil) ltac:(fun Ha => subst c2; limit (sc_max c) (sc_xmax c) src_int_maximum src_int_exclMax a h0 Ha).
    rewrite brun_cons.
    leads (int_struct None (set_opt num_multipleOf (sc_mult c) c2) BNil) ltac:(optional (sc_mult c) src_int_multipleOf).
    set (c4 := set_opt num_multipleOf (sc_mult c) c2) in *.
    assert (H4 : n_enum c4 = None) by (subst c4 c2 c1; destruct (sc_mult c), (sc_min c), (sc_xmin c), (sc_max c), (sc_xmax c); reflexivity).
    clearbody c4. clear c1 c2.
    set (v := BList (map BIf (sc_enum c))). set (c5 := (match sc_enum c with [] => id | l => num_enum l end) c4).
    rewrite brun_cons. leaves (with_enum a (int_struct None c5) (sc_enum c) v h0)
      ltac:(destruct (sc_enum c) eqn:?; stepsb; [reflexivity|set_by src_int_enum; stepsb; reflexivity]).
    assert (Ha' : cell a h0 = Some (int_struct None c5 BNil)).
    { subst c5. destruct (sc_enum c); exact Ha. }
    pose proof (with_enum_cell a _ (sc_enum c) v _ Ha') as Ha2.
    pose proof (with_enum_grown a (int_struct None c5) (sc_enum c) v _ _ G) as G2.
    pose proof (with_enum_rep a _ (sc_enum c) v _ _ (int_struct (default_of c) c5 (enum_of (sc_enum c) h0)) (sc_enum c) Ha' G eq_refl) as He.
    set (h2 := with_enum a (int_struct None c5) (sc_enum c) v h0) in *. set (e2 := enum_of (sc_enum c) h0) in *.
    clearbody h2 e2.
    rewrite brun_cons. leaves (put a (int_struct (default_of c) c5 e2) h2)
      ltac:(destruct (is_gnil (sc_default c)) eqn:Ed; [rewrite (default_nil c Ed); stepsb; skip Ha2|rewrite (default_some c Ed); stepsb; set_by src_int_default; stepsb; reflexivity]).
    stepsb. exists (default_of c), c5. do 2 eexists. split; [reflexivity|]. split; [reflexivity|].
    split; [eapply grown_trans; [exact G2|apply grown_put]|]. split; [apply cell_put; exact (cell_lt _ _ _ Ha2)|].
    match type of He with erep _ _ _ _ ?x => replace (n_enum c5) with x; [exact He|] end.
    subst c5. destruct (sc_enum c); [symmetry; exact H4|reflexivity].
  Qed.
  (** builder/bool.go:8-14 *)
  Lemma src_buildBoolean c a h : cell a h = Some (bool_struct None) ->
    exists d h', build_boolean c = CBool d /\
      bcall P (S (S (S k))) "buildBooleanConstraint" [ctx; BPtr a []; BSch c] (st vs h w) = BOk [BNil] (st vs h' w) /\
      grown a h h' /\ cell a h' = Some (bool_struct d).
  Proof.
    intro Ha. bounds. rewrite build_boolean_eq. exists (option_map gbool (as_bool (sc_default c))).
    destruct (as_bool (sc_default c)) as [b|] eqn:Eb.
    - open_b. stepsb. rewrite (src_bool_default_b D tn _ h w k a None b Ha). stepsb.
      eexists. split; [reflexivity|]. split; [reflexivity|]. split; [apply grown_put|]. now apply cell_put.
    - open_b. stepsb. eexists. split; [reflexivity|]. split; [reflexivity|]. split; [apply grown_refl|exact Ha].
  Qed.
End B.
