(** Generating code for a constraint and evaluating it gives the constraint's round trip. *)
From Verif Require Import Base GoFloat GoValue Maybe Formats Constraint StructInfo Validate Reach ConstrInd Builder GoText GoLang GoEval Generator GenLex GenParse GenCode GenLike GenSpec GenFaith.
Open Scope string_scope.
Open Scope list_scope.

(** ** Deterministic generator steps *)
Definition det {A} (m : gm A) (x : A) : Prop := forall w, exists w', m w = GOk (x, w').

Lemma det_ret {A} (x : A) : det (gret x) x.
Proof. intros w. now exists w. Qed.
Lemma det_bind {A B} (m : gm A) (f : A -> gm B) x y : det m x -> det (f x) y -> det (gbind m f) y.
Proof. intros H K w. unfold gbind. destruct (H w) as [w1 ->]. apply K. Qed.
Lemma det_ignore m x : det m x -> det (ignore_err m) x.
Proof. intros H w. destruct (H w) as [w' E]. exists w'. unfold ignore_err. now rewrite E. Qed.
Definition cat (l : list string) : string := fold_right String.append "" l.
Lemma det_concat l ss : Forall2 det l ss -> det (gconcat l) (cat ss).
Proof.
  induction 1; cbn [gconcat cat fold_right]; [apply det_ret|]. eapply det_bind; eauto. eapply det_bind; eauto. apply det_ret.
Qed.

(** ** Sorting *)
Lemma compare_cases a b : String.compare a b = Eq /\ a = b \/ String.compare a b = Lt /\ slt a b \/ String.compare a b = Gt /\ slt b a.
Proof.
  destruct (String.compare a b) eqn:E.
  - left. split; auto. now apply String.compare_eq_iff.
  - right; left. auto.
  - right; right. split; auto. now apply compare_gt_slt.
Qed.
Lemma slt_gt a b : slt a b -> String.compare b a = Gt.
Proof.
  intros H. destruct (compare_cases b a) as [[E ->]|[[E K]|[E K]]]; auto.
  - destruct (slt_irrefl _ H).
  - destruct (slt_irrefl a). eapply slt_trans; eauto.
Qed.
Lemma compare3 a b : String.compare a b = Eq /\ a = b \/
  String.compare a b = Lt /\ String.compare b a = Gt /\ slt a b \/ String.compare a b = Gt /\ String.compare b a = Lt /\ slt b a.
Proof.
  destruct (compare_cases a b) as [H|[[E K]|[E K]]]; [now left|right; left|right; right]; repeat split; auto using slt_gt.
Qed.
Ltac order := exfalso; match goal with
  | H : slt ?a ?a |- _ => exact (slt_irrefl _ H)
  | H : slt ?a ?b, K : slt ?b ?a |- _ => exact (slt_irrefl _ (slt_trans _ _ _ H K))
  | H : slt ?a ?b, K : slt ?b ?c, L : slt ?c ?a |- _ => exact (slt_irrefl _ (slt_trans _ _ _ H (slt_trans _ _ _ K L)))
  end.
Ltac cmp := repeat first [match goal with H : String.compare _ _ = _ |- _ => rewrite !H end | rewrite !compare_refl | progress (cbn [insert_s])].
Lemma insert_comm x y l : insert_s x (insert_s y l) = insert_s y (insert_s x l).
Proof.
  induction l as [|z l IH]; cbn [insert_s].
  - destruct (compare3 x y) as [[E ->]|[(E & E' & K)|(E & E' & K)]]; cmp; reflexivity.
  - destruct (compare3 y z) as [[E1 ->]|[(E1 & E1' & K1)|(E1 & E1' & K1)]]; 
    (destruct (compare3 x z) as [[E2 ->]|[(E2 & E2' & K2)|(E2 & E2' & K2)]]); 
    try (destruct (compare3 x y) as [[E3 ->]|[(E3 & E3' & K3)|(E3 & E3' & K3)]]); try order; cmp; try reflexivity; try congruence.
Qed.
Lemma sort_perm p l : Permutation p l -> sort_s p = sort_s l.
Proof.
  induction 1; cbn [sort_s fold_right] in *; auto.
  - unfold sort_s in *. cbn. now f_equal.
  - unfold sort_s. cbn. apply insert_comm.
  - congruence.
Qed.
Lemma insert_perm x l : Permutation (insert_s x l) (x :: l).
Proof.
  induction l as [|y l IH]; cbn; auto. destruct (String.compare x y); auto. rewrite perm_swap. now apply perm_skip.
Qed.
Lemma sort_perm_self l : Permutation (sort_s l) l.
Proof. induction l as [|x l IH]; cbn; auto. fold (sort_s l). rewrite insert_perm. now apply perm_skip. Qed.
Lemma sort_sorted l : StronglySorted slt l -> sort_s l = l.
Proof.
  induction 1 as [|x l S IH F]; cbn; auto. fold (sort_s l). rewrite IH. destruct l as [|y l]; [reflexivity|]. cbn.
  inversion F; subst. unfold slt in H1. now rewrite H1.
Qed.
Lemma det_names {A} (m : list (string * A)) : ssorted m -> det (sorted_names m) (keys m).
Proof.
  intros S w. unfold sorted_names. destruct (shuffle w (keys m)) as [p w'] eqn:E. apply shuffle_perm in E. exists w'.
  rewrite (sort_perm p (keys m)) by now apply Permutation_sym. now rewrite sort_sorted.
Qed.

(** ** Text without '%' *)
Lemma no_percent_plain s : no_percent s -> plain s = true.
Proof.
  unfold plain. induction s as [|c s IH]; intros H; [reflexivity|]. cbn [all_chars]. rewrite IH.
  - destruct (Ascii.eqb_spec c "%"); [subst; destruct (H "" s); reflexivity|reflexivity].
  - intros a b ->. apply (H (String c a) b). reflexivity.
Qed.

Lemma det_post m s : det m s -> plain s = true -> last_char s <> Some newline -> det (post m) s.
Proof.
  intros H P L. unfold post. eapply det_bind; [exact H|]. rewrite trim_last, fprintf_plain by auto. apply det_ret.
Qed.

(** ** Numbers *)
Lemma split_digits s : forall acc rest, all_chars digit s = true -> split_dot acc (s +++ "." +++ rest) = Some (acc +++ s, rest).
Proof.
  induction s as [|c s IH]; intros acc rest H; cbn [String.append split_dot].
  - rewrite Ascii.eqb_refl, sapp_nil. reflexivity.
  - cbn in H. apply andb_true_iff in H as [A B].
    assert (D : Ascii.eqb c "." = false).
    { rewrite eqb_byte. apply Z.eqb_neq. change (byte ".") with 46%Z. unfold digit, between in A. bools. lia. }
    rewrite D. cbn [String.append] in IH. rewrite IH by auto. rewrite sapp_assoc. reflexivity.
Qed.
Lemma split_none s : forall acc, all_chars digit s = true -> split_dot acc s = None.
Proof.
  induction s as [|c s IH]; intros acc H; cbn [split_dot]; [reflexivity|].
  cbn in H. apply andb_true_iff in H as [A B].
  assert (D : Ascii.eqb c "." = false).
  { rewrite eqb_byte. apply Z.eqb_neq. change (byte ".") with 46%Z. unfold digit, between in A. bools. lia. }
  rewrite D. auto.
Qed.
Lemma numeral_value s z : numeral s z -> number_value s = Some (VInt z).
Proof. intros (_ & A & V). unfold number_value, digits. rewrite split_none, V by auto. reflexivity. Qed.

(** text that is an expression with a constant value *)
Definition Const (s : string) (v : value) : Prop := exists e, Code s e /\ forall st, eval e st = Some (v, st).

Lemma const_str pr s : plain s = true -> Const (quote pr s) (VString s).
Proof. intros P. exists (EStr s). split; [now apply code_str|reflexivity]. Qed.
Lemma const_int z : Const (dec_Z z) (VInt z).
Proof.
  destruct (Z_lt_le_dec z 0) as [L|L].
  - rewrite dec_neg by auto. assert (N : numeral (dec_Z (- z)) (- z)) by (apply dec_numeral; lia).
    exists (ENeg (ENum (dec_Z (- z)))). split; [apply code_neg; eapply code_num; eauto|]. intros st. cbn [eval].
    rewrite (numeral_value _ _ N). cbn. now rewrite Z.opp_involutive.
  - assert (N := dec_numeral z L). exists (ENum (dec_Z z)). split; [eapply code_num; eauto|]. intros st. cbn [eval].
    now rewrite (numeral_value _ _ N).
Qed.
Lemma const_bool (b : bool) : Const (if b then "true" else "false") (VBool b).
Proof.
  exists (EId (if b then "true" else "false")). split; [destruct b; now apply code_id|]. now destruct b.
Qed.
Open Scope Z_scope.
Lemma fixed_value n : 0 <= n -> exists a b x y, fixed6 n = a +++ "." +++ b /\ numeral a x /\ numeral b y /\ String.length b = 6%nat /\ x * 10 ^ 6 + y = n.
Proof.
  intros H. exists (dec_Z (n / million)), (decs 6 (n mod million)), (n / million), (n mod million). split; [reflexivity|].
  assert (M : 0 < million) by reflexivity.
  split; [apply dec_numeral; now apply Z.div_pos|]. split; [apply decs_numeral; [lia|]; apply (Z.mod_pos_bound n million M)|].
  split; [apply decs_length|]. change (10 ^ 6) with million. rewrite Z.mul_comm. symmetry. apply Z.div_mod. discriminate.
Qed.
Lemma const_fixed n : 0 <= n -> Const (fixed6 n) (VDec n 6).
Proof.
  intros H. destruct (fixed_value n H) as (a & b & x & y & -> & A & B & L & E).
  exists (ENum (a +++ "." +++ b)). split; [eapply code_num_dot; eauto|]. intros st. cbn [eval].
  unfold number_value. destruct A as (A1 & A2 & A3), B as (B1 & B2 & B3). rewrite split_digits by auto. cbn [String.append].
  unfold digits. rewrite A3, B3, L. cbn [option_map]. change (Z.of_nat 6) with 6. now rewrite E.
Qed.
Lemma const_neg s n k : Const s (VDec n k) -> Const (String "-" s) (VDec (- n) k).
Proof.
  intros (e & C & V). exists (ENeg e). split; [now apply code_neg|]. intros st. cbn [eval]. rewrite V. reflexivity.
Qed.
Lemma scaled_pos m e : 0 <= scaled m e.
Proof.
  assert (M : 0 < million) by reflexivity.
  unfold scaled. destruct (0 <=? e) eqn:E.
  - apply Z.leb_le in E. assert (0 < 2 ^ e) by (apply Z.pow_pos_nonneg; lia). nia.
  - cbv zeta. assert (P : 0 < 2 ^ (- e)) by (apply Z.leb_gt in E; apply Z.pow_pos_nonneg; lia).
    assert (0 <= Z.pos m * million / 2 ^ (- e)) by (apply Z.div_pos; nia).
    match goal with |- context [if ?b then _ else _] => destruct b end; lia.
Qed.
Lemma const_float f : printed f <> None -> exists n, Const (fmt_f f) (VDec n 6) /\ dec_f64 n 6 = Some (reread f).
Proof.
  intros H. unfold reread. destruct f as [s|s| |s m e]; cbn [printed fmt_f] in *; try congruence.
  - exists 0. split; [|reflexivity]. destruct s.
    + change 0 with (- 0) at 2. apply const_neg, const_fixed. lia.
    + apply const_fixed. lia.
  - exists (if s then - scaled m e else scaled m e). split.
    + destruct s; [apply const_neg|]; apply const_fixed, scaled_pos.
    + destruct (dec_f64 _ 6); congruence.
Qed.
Open Scope string_scope.
Open Scope list_scope.

(** ** What is shown of a constraint *)
Definition Ready (hm : bool) (st : estate) : Prop := hm = true -> sget "M" (e_vars st) = Some VM.
Definition bump (st : estate) (n : nat) : estate := {| e_vars := e_vars st; e_cmap := e_cmap st; e_next := n |}.
Definition Ev (hm : bool) (c : constr) (e : expr) : Prop := forall st, Ready hm st ->
  exists c' n', eval e st = Some (VC c', bump st n') /\ (e_next st <= n')%nat /\ like (regen c) c'.
Definition cm_of (hm : bool) : string := if hm then "M" else "".
Definition Good (G : genv) (hm : bool) (c : constr) : Prop := exists s e,
  det (emit G (cm_of hm) c) s /\ Code s e /\ last_char s <> Some newline /\ Ev hm c e.

Lemma bump_same st : bump st (e_next st) = st.
Proof. now destruct st. Qed.

Lemma good_chain G hm c m s f ks : emit G (cm_of hm) c = post m -> det m ("jsval" +++ s) -> Chain s ((f, []) :: ks) -> s <> "" ->
  (forall st, Ready hm st -> exists c' n', fold_left ev1 ks (option_map (fun v => (v, st)) (call_fun f [])) = Some (VC c', bump st n') /\
     (e_next st <= n')%nat /\ like (regen c) c') -> Good G hm c.
Proof.
  intros E D C N V. exists ("jsval" +++ s), (fold_left app1 ((f, []) :: ks) (EId "jsval")).
  assert (CC := code_chain "jsval" s _ eq_refl eq_refl C N). assert (LL := chain_last "jsval" s _ C N).
  rewrite E. split; [apply det_post; auto; apply CC|]. split; auto. split; auto.
  intros st R. rewrite eval_jsval. cbn [evals]. now apply V.
Qed.

Lemma chain_when b s ks : (b = true -> Chain s ks) -> Chain (when b s) (if b then ks else []).
Proof. intros H. destruct b; cbn; [auto|apply chain_nil]. Qed.
Lemma chain_const m s v : ident m = true -> plain m = true -> Const s v -> exists e, Chain (String "." (m +++ String "(" (s +++ ")"))) [(m, [e])] /\ forall st, eval e st = Some (v, st).
Proof. intros I P (e & C & V). exists e. split; auto. apply chain_call; auto. now apply at_last. Qed.
Lemma chain_const_nl m s v : ident m = true -> plain m = true -> Const s v -> exists e, Chain (String "." (String newline (m +++ String "(" (s +++ ")")))) [(m, [e])] /\ forall st, eval e st = Some (v, st).
Proof. intros I P (e & C & V). exists e. split; auto. apply chain_call_nl; auto. now apply at_last. Qed.
Lemma chain_new f : ident f = true -> plain f = true -> Chain (String "." (f +++ "()")) [(f, [])].
Proof. intros I P. apply chain_call; auto. apply at_close. now left. Qed.

(** text that is a chain of calls and turns one value into another *)
Definition Seg (t : string) (v v' : value) : Prop := exists ks, Chain t ks /\ forall st, fold_left ev1 ks (Some (v, st)) = Some (v', st).
Lemma seg_nil v : Seg "" v v.
Proof. exists []. split; [exact chain_nil|reflexivity]. Qed.
Lemma seg_app a b v v1 v2 : Seg a v v1 -> Seg b v1 v2 -> Seg (a +++ b) v v2.
Proof.
  intros (k & C & V) (k2 & C2 & V2). exists (k ++ k2). split; [now apply chain_app|]. intros st. now rewrite fold_left_app, V.
Qed.
Lemma seg_when (b : bool) t v v' : (b = true -> Seg t v v') -> Seg (when b t) v (if b then v' else v).
Proof. intros H. destruct b; cbn; [now apply H|apply seg_nil]. Qed.
Lemma seg_const m s x v v' : ident m = true -> plain m = true -> Const s x -> (forall st, call_method v m [x] st = Some (v', st)) ->
  Seg (String "." (m +++ String "(" (s +++ ")"))) v v'.
Proof.
  intros I P C H. destruct (chain_const m s x I P C) as (e & CC & V). exists [(m, [e])]. split; auto. intros st. cbn. now rewrite V.
Qed.
Lemma seg_const_nl m s x v v' : ident m = true -> plain m = true -> Const s x -> (forall st, call_method v m [x] st = Some (v', st)) ->
  Seg (String "." (String newline (m +++ String "(" (s +++ ")")))) v v'.
Proof.
  intros I P C H. destruct (chain_const_nl m s x I P C) as (e & CC & V). exists [(m, [e])]. split; auto. intros st. cbn. now rewrite V.
Qed.

Lemma good_seg G hm c m f t v c' : emit G (cm_of hm) c = post m -> ident f = true -> plain f = true ->
  det m ("jsval" +++ (String "." (f +++ "()")) +++ t) -> call_fun f [] = Some v -> Seg t v (VC c') -> like (regen c) c' -> Good G hm c.
Proof.
  intros E I P D F (ks & C & V) L.
  apply (good_chain G hm c m _ f ks E D); [exact (chain_app _ _ _ _ (chain_new f I P) C)|discriminate|].
  intros st _. exists c', (e_next st). rewrite F, bump_same. cbn [option_map]. rewrite V. auto.
Qed.

(** ** Strings *)
Lemma items_text G l : l <> [] -> allp item_ok l -> exists x es, det (enum_code G l) x /\ ArgText ")" (x +++ ",)") es /\
  exists vs, (forall st, evals eval es st = Some (vs, st)) /\ all_some as_iface vs = Some (map regen_item l).
Proof.
  induction l as [|v l IH]; [congruence|]. intros _. cbn [allp]. intros [O OL].
  assert (I : exists x e y, det (enum_item G v) x /\ Code x e /\ (forall st, eval e st = Some (y, st)) /\ as_iface y = Some (regen_item v)).
  { destruct v; try contradiction; cbn in O.
    - destruct (const_int z) as (e & C & V). exists (dec_Z z), e, (VInt z). split; [apply det_ret|]. split; auto. split; auto.
      cbn. now rewrite O.
    - destruct (const_float _ O) as (n & (e & C & V) & F). exists (fmt_f (rv_float is32 f)), e, (VDec n 6).
      split; [apply det_ret|]. split; auto. split; auto. cbn [as_iface]. rewrite F. reflexivity.
    - destruct (const_str (g_print G) s (no_percent_plain _ O)) as (e & C & V). exists (quote (g_print G) s), e, (VString s).
      split; [apply det_ret|]. split; auto. }
  destruct I as (x & e & y & D & C & V & Y). destruct l as [|v2 l].
  - exists x, [e]. split; [cbn [enum_code]; eapply det_bind; [exact D|]; eapply det_bind; [apply det_ret|]; rewrite sapp_nil; apply det_ret|].
    split; [apply at_cons; auto; [now left|]; apply at_close; now left|].
    exists [y]. split; [intros st; cbn; now rewrite V|]. cbn [all_some map]. now rewrite Y.
  - destruct IH as (x2 & es & D2 & A & vs & V2 & Y2); [congruence|auto|].
    exists (x +++ ", " +++ x2), (e :: es). split.
    { cbn [enum_code]. eapply det_bind; [exact D|]. eapply det_bind; [exact D2|]. apply det_ret. }
    split.
    { rewrite !sapp_assoc. apply at_cons; auto; [now left|]. apply at_sp. exact A. }
    exists (y :: vs). split; [intros st; cbn [evals]; rewrite V; now rewrite V2|]. cbn [all_some map] in *. rewrite Y. now rewrite Y2.
Qed.


Lemma like_str d c : like (CStr d c) (CStr d c).
Proof. cbn. auto. Qed.

Lemma good_str G hm d s : emittable hm (CStr d s) -> Good G hm (CStr d s).
Proof.
  intros [OD (O1 & O2 & O3 & O4 & O5)].
  set (c0 := new_str).
  set (c1 := if (-1 <? s_max s)%Z then str_maxLength (s_max s) c0 else c0).
  set (c2 := if (0 <? s_min s)%Z then str_minLength (s_min s) c1 else c1).
  set (c3 := if negb (String.eqb (s_fmt s) "") then str_format (s_fmt s) c2 else c2).
  set (c4 := match s_rx s with Some rx => str_regexp rx c3 | None => c3 end).
  set (c5 := match s_enum s with Some l => str_enum (map regen_item l) c4 | None => c4 end).
  assert (X1 : Seg (when (-1 <? s_max s)%Z (".MaxLength(" +++ dec_Z (s_max s) +++ ")")) (VC (CStr None c0)) (VC (CStr None c1))).
  { unfold c1. destruct (-1 <? s_max s)%Z; [|apply seg_nil]. apply (seg_const "MaxLength" _ (VInt (s_max s))); auto using const_int.
    intros st. cbn. now rewrite O1. }
  assert (X2 : Seg (when (0 <? s_min s)%Z (".MinLength(" +++ dec_Z (s_min s) +++ ")")) (VC (CStr None c1)) (VC (CStr None c2))).
  { unfold c2. destruct (0 <? s_min s)%Z; [|apply seg_nil]. apply (seg_const "MinLength" _ (VInt (s_min s))); auto using const_int.
    intros st. cbn. now rewrite O2. }
  assert (X3 : Seg (when (negb (String.eqb (s_fmt s) "")) (".Format(" +++ quote (g_print G) (s_fmt s) +++ ")")) (VC (CStr None c2)) (VC (CStr None c3))).
  { unfold c3. destruct (negb _); [|apply seg_nil]. apply (seg_const "Format" _ (VString (s_fmt s))); auto using const_str, no_percent_plain. }
  assert (X4 : Seg match s_rx s with None => "" | Some rx => ".RegexpString(" +++ quote (g_print G) rx +++ ")" end (VC (CStr None c3)) (VC (CStr None c4))).
  { unfold c4. destruct (s_rx s) as [rx|]; [|apply seg_nil]. apply (seg_const "RegexpString" _ (VString rx)); auto using const_str, no_percent_plain. }
  assert (X5 : exists t5, det (match s_enum s with None => gret "" | Some l => get x <- enum_code G l; gret (".Enum(" +++ x +++ ",)") end) t5 /\
     Seg t5 (VC (CStr None c4)) (VC (CStr None c5))).
  { unfold c5. destruct (s_enum s) as [l|]; [|eexists; split; [apply det_ret|apply seg_nil]].
    destruct O5 as [N O5]. destruct (items_text G l N O5) as (x & es & D & A & vs & V & Y).
    exists (".Enum(" +++ x +++ ",)"). split; [eapply det_bind; [exact D|apply det_ret]|].
    exists [("Enum", es)]. split; [exact (chain_call "Enum" _ _ eq_refl eq_refl A)|].
    intros st. cbn [fold_left ev1 fst snd]. rewrite V. cbn. now rewrite Y. }
  destruct X5 as (t5 & D5 & X5).
  assert (X6 : exists t6, det (match d with
           | None => gret ""%string
           | Some (GStr T x) => if String.eqb T "string" then gret (".Default(" +++ quote (g_print G) x +++ ")")
                                else gfail "default value must be a string"
           | Some _ => gfail "default value must be a string"
           end) t6 /\ Seg t6 (VC (CStr None c5)) (VC (CStr (option_map regen_item d) c5))).
  { destruct d as [[]|]; try contradiction; [|eexists; split; [apply det_ret|apply seg_nil]].
    destruct OD as [-> OD]. eexists. split; [apply det_ret|].
    apply (seg_const "Default" _ (VString s0)); auto using const_str, no_percent_plain. }
  destruct X6 as (t6 & D6 & X6).
  assert (X := seg_app _ _ _ _ _ X1 (seg_app _ _ _ _ _ X2 (seg_app _ _ _ _ _ X3 (seg_app _ _ _ _ _ X4 (seg_app _ _ _ _ _ X5 X6))))).
  apply (good_seg G hm (CStr d s) (string_code G d s) "String" _ _ _ eq_refl eq_refl eq_refl) with (3 := X); [|reflexivity|].
  - unfold string_code. eapply det_bind; [exact D5|]. eapply det_bind; [exact D6|].
    rewrite !sapp_assoc. apply det_ret.
  - replace c5 with (regen_str s); [apply like_str|].
    unfold c5, c4, c3, c2, c1, c0, regen_str. destruct (String.eqb_spec (s_fmt s) "") as [->|N]; cbn [negb];
    destruct (-1 <? s_max s)%Z, (0 <? s_min s)%Z, (s_rx s), (s_enum s); reflexivity.
Qed.

(** ** Numbers, integers, booleans *)
Lemma good_num G hm d m : emittable hm (CNum d m) -> Good G hm (CNum d m).
Proof.
  intros [OD [O1 O2]].
  set (c0 := new_num).
  set (c1 := if n_amin m then num_minimum (reread (n_min m)) c0 else c0).
  set (c2 := if n_xmin m then num_exclMin true c1 else c1).
  set (c3 := if n_amax m then num_maximum (reread (n_max m)) c2 else c2).
  set (c4 := if n_xmax m then num_exclMax true c3 else c3).
  assert (X1 : Seg (when (n_amin m) (".Minimum(" +++ fmt_f (n_min m) +++ ")")) (VC (CNum None c0)) (VC (CNum None c1))).
  { unfold c1. destruct (n_amin m); [|apply seg_nil]. destruct (const_float _ (O1 eq_refl)) as (n & C & F).
    apply (seg_const "Minimum" _ (VDec n 6)); auto. intros st. cbn [call_method num_method as_float String.eqb Ascii.eqb Bool.eqb]. now rewrite F. }
  assert (X2 : Seg (when (n_xmin m) ".ExclusiveMinimum(true)") (VC (CNum None c1)) (VC (CNum None c2))).
  { unfold c2. destruct (n_xmin m); [|apply seg_nil]. apply (seg_const "ExclusiveMinimum" "true" (VBool true)); auto. apply (const_bool true). }
  assert (X3 : Seg (when (n_amax m) (".Maximum(" +++ fmt_f (n_max m) +++ ")")) (VC (CNum None c2)) (VC (CNum None c3))).
  { unfold c3. destruct (n_amax m); [|apply seg_nil]. destruct (const_float _ (O2 eq_refl)) as (n & C & F).
    apply (seg_const "Maximum" _ (VDec n 6)); auto. intros st. cbn [call_method num_method as_float String.eqb Ascii.eqb Bool.eqb]. now rewrite F. }
  assert (X4 : Seg (when (n_xmax m) ".ExclusiveMaximum(true)") (VC (CNum None c3)) (VC (CNum None c4))).
  { unfold c4. destruct (n_xmax m); [|apply seg_nil]. apply (seg_const "ExclusiveMaximum" "true" (VBool true)); auto. apply (const_bool true). }
  assert (X5 : Seg match d with None => "" | Some (GFloat _ is32 f) => ".Default(" +++ fmt_f (rv_float is32 f) +++ ")"
                 | Some v => ".Default(" +++ g_bad G "f" v +++ ")" end (VC (CNum None c4)) (VC (CNum (option_map regen_item d) c4))).
  { destruct d as [[]|]; try contradiction; [|apply seg_nil]. destruct (const_float _ OD) as (n & C & F).
    apply (seg_const "Default" _ (VDec n 6)); auto. intros st. cbn [call_method num_method as_iface String.eqb Ascii.eqb Bool.eqb]. now rewrite F. }
  assert (X := seg_app _ _ _ _ _ X1 (seg_app _ _ _ _ _ X2 (seg_app _ _ _ _ _ X3 (seg_app _ _ _ _ _ X4 X5)))).
  apply (good_seg G hm (CNum d m) (number_code G d m) "Number" _ _ _ eq_refl eq_refl eq_refl) with (3 := X); [|reflexivity|].
  - unfold number_code. rewrite !sapp_assoc. apply det_ret.
  - replace c4 with (regen_num reread m); [cbn; auto|].
    unfold c4, c3, c2, c1, c0, regen_num. destruct (n_amin m), (n_xmin m), (n_amax m), (n_xmax m); reflexivity.
Qed.

Lemma trunc_in_int f : in_int (f64_to_int64 f) = true.
Proof.
  unfold f64_to_int64, ftrunc, in_int. destruct f as [|[]| |s m e]; try reflexivity.
  match goal with |- context [if ?b then _ else _] => destruct b eqn:B end; [exact B|reflexivity].
Qed.

Lemma good_int G hm d m : emittable hm (CInt d m) -> Good G hm (CInt d m).
Proof.
  intros OD. cbn [emittable] in OD.
  set (d' := match d with Some (GFloat _ _ f) => Some (GInt "int" Kint (f64_to_int64 f)) | _ => d end).
  set (c0 := new_num).
  set (c1 := if n_amin m then num_minimum (cut (n_min m)) c0 else c0).
  set (c2 := if n_xmin m then num_exclMin true c1 else c1).
  set (c3 := if n_amax m then num_maximum (cut (n_max m)) c2 else c2).
  set (c4 := if n_xmax m then num_exclMax true c3 else c3).
  assert (X1 : Seg (when (n_amin m) (".Minimum(" +++ dec_Z (f64_to_int64 (n_min m)) +++ ")")) (VC (CInt None c0)) (VC (CInt None c1))).
  { unfold c1. destruct (n_amin m); [|apply seg_nil].
    apply (seg_const "Minimum" _ (VInt (f64_to_int64 (n_min m)))); auto using const_int. }
  assert (X2 : Seg (when (n_xmin m) ".ExclusiveMinimum(true)") (VC (CInt None c1)) (VC (CInt None c2))).
  { unfold c2. destruct (n_xmin m); [|apply seg_nil]. apply (seg_const "ExclusiveMinimum" "true" (VBool true)); auto. apply (const_bool true). }
  assert (X3 : Seg (when (n_amax m) (".Maximum(" +++ dec_Z (f64_to_int64 (n_max m)) +++ ")")) (VC (CInt None c2)) (VC (CInt None c3))).
  { unfold c3. destruct (n_amax m); [|apply seg_nil].
    apply (seg_const "Maximum" _ (VInt (f64_to_int64 (n_max m)))); auto using const_int. }
  assert (X4 : Seg (when (n_xmax m) ".ExclusiveMaximum(true)") (VC (CInt None c3)) (VC (CInt None c4))).
  { unfold c4. destruct (n_xmax m); [|apply seg_nil]. apply (seg_const "ExclusiveMaximum" "true" (VBool true)); auto. apply (const_bool true). }
  assert (X5 : exists t5, Seg t5 (VC (CInt None c4)) (VC (CInt d' c4)) /\
    det (integer_code d m) ("jsval" +++ ".Integer()" +++ when (n_amin m) (".Minimum(" +++ dec_Z (f64_to_int64 (n_min m)) +++ ")") +++
       when (n_xmin m) ".ExclusiveMinimum(true)" +++ when (n_amax m) (".Maximum(" +++ dec_Z (f64_to_int64 (n_max m)) +++ ")") +++
       when (n_xmax m) ".ExclusiveMaximum(true)" +++ t5)).
  { unfold integer_code. destruct d as [[]|]; try contradiction.
    - destruct OD as [-> ->]. exists (".Default(" +++ dec_Z (f64_to_int64 f) +++ ")"). split.
      + apply (seg_const "Default" _ (VInt (f64_to_int64 f))); auto using const_int.
        intros st. cbn [call_method num_method as_iface String.eqb Ascii.eqb Bool.eqb]. now rewrite trunc_in_int.
      + cbn [String.eqb Ascii.eqb Bool.eqb]. rewrite !sapp_assoc. apply det_ret.
    - exists "". split; [apply seg_nil|]. rewrite sapp_nil. apply det_ret. }
  destruct X5 as (t5 & X5 & D5).
  assert (X := seg_app _ _ _ _ _ X1 (seg_app _ _ _ _ _ X2 (seg_app _ _ _ _ _ X3 (seg_app _ _ _ _ _ X4 X5)))).
  apply (good_seg G hm (CInt d m) (integer_code d m) "Integer" _ _ _ eq_refl eq_refl eq_refl) with (3 := X); [exact D5|reflexivity|].
  replace c4 with (regen_num cut m); [cbn; auto|].
  unfold c4, c3, c2, c1, c0, regen_num. destruct (n_amin m), (n_xmin m), (n_amax m), (n_xmax m); reflexivity.
Qed.

Lemma good_bool G hm d : emittable hm (CBool d) -> Good G hm (CBool d).
Proof.
  intros OD. cbn [emittable] in OD.
  assert (X : Seg match d with None => "" | Some (GBool _ b) => ".Default(" +++ (if b then "true" else "false") +++ ")"
                | Some v => ".Default(" +++ g_bad G "t" v +++ ")" end (VC (CBool None)) (VC (CBool (option_map regen_item d)))).
  { destruct d as [[]|]; try contradiction; [|apply seg_nil].
    apply (seg_const "Default" _ (VBool b)); auto using const_bool. }
  apply (good_seg G hm (CBool d) (boolean_code G d) "Boolean" _ _ _ eq_refl eq_refl eq_refl) with (3 := X); [apply det_ret|reflexivity|reflexivity].
Qed.

(** ** Constants and references *)
Lemma good_atom G hm c x v : emit G (cm_of hm) c = post (gret ("jsval." +++ x)) -> ident x = true -> plain x = true ->
  (forall st, eval (ESel (EId "jsval") x) st = Some (VC v, st)) -> like (regen c) v -> last_char ("jsval." +++ x) <> Some newline -> Good G hm c.
Proof.
  intros E I P V L N. exists ("jsval." +++ x), (ESel (EId "jsval") x). assert (C := code_sel "jsval" x eq_refl eq_refl I P).
  rewrite E. split; [apply det_post; [apply det_ret|apply C|auto]|]. split; [exact C|]. split; auto.
  intros st _. exists v, (e_next st). rewrite bump_same. auto.
Qed.

Lemma good_ref G n : no_percent n -> Good G true (CRef n).
Proof.
  intros O. destruct (const_str (g_print G) n (no_percent_plain _ O)) as (e & C & V).
  assert (K1 : Chain (String "." ("Reference" +++ String "(" ("M" +++ ")"))) [("Reference", [EId "M"])]).
  { apply chain_call; auto. apply at_last. now apply code_id. }
  assert (K2 : Chain (String "." ("RefersTo" +++ String "(" (quote (g_print G) n +++ ")"))) [("RefersTo", [e])]).
  { apply chain_call; auto. now apply at_last. }
  assert (K := chain_app _ _ _ _ K1 K2). cbn [app] in K.
  match type of K with Chain ?s ?ks => set (t := s) in *; exists ("jsval" +++ t), (fold_left app1 ks (EId "jsval")) end.
  assert (CC := code_chain "jsval" t _ eq_refl eq_refl K ltac:(discriminate)).
  assert (LL := chain_last "jsval" t _ K ltac:(discriminate)).
  split; [|split; [exact CC|split; [exact LL|]]].
  - cbn [emit]. apply det_post; [|apply CC|exact LL]. unfold reference_code, t, cm_of. cbn [String.append]. apply det_ret.
  - intros st R. exists (CRef n), (e_next st). rewrite bump_same. split; [|split; [auto|reflexivity]].
    rewrite eval_jsval. cbn [evals eval String.eqb Ascii.eqb Bool.eqb]. rewrite (R eq_refl). cbn. now rewrite V.
Qed.
