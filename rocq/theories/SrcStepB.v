(** Tactics to run the interpreter of SrcStore.v on known code and partly unknown data. *)
From Verif Require Import Base GoFloat GoValue Maybe Formats Constraint StructInfo Validate Builder SrcSyntax SrcText SrcTextB SrcProg SrcStore SrcProgB.
Open Scope string_scope.
Open Scope list_scope.
Open Scope Z_scope.

(** ** The store *)
Lemma cell_put a v h : (a < List.length h)%nat -> cell a (put a v h) = Some v.
Proof. revert a. induction h as [|x h IH]; intros [|a] H; cbn in *; try lia; [reflexivity|]. apply IH. lia. Qed.
Lemma cell_other a b v h : a <> b -> cell a (put b v h) = cell a h.
Proof. revert a b. induction h as [|x h IH]; intros [|a] [|b] H; cbn; try reflexivity; try congruence. apply IH. congruence. Qed.
Lemma put_put a v u h : put a v (put a u h) = put a v h.
Proof. revert a. induction h as [|x h IH]; intros [|a]; cbn; try reflexivity. now rewrite IH. Qed.
Lemma put_same a v h : cell a h = Some v -> put a v h = h.
Proof. revert a. induction h as [|x h IH]; intros [|a]; cbn; intro H; try congruence. rewrite IH; [reflexivity|exact H]. Qed.
Lemma put_length a v h : List.length (put a v h) = List.length h.
Proof. revert a. induction h as [|x h IH]; intros [|a]; cbn; try reflexivity. now rewrite IH. Qed.
Lemma cell_new h v : cell (List.length h) (h ++ [v]) = Some v.
Proof. unfold cell. rewrite nth_error_app2 by lia. now rewrite Nat.sub_diag. Qed.
Lemma cell_old a h k : (a < List.length h)%nat -> cell a (h ++ k) = cell a h.
Proof. intro H. unfold cell. now apply nth_error_app1. Qed.
Lemma cell_lt a h v : cell a h = Some v -> (a < List.length h)%nat.
Proof. intro H. apply nth_error_Some. unfold cell in H. congruence. Qed.
Lemma put_old a v h k : (a < List.length h)%nat -> put a v (h ++ k) = put a v h ++ k.
Proof. revert a. induction h as [|x h IH]; intros [|a] H; cbn in *; try lia; [reflexivity|]. rewrite IH by lia. reflexivity. Qed.
Lemma put_swap a b v u h : a <> b -> put a v (put b u h) = put b u (put a v h).
Proof. revert a b. induction h as [|x h IH]; intros [|a] [|b] H; cbn; try reflexivity; try congruence. rewrite IH by congruence. reflexivity. Qed.
Lemma put_new h v u : put (List.length h) v (h ++ [u]) = h ++ [v].
Proof. induction h as [|x h IH]; cbn; [reflexivity|]. now rewrite IH. Qed.

Lemma put_new_under a h v u x : a <> List.length h -> put (List.length h) v (put a u (h ++ [x])) = put a u (h ++ [v]).
Proof. intro H. rewrite put_swap by congruence. now rewrite put_new. Qed.

(** ** Normalizing *)
(** leaving the store and the library alone *)
Ltac evalp t :=
  eval lazy -[cell put bcall app List.length map Z.add Z.ltb Z.leb Z.eqb Z.of_nat Z.to_nat String.append same kget kput kdel kmem
    feq ffloor fzero sort_t shuffle next kind valueOf is_gnil existsb repeat firstn skipn nth_error set_nth b_indexed brounds blive brun
    bblock bends blift of_schema schema_map gvals b_types Nat.min initialized blank field_path method_path zero zero_struct prog bc_resolve bc_tname
    sc_ref sc_not sc_allOf sc_anyOf sc_oneOf sc_type sc_enum sc_default sc_min sc_max sc_mult sc_xmin sc_xmax sc_minLen sc_maxLen
    sc_pattern sc_format sc_items sc_addItems sc_minItems sc_maxItems sc_unique sc_required sc_minProps sc_maxProps sc_props sc_pats
    sc_addProps sc_depNames sc_depSchemas
    s_max s_min s_rx s_fmt s_enum n_amin n_amax n_amul n_min n_max n_mul n_xmin n_xmax n_enum a_items a_pos a_add a_min a_max a_uniq
    o_add o_pats o_props o_propdeps o_req o_min o_max o_sdeps sget sset pat_set cell_keys contains as_bool] in t.
(** and the meaning of single operations *)
Ltac evalb t :=
  eval lazy -[cell put bcall app List.length map Z.add Z.ltb Z.leb Z.eqb Z.of_nat Z.to_nat String.append same kget kput kdel kmem
    feq ffloor fzero sort_t shuffle next kind valueOf is_gnil existsb repeat firstn skipn nth_error set_nth b_indexed brounds blive brun
    bblock bends blift of_schema schema_map gvals b_types Nat.min initialized blank field_path method_path zero zero_struct prog bc_resolve bc_tname
    sc_ref sc_not sc_allOf sc_anyOf sc_oneOf sc_type sc_enum sc_default sc_min sc_max sc_mult sc_xmin sc_xmax sc_minLen sc_maxLen
    sc_pattern sc_format sc_items sc_addItems sc_minItems sc_maxItems sc_unique sc_required sc_minProps sc_maxProps sc_props sc_pats
    sc_addProps sc_depNames sc_depSchemas
    s_max s_min s_rx s_fmt s_enum n_amin n_amax n_amul n_min n_max n_mul n_xmin n_xmax n_enum a_items a_pos a_add a_min a_max a_uniq
    o_add o_pats o_props o_propdeps o_req o_min o_max o_sdeps sget sset pat_set cell_keys contains as_bool
    bthen b_the package select_ select_ref method_of b_builtin b_pkg_call b_make b_composite b_var b_copy b_sort b_extracted b_index b_append b_unary
    b_binary b_asserted b_new b_addr b_recv_id set_name set_field set_index] in t.
Ltac normb t := let t' := evalb t in progress change t with t'.

Section Rest.
  Variable cx : bctx.
  Variable call : string -> list bv -> bst -> bev (list bv).
  Variable boxed : list string.
  Variable fuel : nat.
  Notation EX := (bexec cx call boxed fuel).
  Definition b_if_value (a b : list stmt) (v : bv) (s : bst) : boc :=
    match v with BBool c => if c then bblock EX a s else bblock EX b s | _ => BStkS "condition" end.
  Definition b_if_rest (c : expr) (a b : list stmt) (s : bst) : boc := blift (b_the (beval cx call false c s)) (b_if_value a b).
  Definition b_sw_picked (cls : list (option (list expr) * list stmt)) (o : option nat) (s : bst) : boc :=
    b_clause (bblock EX) cls (match o with Some i => Some i | None => b_default cls end) s.
  Definition b_sw_value (cls : list (option (list expr) * list stmt)) (v : option bv) (s : bst) : boc :=
    blift (b_pick cx call v cls s) (b_sw_picked cls).
  Definition b_sw_tag (cls : list (option (list expr) * list stmt)) (v : bv) (s : bst) : boc := b_sw_value cls (Some v) s.
  Definition b_tsw (cls : list (option (list ty) * list stmt)) (v : bv) (s : bst) : boc :=
    b_clause (bblock EX) cls (match b_tpick v cls with Some i => Some i | None => b_default cls end) s.
  Definition b_range (k v : option string) (def : bool) (body : list stmt) (x : bv) (s : bst) : boc :=
    match x, v with
    | BMap a, None => blive boxed fuel (brun EX body) def k a (cell_keys a s) [] s
    | _, _ => match b_items x s with Some (l, s) => brounds boxed (brun EX body) def k v l s | None => BStkS "range" end
    end.
End Rest.
Lemma brun_cons ex x r s : brun ex (x :: r) s = bends (ex x s) (brun ex r).
Proof. reflexivity. Qed.
Lemma bexec_tag cx call bx n e cls s : bexec cx call bx n (SSwitch (Some e) cls) s = blift (b_the (beval cx call false e s)) (b_sw_tag cx call bx n cls).
Proof. cbn. destruct (b_the (beval cx call false e s)); reflexivity. Qed.
Definition b_next bx body def k v l (o : boc) : boc :=
  match o with BNx s | BCt s => brounds bx body def k v l s | BBk s => BNx s | o => o end.
Lemma brounds_cons bx body def k v a b r s :
  brounds bx body def k v ((a, b) :: r) s = b_next bx body def k v r (bleave (bends (b_bind bx def k v a b (bpush s)) body)).
Proof. cbn [brounds]. unfold bround, b_next. destruct (bleave _); reflexivity. Qed.
Lemma bcall_unfold cx k f g fr bx args s :
  bc_fns cx f = Some g -> b_frame g args = Some fr -> flat_map addrs (fn_body g) = bx ->
  bcall cx (S k) f args s = b_called (vars s) (brun (bexec cx (bcall cx k) bx k) (fn_body g) (with_vars [fr] s)).
Proof. intros Hf Ha <-. cbn [bcall]. rewrite Hf, Ha. reflexivity. Qed.

Ltac is_boc o := match o with BNx _ => idtac | BRt _ _ => idtac | BBk _ => idtac | BCt _ => idtac | BPnS _ => idtac | BOfS => idtac | BStkS _ => idtac end.
(** the lengths of extended and updated stores *)
Ltac sizes := rewrite ?app_length, ?put_length in *; cbn [List.length] in *; try lia.
(** reading the store *)
Ltac in_store :=
  match goal with
  | H : cell ?a ?h = _ |- context [cell ?a ?h] => rewrite H
  | |- context [cell ?a (put ?a ?v ?h)] => rewrite (cell_put a v h) by (sizes)
  | |- context [cell (List.length ?h) (?h ++ [?v])] => rewrite (cell_new h v)
  | |- context [cell ?a (put ?b ?v ?h)] => rewrite (cell_other a b v h) by (sizes)
  | |- context [cell ?a (?h ++ ?k)] => rewrite (cell_old a h k) by (sizes)
  | |- context [put ?a ?v (put ?a ?u ?h)] => rewrite (put_put a v u h)
  | |- context [put (List.length ?h) ?v (?h ++ [?u])] => rewrite (put_new h v u)
  | |- context [put (List.length ?h) ?v (put ?a ?u (?h ++ [?x]))] => rewrite (put_new_under a h v u x) by (sizes)
  end.
Ltac by_layout :=
  match goal with
  | |- context [field_path ?cx ?n ?T ?f] => let t := eval lazy in (field_path cx n T f) in change (field_path cx n T f) with t
  | |- context [method_path ?cx ?n ?T ?f] => let t := eval lazy in (method_path cx n T f) in change (method_path cx n T f) with t
  | |- context [zero_struct ?cx ?T] => let t := eval lazy -[fzero] in (zero_struct cx T) in change (zero_struct cx T) with t
  | |- context [zero ?cx ?n ?t] => let t' := eval lazy -[fzero] in (zero cx n t) in change (zero cx n t) with t'
  end.
Lemma at_0b {A} (x : A) l : nth_error (x :: l) 0 = Some x.
Proof. reflexivity. Qed.
(** what is known of the schema *)
Ltac of_schema_known :=
  match goal with
  | H : sc_ref ?c = _ |- context [sc_ref ?c] => rewrite H
  | H : sc_not ?c = _ |- context [sc_not ?c] => rewrite H
  | H : sc_allOf ?c = _ |- context [sc_allOf ?c] => rewrite H
  | H : sc_anyOf ?c = _ |- context [sc_anyOf ?c] => rewrite H
  | H : sc_oneOf ?c = _ |- context [sc_oneOf ?c] => rewrite H
  | H : sc_type ?c = _ |- context [sc_type ?c] => rewrite H
  | H : sc_enum ?c = _ |- context [sc_enum ?c] => rewrite H
  | H : sc_default ?c = _ |- context [sc_default ?c] => rewrite H
  | H : sc_min ?c = _ |- context [sc_min ?c] => rewrite H
  | H : sc_max ?c = _ |- context [sc_max ?c] => rewrite H
  | H : sc_mult ?c = _ |- context [sc_mult ?c] => rewrite H
  | H : sc_xmin ?c = _ |- context [sc_xmin ?c] => rewrite H
  | H : sc_xmax ?c = _ |- context [sc_xmax ?c] => rewrite H
  | H : sc_minLen ?c = _ |- context [sc_minLen ?c] => rewrite H
  | H : sc_maxLen ?c = _ |- context [sc_maxLen ?c] => rewrite H
  | H : sc_pattern ?c = _ |- context [sc_pattern ?c] => rewrite H
  | H : sc_format ?c = _ |- context [sc_format ?c] => rewrite H
  | H : sc_items ?c = _ |- context [sc_items ?c] => rewrite H
  | H : sc_addItems ?c = _ |- context [sc_addItems ?c] => rewrite H
  | H : sc_minItems ?c = _ |- context [sc_minItems ?c] => rewrite H
  | H : sc_maxItems ?c = _ |- context [sc_maxItems ?c] => rewrite H
  | H : sc_unique ?c = _ |- context [sc_unique ?c] => rewrite H
  | H : sc_required ?c = _ |- context [sc_required ?c] => rewrite H
  | H : sc_minProps ?c = _ |- context [sc_minProps ?c] => rewrite H
  | H : sc_maxProps ?c = _ |- context [sc_maxProps ?c] => rewrite H
  | H : sc_props ?c = _ |- context [sc_props ?c] => rewrite H
  | H : sc_pats ?c = _ |- context [sc_pats ?c] => rewrite H
  | H : sc_addProps ?c = _ |- context [sc_addProps ?c] => rewrite H
  | H : sc_depNames ?c = _ |- context [sc_depNames ?c] => rewrite H
  | H : sc_depSchemas ?c = _ |- context [sc_depSchemas ?c] => rewrite H
  end.
Lemma pos_cons {A} (x : A) l : (0 <? Z.of_nat (List.length (x :: l))) = true.
Proof. apply Z.ltb_lt. cbn [List.length]. lia. Qed.
Ltac known :=
  match goal with
  | |- context [@map ?A ?B ?f []] => change (@map A B f []) with (@nil B)
  | |- context [map ?f (?x :: ?l)] => let t := eval cbn [map] in (map f (x :: l)) in change (map f (x :: l)) with t
  | |- context [0 <? Z.of_nat (List.length (?x :: ?l))] => rewrite (pos_cons x l)
  | |- context [Z.of_nat (@List.length ?A [])] => change (Z.of_nat (@List.length A [])) with 0
  | H : (?a <? ?b) = _ |- context [?a <? ?b] => rewrite H
  | H : contains ?a ?b = _ |- context [contains ?a ?b] => rewrite H
  | H : as_bool ?a = _ |- context [as_bool ?a] => rewrite H
  | |- context [schema_map []] => change (schema_map []) with (@nil (bv * bv))
  | |- context [schema_map (?x :: ?l)] => change (schema_map (x :: l)) with ((BStr (fst x), of_schema (snd x)) :: schema_map l)
  | H : is_gnil ?a = _ |- context [is_gnil ?a] => rewrite H
  | |- context [initialized (Some ?x)] => change (initialized (Some x)) with true
  | |- context [@initialized ?A None] => change (@initialized A None) with false
  | |- context [of_schema SNil] => change (of_schema SNil) with BNil
  | |- context [of_schema (Sch ?c)] => change (of_schema (Sch c)) with (BSch c)
  | |- _ => of_schema_known
  | |- context [0 <? 0] => change (0 <? 0) with false
  | |- context [Z.to_nat 0] => change (Z.to_nat 0) with 0%nat
  | |- context [nth_error (?x :: ?l) 0] => rewrite (at_0b x l)
  | H : kget ?a ?b = _ |- context [kget ?a ?b] => rewrite H
  | |- context [kget ?a []] => change (kget a []) with (@None bv)
  | H : same ?a ?b = _ |- context [same ?a ?b] => rewrite H
  | |- context [same ?a ?b] =>
    let t := eval lazy in (same a b) in
    match t with true => idtac | false => idtac end; change (same a b) with t
  end.
Ltac settleb := progress (repeat known; repeat in_store; repeat by_layout).
Ltac stepb1 :=
  match goal with
  | |- context [bends ?x ?k] => is_boc x; let t := eval cbv beta iota delta [bends] in (bends x k) in change (bends x k) with t
  | |- context [bleave ?x] => is_boc x; let t := eval lazy beta iota zeta delta [bleave bpop with_vars List.tl vars heap bord] in (bleave x) in change (bleave x) with t
  | |- context [b_nobreak ?x] => is_boc x; let t := eval cbv beta iota delta [b_nobreak] in (b_nobreak x) in change (b_nobreak x) with t
  | |- context [b_called ?e ?x] => is_boc x; let t := evalb (b_called e x) in change (b_called e x) with t
  | |- context [blift (BOk ?a ?s0) ?k] =>
      match k with
      | fun x => @?b x => let t := evalb (k a s0) in change (blift (BOk a s0) k) with t
      | _ => change (blift (BOk a s0) k) with (k a s0)
      end
  | |- context [@blift ?A (BPn ?m) ?k] => change (@blift A (BPn m) k) with (BPnS m)
  | |- context [b_if_value ?cx ?call ?bx ?n ?a ?b (BBool true) ?s0] => change (b_if_value cx call bx n a b (BBool true) s0) with (bblock (bexec cx call bx n) a s0)
  | |- context [b_if_value ?cx ?call ?bx ?n ?a ?b (BBool false) ?s0] => change (b_if_value cx call bx n a b (BBool false) s0) with (bblock (bexec cx call bx n) b s0)
  | |- context [b_if_rest ?cx ?call ?bx ?n ?c ?a ?b ?s0] =>
      let t := evalb (b_the (beval cx call false c s0)) in
      change (b_if_rest cx call bx n c a b s0) with (blift t (b_if_value cx call bx n a b))
  | |- context [b_sw_tag ?cx ?call ?bx ?n ?cls ?v ?s0] =>
      let t := evalb (b_pick cx call (Some v) cls s0) in
      change (b_sw_tag cx call bx n cls v s0) with (blift t (b_sw_picked cx call bx n cls))
  | |- context [b_sw_value ?cx ?call ?bx ?n ?cls ?v ?s0] =>
      let t := evalb (b_pick cx call v cls s0) in
      change (b_sw_value cx call bx n cls v s0) with (blift t (b_sw_picked cx call bx n cls))
  | |- context [b_sw_picked ?cx ?call ?bx ?n ?cls ?o ?s0] =>
      let t := eval lazy beta iota zeta delta [b_sw_picked b_clause b_default option_map] in (b_sw_picked cx call bx n cls o s0) in
      change (b_sw_picked cx call bx n cls o s0) with t
  | |- context [b_next ?bx ?body ?def ?k ?v ?l ?x] => is_boc x;
      let t := eval cbv beta iota delta [b_next] in (b_next bx body def k v l x) in change (b_next bx body def k v l x) with t
  | |- context [b_range ?cx ?call ?bx ?n ?k ?v ?def ?body (BList ?l) ?s0] =>
      change (b_range cx call bx n k v def body (BList l) s0) with (brounds bx (brun (bexec cx call bx n) body) def k v (b_indexed 0 l) s0)
  | |- context [b_range ?cx ?call ?bx ?n ?k ?v ?def ?body BNil ?s0] =>
      change (b_range cx call bx n k v def body BNil s0) with (BNx s0)
  | |- context [b_tsw ?cx ?call ?bx ?n ?cls ?v ?s0] =>
      let t0 := evalp (b_tpick v cls) in
      let t := lazymatch t0 with
        | context [as_bool ?g] => lazymatch goal with H : as_bool g = ?r |- _ =>
            let t1 := eval pattern (as_bool g) in t0 in lazymatch t1 with ?f _ => evalp (f r) end end
        | _ => t0 end in
      let t' := eval lazy beta iota zeta delta [b_clause b_default option_map] in
        (b_clause (bblock (bexec cx call bx n)) cls (match t with Some i => Some i | None => b_default cls end) s0) in
      let H := fresh in
      assert (H : b_tsw cx call bx n cls v s0 = t'); [unfold b_tsw; repeat match goal with H : as_bool ?g = _ |- _ => change (b_tpick v cls) with t0; rewrite H end; reflexivity|rewrite H; clear H]
  | |- context [brun ?ex [] ?s0] => change (brun ex [] s0) with (BNx s0)
  | |- context [brun ?ex (?x :: ?r) ?s0] => rewrite (brun_cons ex x r s0)
  | |- context [bblock ?ex ?l ?s0] => let t := evalb (bpush s0) in change (bblock ex l s0) with (bleave (brun ex l t))
  | |- context [b_opt ?ex None ?s0] => change (b_opt ex None s0) with (BNx s0)
  | |- context [b_opt ?ex (Some ?x) ?s0] => change (b_opt ex (Some x) s0) with (ex x s0)
  | |- context [bexec ?cx ?call ?bx ?n (SIf ?i ?c ?a ?b) ?s0] =>
      let t := evalb (bpush s0) in
      change (bexec cx call bx n (SIf i c a b) s0) with (bleave (bends (b_opt (bexec cx call bx n) i t) (b_if_rest cx call bx n c a b)))
  | |- context [bexec ?cx ?call ?bx ?n (SSwitch None ?cls) ?s0] =>
      change (bexec cx call bx n (SSwitch None cls) s0) with (b_sw_value cx call bx n cls None s0)
  | |- context [bexec ?cx ?call ?bx ?n (SSwitch (Some ?e) ?cls) ?s0] =>
      let t := evalb (b_the (beval cx call false e s0)) in
      rewrite (bexec_tag cx call bx n e cls s0); change (b_the (beval cx call false e s0)) with t
  | |- context [bexec ?cx ?call ?bx ?n (STSwitch ?e ?cls) ?s0] =>
      let t := evalb (b_the (beval cx call false e s0)) in
      change (bexec cx call bx n (STSwitch e cls) s0) with (blift t (b_tsw cx call bx n cls))
  | |- context [bexec ?cx ?call ?bx ?n (SRange ?line ?k ?v ?def ?e ?body) ?s0] =>
      let t := evalb (b_the (beval cx call false e s0)) in
      change (bexec cx call bx n (SRange line k v def e body) s0) with (blift t (b_range cx call bx n k v def body))
  | |- context [bexec ?cx ?call ?bx ?n (SReturn ?l) ?s0] => normb (bexec cx call bx n (SReturn l) s0)
  | |- context [bexec ?cx ?call ?bx ?n (SAssign ?l ?op ?r) ?s0] => normb (bexec cx call bx n (SAssign l op r) s0)
  | |- context [bexec ?cx ?call ?bx ?n (SExpr ?e) ?s0] => normb (bexec cx call bx n (SExpr e) s0)
  | |- context [bexec ?cx ?call ?bx ?n (SVar ?x ?t ?e) ?s0] => normb (bexec cx call bx n (SVar x t e) s0)
  | |- context [bexec ?cx ?call ?bx ?n (SDefer ?e) ?s0] => normb (bexec cx call bx n (SDefer e) s0)
  | |- context [bexec ?cx ?call ?bx ?n SContinue ?s0] => change (bexec cx call bx n SContinue s0) with (BCt s0)
  | |- context [bexec ?cx ?call ?bx ?n SBreak ?s0] => change (bexec cx call bx n SBreak s0) with (BBk s0)
  end.
(** a single operation *)
Ltac full := match goal with |- ?t = _ => let t' := evalp t in change t with t' end.
Ltac is_result t :=
  lazymatch t with
  | BOk _ _ => idtac | BPn _ => idtac | BNx _ => idtac | BPnS _ => idtac | bcall _ _ _ _ _ => idtac | true => idtac | false => idtac
  end.
Ltac result t :=
  let H := fresh "Hres" in
  eassert (H : t = _);
  [full; repeat (settleb; full); match goal with |- ?x = _ => is_result x; reflexivity end
  |rewrite H; clear H].
Ltac prim1 :=
  match goal with
  | |- context [package ?p ?s0] => result (package p s0)
  | |- context [select_ ?cx ?v ?f ?s0] => result (select_ cx v f s0)
  | |- context [select_ref ?cx ?v ?f ?s0] => result (select_ref cx v f s0)
  | |- context [method_of ?cx ?call ?v ?m ?l ?s0] => result (method_of cx call v m l s0)
  | |- context [b_builtin ?call ?f ?l ?s0] => result (b_builtin call f l s0)
  | |- context [b_pkg_call ?call ?p ?f ?l ?s0] => result (b_pkg_call call p f l s0)
  | |- context [b_make ?cx ?t ?l ?s0] => result (b_make cx t l s0)
  | |- context [b_composite ?cx ?t ?l ?s0] => result (b_composite cx t l s0)
  | |- context [b_var ?x ?s0] => result (b_var x s0)
  | |- context [b_copy ?x ?v ?s0] => result (b_copy x v s0)
  | |- context [b_sort ?x ?s0] => result (b_sort x s0)
  | |- context [b_extracted ?x ?v ?s0] => result (b_extracted x v s0)
  | |- context [b_index ?two ?v ?k ?s0] => result (b_index two v k s0)
  | |- context [b_append ?b ?v ?k ?s0] => result (b_append b v k s0)
  | |- context [b_unary ?op ?v ?s0] => result (b_unary op v s0)
  | |- context [b_binary ?op ?v ?u ?s0] => result (b_binary op v u s0)
  | |- context [b_asserted ?two ?t ?v ?s0] => result (b_asserted two t v s0)
  | |- context [b_new ?v ?s0] => result (b_new v s0)
  | |- context [b_addr ?x ?s0] => result (b_addr x s0)
  | |- context [b_recv_id ?x ?s0] => result (b_recv_id x s0)
  | |- context [set_name ?bx ?def ?x ?v ?s0] => result (set_name bx def x v s0)
  | |- context [set_field ?cx ?f ?v ?r ?s0] => result (set_field cx f v r s0)
  | |- context [set_index ?e ?v ?r ?k ?s0] => result (set_index e v r k s0)
  end.
Ltac flow1 :=
  match goal with
  | |- context [bthen (BOk ?a ?s0) ?k] => let t := evalb (k a s0) in change (bthen (BOk a s0) k) with t
  | |- context [@bthen ?A ?B (BPn ?m) ?k] => change (@bthen A B (BPn m) k) with (@BPn B m)
  | |- context [b_the (BOk [?v] ?s0)] => change (b_the (BOk [v] s0)) with (BOk v s0)
  | |- context [b_the (BPn ?m)] => change (b_the (BPn m)) with (@BPn bv m)
  | H : same ?a ?b = _ |- context [if same ?a ?b then _ else _] => rewrite H
  | |- context [if same ?a ?b then _ else _] =>
      let t := eval lazy in (same a b) in
      match t with true => idtac | false => idtac end; change (same a b) with t
  end.
Ltac stepsb := repeat (flow1 || stepb1 || prim1 || (progress (cbv iota))).
(** one round of a loop *)
Ltac roundb :=
  match goal with |- context [brounds ?bx ?body ?def ?k ?v ((?a, ?b) :: ?r) ?s0] =>
    let t := evalb (b_bind bx def k v a b (bpush s0)) in
    let H := fresh in
    pose proof (brounds_cons bx body def k v a b r s0) as H;
    change (b_bind bx def k v a b (bpush s0)) with t in H; rewrite H; clear H
  end.
(** start running a function of the source *)
Ltac open_b :=
  match goal with |- context [bcall ?cx (S ?k) ?f ?args ?s0] =>
    let b := eval lazy in (funcs_b f) in
    match b with Some ?g =>
      let fr := evalb (b_frame g args) in
      let bx := eval lazy in (flat_map addrs (fn_body g)) in
      match fr with Some ?fr1 =>
        let H := fresh in
        pose proof (bcall_unfold cx k f g fr1 bx args s0 eq_refl eq_refl eq_refl) as H;
        rewrite H; clear H;
        try normb (vars s0);
        try match goal with |- context [with_vars ?x ?y] => normb (with_vars x y) end;
        let bd := eval cbv [fn_body] in (fn_body g) in change (fn_body g) with bd
      end
    end
  end.
