(** Tactics to run the interpreter of SrcGen.v on known code and partly unknown data. *)
From Verif Require Import Base GoFloat GoValue Maybe Formats Constraint StructInfo Validate Builder GoText GoLang Generator SrcSyntax SrcText SrcTextG SrcProg SrcGen SrcProgG.
Open Scope string_scope.
Open Scope list_scope.
Open Scope Z_scope.

Notation mk e B v w := {| qvars := e; qbufs := B; qvals := v; qord := w |}.

(** ** Buffers *)
Lemma bufat_put a x B : (a < List.length B)%nat -> bufat a (bufput a x B) = Some x.
Proof. revert a. induction B as [|y B IH]; intros [|a] H; cbn in *; try lia; [reflexivity|]. apply IH. lia. Qed.
Lemma bufat_other a b x B : a <> b -> bufat a (bufput b x B) = bufat a B.
Proof. revert a b. induction B as [|y B IH]; intros [|a] [|b] H; cbn; try reflexivity; try congruence. apply IH. congruence. Qed.
Lemma bufput_put a x y B : bufput a x (bufput a y B) = bufput a x B.
Proof. revert a. induction B as [|z B IH]; intros [|a]; cbn; try reflexivity. now rewrite IH. Qed.
Lemma bufput_same a x B : bufat a B = Some x -> bufput a x B = B.
Proof. revert a. induction B as [|z B IH]; intros [|a]; cbn; intro H; try congruence. rewrite IH; [reflexivity|exact H]. Qed.
Lemma bufput_length a x B : List.length (bufput a x B) = List.length B.
Proof. revert a. induction B as [|z B IH]; intros [|a]; cbn; try reflexivity. now rewrite IH. Qed.
Lemma bufat_new B x : bufat (List.length B) (B ++ [x]) = Some x.
Proof. unfold bufat. rewrite nth_error_app2 by lia. now rewrite Nat.sub_diag. Qed.
Lemma bufat_lt a B x : bufat a B = Some x -> (a < List.length B)%nat.
Proof. intro H. apply nth_error_Some. unfold bufat in H. congruence. Qed.
Lemma bufput_old a x B k : (a < List.length B)%nat -> bufput a x (B ++ k) = bufput a x B ++ k.
Proof. revert a. induction B as [|z B IH]; intros [|a] H; cbn in *; try lia; [reflexivity|]. rewrite IH by lia. reflexivity. Qed.
Lemma bufput_new B x y : bufput (List.length B) x (B ++ [y]) = B ++ [x].
Proof. induction B as [|z B IH]; cbn; [reflexivity|]. now rewrite IH. Qed.
Lemma firstn_put_new a B x y : firstn (List.length B) (bufput a x (B ++ [y])) = bufput a x B \/ a = List.length B.
Proof.
  destruct (Nat.lt_ge_cases a (List.length B)) as [H|H].
  - left. rewrite bufput_old by exact H. rewrite <- (bufput_length a x B) at 1. now rewrite firstn_app, firstn_all, Nat.sub_diag, app_nil_r.
  - destruct (Nat.eq_dec a (List.length B)) as [E|E]; [now right|left].
    revert a H E. induction B as [|z B IH]; intros [|a] H E; cbn in *; try lia; [destruct a; reflexivity|]. f_equal. apply IH; lia.
Qed.
Lemma write_put a x t B e v w : (a < List.length B)%nat ->
  qwrite a x (mk e (bufput a t B) v w) = QOk [] (mk e (bufput a (t +++ x) B) v w).
Proof. intro H. unfold qwrite. cbn [qbufs]. rewrite (bufat_put a t B H). unfold q_bufs. cbn. now rewrite bufput_put. Qed.
Lemma firstn_put a x y B : firstn (List.length (bufput a y B)) (bufput a x B) = bufput a x B.
Proof. rewrite bufput_length, <- (bufput_length a x B). apply firstn_all. Qed.

(** ** Normalizing *)
Ltac evalq t :=
  eval lazy -[qcall qwrite bufat bufput String.append quote dec_Z fmt_f g_bad rv_float f64_to_int64 trim_suffix fprintf0 qsame sget sset
    shuffle sort_s sort_i mem existsb map app firstn skipn List.length String.length drop_s Z.of_nat Z.to_nat Z.ltb Z.leb Z.sub Z.add of_str q_indexed q_runes
    decode1 qrounds qrun qexec parse_go nth_error prog_g fields_g q_space q_entry q_pat when negb
    s_max s_min s_rx s_fmt s_enum n_amin n_amax n_min n_max n_xmin n_xmax a_items a_pos a_add a_min a_max a_uniq
    o_add o_pats o_props o_propdeps o_req v_name v_root v_refs v_same g_print] in t.
Ltac normq t := let t' := evalq t in progress change t with t'.
Lemma qrun_cons ex x r s : qrun ex (x :: r) s = qends (ex x s) (qrun ex r).
Proof. reflexivity. Qed.
Lemma qcall_unfold G k f g fr args e B v w :
  funcs_g f = Some g -> q_frame g args = Some fr ->
  qcall (prog_g G) (S k) f args (mk e B v w) =
  q_called e (List.length B) (qrun (qexec G fields_g (qcall (prog_g G) k)) (fn_body g) (mk [fr] B v w)).
Proof. intros Hf Ha. cbn [qcall]. change (qc_fns (prog_g G) f) with (funcs_g f). rewrite Hf, Ha. reflexivity. Qed.
Ltac is_qoc o := match o with QNx _ => idtac | QRt _ _ => idtac | QBk _ => idtac | QCt _ => idtac | QPnS _ => idtac | QOfS => idtac | QStkS _ => idtac end.
Ltac is_qev o := match o with QOk _ _ => idtac | QPn _ => idtac | QOf => idtac | QStk _ => idtac end.
(** closed string *)
Ltac is_lit s := lazymatch s with EmptyString => idtac | String ?c ?r => is_lit r end.
Lemma append_nil_r' x : x +++ "" = x.
Proof. induction x as [|c x IH]; cbn; [reflexivity|]. now rewrite IH. Qed.
Lemma append_assoc' x y z : (x +++ y) +++ z = x +++ (y +++ z).
Proof. induction x as [|c x IH]; cbn; [reflexivity|]. now rewrite IH. Qed.

(** the statements whose parts run later *)
Section Rest.
  Variable G : genv.
  Variable F : list (string * ty).
  Variable call : string -> list qv -> qst -> qev (list qv).
  Notation EX := (qexec G F call).
  Definition q_if_value (a b : list stmt) (v : qv) (s : qst) : qoc :=
    match v with QBool c => if c then qblock EX a s else qblock EX b s | _ => QStkS "condition" end.
  Definition q_if_rest (c : expr) (a b : list stmt) (s : qst) : qoc := qlift (q_the (qeval G F call false c s)) (q_if_value a b).
  Definition q_sw_picked (cls : list (option (list expr) * list stmt)) (o : option nat) (s : qst) : qoc :=
    q_clause (qblock EX) cls (match o with Some i => Some i | None => q_default cls end) s.
  Definition q_sw (cls : list (option (list expr) * list stmt)) (v : qv) (s : qst) : qoc := qlift (q_pick G F call v cls s) (q_sw_picked cls).
  Definition q_tsw (cls : list (option (list ty) * list stmt)) (v : qv) (s : qst) : qoc :=
    q_clause (qblock EX) cls (match q_tpick v cls with Some i => Some i | None => q_default cls end) s.
  Definition q_range (k v : option string) (body : list stmt) (x : qv) (s : qst) : qoc := q_over (qrun EX body) k v x s.
End Rest.
Definition q_next body k v l (o : qoc) : qoc :=
  match o with QNx s | QCt s => qrounds body k v l s | QBk s => QNx s | o => o end.
Lemma qrounds_cons body k v a b r s :
  qrounds body k v ((a, b) :: r) s = q_next body k v r (qleave (body (q_bind k v a b (qpush s)))).
Proof. cbn [qrounds]. unfold qround, q_next. destruct (qleave _); reflexivity. Qed.
Ltac qstep1 :=
  match goal with
  | |- context [negb true] => change (negb true) with false
  | |- context [negb false] => change (negb false) with true
  | |- context [String.append ?x EmptyString] => rewrite (append_nil_r' x)
  | |- context [firstn (List.length (bufput ?a ?y ?B)) (bufput ?a ?x ?B)] => rewrite (firstn_put a x y B)
  | |- context [fprintf0 ?s] => is_lit s; let t := eval vm_compute in (fprintf0 s) in change (fprintf0 s) with t
  | |- context [qends ?x ?k] => is_qoc x; let t := eval cbv beta iota delta [qends] in (qends x k) in change (qends x k) with t
  | |- context [qleave ?x] => is_qoc x; normq (qleave x)
  | |- context [q_next ?body ?k ?v ?l ?x] => is_qoc x; let t := eval cbv beta iota delta [q_next] in (q_next body k v l x) in change (q_next body k v l x) with t
  | |- context [q_nobreak ?x] => is_qoc x; normq (q_nobreak x)
  | |- context [@qlift ?A (QOk ?a ?s) ?k] =>
      lazymatch k with
      | q_if_value _ _ _ _ _ => change (@qlift A (QOk a s) k) with (k a s)
      | q_sw _ _ _ _ => change (@qlift A (QOk a s) k) with (k a s)
      | q_tsw _ _ _ _ => change (@qlift A (QOk a s) k) with (k a s)
      | q_sw_picked _ _ _ _ => change (@qlift A (QOk a s) k) with (k a s)
      | q_range _ _ _ _ _ _ => change (@qlift A (QOk a s) k) with (k a s)
      | _ => let t := evalq (k a s) in change (@qlift A (QOk a s) k) with t
      end
  | |- context [@qlift ?A (QPn ?m) ?k] => change (@qlift A (QPn m) k) with (QPnS m)
  | |- context [q_the ?x] => is_qev x; normq (q_the x)
  | |- context [@qthen ?A ?B ?x ?k] => is_qev x; normq (@qthen A B x k)
  | |- context [q_called ?e ?n ?x] => is_qoc x; normq (q_called e n x)
  | |- context [qwrite ?a ?x (mk ?e (bufput ?a ?t ?B) ?v ?w)] => rewrite (write_put a x t B e v w) by (assumption || lia)
  | |- context [qrun ?ex [] ?s] => change (qrun ex [] s) with (QNx s)
  | |- context [qrun ?ex (?x :: ?r) ?s] => rewrite (qrun_cons ex x r s)
  | |- context [q_opt ?ex None ?s] => change (q_opt ex None s) with (QNx s)
  | |- context [q_opt ?ex (Some ?x) ?s] => change (q_opt ex (Some x) s) with (ex x s)
  | |- context [qblock ?ex ?l ?s] => let t := evalq (qpush s) in change (qblock ex l s) with (qleave (qrun ex l t))
  | |- context [q_if_value ?G ?F ?call ?a ?b (QBool true) ?s] => change (q_if_value G F call a b (QBool true) s) with (qblock (qexec G F call) a s)
  | |- context [q_if_value ?G ?F ?call ?a ?b (QBool false) ?s] => change (q_if_value G F call a b (QBool false) s) with (qblock (qexec G F call) b s)
  | |- context [q_if_value ?G ?F ?call ?a ?b (QBool ?c) ?s] =>
      change (q_if_value G F call a b (QBool c) s) with (if c then qblock (qexec G F call) a s else qblock (qexec G F call) b s)
  | |- context [q_if_rest ?G ?F ?call ?c ?a ?b ?s] =>
      let t := evalq (q_the (qeval G F call false c s)) in change (q_if_rest G F call c a b s) with (qlift t (q_if_value G F call a b))
  | |- context [q_sw_picked ?G ?F ?call ?cls ?o ?s] =>
      let t := eval lazy beta iota zeta delta [q_sw_picked q_clause q_default option_map] in (q_sw_picked G F call cls o s) in
      change (q_sw_picked G F call cls o s) with t
  | |- context [q_sw ?G ?F ?call ?cls ?v ?s] =>
      let t := evalq (q_pick G F call v cls s) in change (q_sw G F call cls v s) with (qlift t (q_sw_picked G F call cls))
  | |- context [q_tsw ?G ?F ?call ?cls ?v ?s] =>
      let t := evalq (q_tpick v cls) in
      let t' := eval lazy beta iota zeta delta [q_clause q_default option_map] in
        (q_clause (qblock (qexec G F call)) cls (match t with Some i => Some i | None => q_default cls end) s) in
      change (q_tsw G F call cls v s) with t'
  | |- context [q_range ?G ?F ?call ?k ?v ?body ?x ?s] =>
      let t := evalq (q_items x s) in
      lazymatch t with Some (?l, ?s1) => change (q_range G F call k v body x s) with (qrounds (qrun (qexec G F call) body) k v l s1) end
  | |- context [qexec ?G ?F ?call (SIf ?i ?c ?a ?b) ?s] =>
      let t := evalq (qpush s) in
      change (qexec G F call (SIf i c a b) s) with (qleave (qends (q_opt (qexec G F call) i t) (q_if_rest G F call c a b)))
  | |- context [qexec ?G ?F ?call (SSwitch (Some ?e) ?cls) ?s] =>
      let t := evalq (q_the (qeval G F call false e s)) in
      change (qexec G F call (SSwitch (Some e) cls) s) with (qlift t (q_sw G F call cls))
  | |- context [qexec ?G ?F ?call (STSwitch ?e ?cls) ?s] =>
      let t := evalq (q_the (qeval G F call false e s)) in
      change (qexec G F call (STSwitch e cls) s) with (qlift t (q_tsw G F call cls))
  | |- context [qexec ?G ?F ?call (SRange ?line ?k ?v ?def ?e ?body) ?s] =>
      let t := evalq (q_the (qeval G F call false e s)) in
      change (qexec G F call (SRange line k v def e body) s) with (qlift t (q_range G F call k v body))
  | |- context [qexec ?G ?F ?call (SExpr ?e) ?s] =>
      let t := evalq (qeval G F call false e s) in
      change (qexec G F call (SExpr e) s) with (qlift t (fun _ s1 => QNx s1))
  | |- context [qexec ?G ?F ?call (SReturn [?e]) ?s] =>
      let t := evalq (qeval G F call false e s) in
      change (qexec G F call (SReturn [e]) s) with (qlift t (fun vs1 s1 => QRt vs1 s1))
  | |- context [qexec ?G ?F ?call (SAssign [?l] ?op [?r]) ?s] =>
      let t := evalq (q_the (qeval G F call false r s)) in
      change (qexec G F call (SAssign [l] op [r]) s) with (qlift t (q_assign1 G F call (String.eqb op ":=") l))
  | |- context [qexec ?G ?F ?call (SAssign [?l1; ?l2] ?op [?r]) ?s] =>
      let t := evalq (qeval G F call true r s) in
      change (qexec G F call (SAssign [l1; l2] op [r]) s) with (qlift t (q_assign_all G F call (String.eqb op ":=") [l1; l2]))
  | |- context [qexec ?G ?F ?call SBreak ?s] => change (qexec G F call SBreak s) with (QBk s)
  | |- context [qexec ?G ?F ?call SContinue ?s] => change (qexec G F call SContinue s) with (QCt s)
  end.
Ltac qsteps := repeat (qstep1 || (progress (cbv iota))).
Ltac open_g :=
  match goal with |- context [qcall (prog_g ?G) (S ?k) ?f ?args (mk ?e ?B ?v ?w)] =>
    let b := eval lazy in (funcs_g f) in
    match b with Some ?g =>
      let fr := evalq (q_frame g args) in
      match fr with Some ?fr1 =>
        rewrite (qcall_unfold G k f g fr1 args e B v w eq_refl eq_refl);
        let bd := eval cbv [fn_body] in (fn_body g) in change (fn_body g) with bd
      end
    end
  end.

(** texts up to the grouping of +++ *)
Ltac texts_ := repeat (progress (rewrite ?append_assoc'; cbn [String.append])); rewrite ?append_nil_r'; cbn [String.append].
Ltac same_text := texts_; reflexivity.
(** "if b { fmt.Fprintf(out, ..) }" *)
Ltac cond_write b :=
  match goal with |- context [qends ?x ?k] =>
    let H := fresh "Hw" in
    eassert (H : x = QNx (mk _ (bufput _ (_ +++ when b _) _) _ _));
    [destruct b; qsteps; cbn [when]; [reflexivity|rewrite ?append_nil_r'; reflexivity]
    |rewrite H; clear H]
  end; qsteps.

(** one round of a loop *)
Ltac roundq :=
  match goal with |- context [qrounds ?body ?k ?v ((?a, ?b) :: ?r) ?s] =>
    let t := evalq (q_bind k v a b (qpush s)) in
    let H := fresh in
    pose proof (qrounds_cons body k v a b r s) as H;
    change (q_bind k v a b (qpush s)) with t in H; rewrite H; clear H
  end.
