(** Tactics to run the interpreter of SrcExec.v on known code and partly unknown data. *)
From Verif Require Import Base GoFloat GoValue Maybe Formats Constraint StructInfo Validate SrcSyntax SrcText SrcExec SrcProg.
Open Scope string_scope.
Open Scope list_scope.
Open Scope Z_scope.

(** reading and writing at a place *)
Lemma rread_top d : rread (LVal LRoot) d = valueOf d.
Proof. destruct d; reflexivity. Qed.
Lemma rread_idx l i d T ifc xs : rread l d = RV false (GSlice T ifc (Some xs)) -> rread (LIdx l i) d = RV ifc (nth i xs GNil).
Proof. intro H. cbn [rread]. rewrite H. reflexivity. Qed.
Lemma rwrite_idx l i d y T ifc xs : rread l d = RV false (GSlice T ifc (Some xs)) ->
  rwrite (LIdx l i) y d = rwrite l (GSlice T ifc (Some (set_nth i y xs))) d.
Proof. intro H. cbn [rwrite]. rewrite H. reflexivity. Qed.
Lemma rread_fld l f d x : rread l d = RV false x ->
  rread (LFld l f) d = match field_by_name x f with Some (_, (fi, y)) => RV (f_iface fi) y | None => RZero end.
Proof. intro H. cbn [rread]. rewrite H. reflexivity. Qed.
Lemma rwrite_fld l f d y x : rread l d = RV false x ->
  rwrite (LFld l f) y d = match field_by_name x f with Some (path, _) => rwrite l (set_path path y x) d | None => d end.
Proof. intro H. cbn [rwrite]. rewrite H. reflexivity. Qed.
Lemma rread_key l k d T kk ifc ET m : rread l d = RV false (GMap T kk ifc ET (Some m)) ->
  rread (LKey l k) d = match sget k m with Some x => RV ifc x | None => RZero end.
Proof. intro H. cbn [rread]. rewrite H. reflexivity. Qed.
Lemma rwrite_key l k d y T kk ifc ET m : rread l d = RV false (GMap T kk ifc ET (Some m)) ->
  rwrite (LKey l k) y d = rwrite l (GMap T kk ifc ET (Some (supd k y m))) d.
Proof. intro H. cbn [rwrite]. rewrite H. reflexivity. Qed.

Arguments kind : simpl nomatch.
Arguments valueOf : simpl nomatch.
Arguments elem : simpl nomatch.
Arguments rcontent : simpl nomatch.
Arguments rread : simpl nomatch.
Arguments content : simpl nomatch.
Arguments rwrite : simpl nomatch.

(** normalize, leaving the library of the model alone *)
Ltac evaluated t :=
  eval lazy -[feq fle flt fmod ffloor rv_float f64_of_Z fzero dec_Z sprint shuffle slen Z.ltb Z.leb Z.eqb Z.add Z.sub Z.of_nat Z.to_nat
    String.append ieq cx_E cx_rec cx_gd cx_hit cx_site e_time e_email e_ip e_uri e_rx e_refs runes is_domain_name ipv4_chars ipv6_chars enum_loop
    field_by_name extract m_set m_value m_valid maybe_of is_maybe to_field typ sget supd sset sdel keys set_path set_nth
    call_in funcs addressable convertible m_get m_put m_del List.length List.nth List.repeat key_value ty_eqb implements
    values entries pat_entries rune_entries indexed rounds loop run_list block is_cnil coerce rread content rcontent valueOf elem kind rwrite nth_error zero_rv byte_at byte env_size same_str lift ends_here] in t.
(** the same, comparing strings *)
Ltac compared t :=
  eval lazy -[feq fle flt fmod ffloor rv_float f64_of_Z fzero dec_Z sprint shuffle slen Z.ltb Z.leb Z.eqb Z.add Z.sub Z.of_nat Z.to_nat
    String.append ieq cx_E cx_rec cx_gd cx_hit cx_site e_time e_email e_ip e_uri e_rx e_refs runes is_domain_name ipv4_chars ipv6_chars enum_loop
    field_by_name extract m_set m_value m_valid maybe_of is_maybe to_field typ sget supd sset sdel keys set_path set_nth
    call_in funcs addressable convertible m_get m_put m_del List.length List.nth List.repeat key_value ty_eqb implements
    values entries pat_entries rune_entries indexed rounds loop run_list block is_cnil coerce rread content rcontent valueOf elem kind rwrite nth_error zero_rv byte_at byte env_size lift ends_here] in t.
Ltac norm t := let t' := evaluated t in change t with t'.

(** names for what remains to be done, so that no reduction runs into it *)
Section Rest.
  Variable cx : ctx.
  Variable call : string -> list val -> st -> ev (list val).
  Variable f : string.
  Notation EX := (exec cx call f).
  Definition if_value (a b : list stmt) (v : val) (s : st) : oc :=
    match truth v with Some c => if c then block EX a s else block EX b s | None => StkS "condition" end.
  Definition if_rest (c : expr) (a b : list stmt) (s : st) : oc := lift (the (eval cx call false c s)) (if_value a b).
  Definition switch_picked (cls : list (option (list expr) * list stmt)) (o : option nat) (s : st) : oc :=
    clause (block EX) cls (match o with Some i => Some i | None => default_at cls end) s.
  Definition switch_value (cls : list (option (list expr) * list stmt)) (v : option val) (s : st) : oc := lift (pick cx call v cls s) (switch_picked cls).
  Definition switch_tag (cls : list (option (list expr) * list stmt)) (v : val) (s : st) : oc := switch_value cls (Some v) s.
  Definition range_value line k v def e body (x : val) (s : st) : oc :=
    match items cx f line x s with Some (l, s) => rounds (run_list EX body) e def k v l s | None => StkS "range" end.
  Definition for_rest (c : expr) (p : option stmt) (body : list stmt) (s : st) : oc :=
    loop (fun s => the (eval cx call false c s)) (opt_stmt EX p) (block EX body) (S (env_size (env_ s))) s.
  Lemma exec_if i c a b s : EX (SIf i c a b) s = leave (ends_here (opt_stmt EX i (push s)) (if_rest c a b)).
  Proof. reflexivity. Qed.
  Lemma exec_switch cls s : EX (SSwitch None cls) s = switch_value cls None s.
  Proof. reflexivity. Qed.
  Lemma exec_switch_tag e cls s : EX (SSwitch (Some e) cls) s = lift (the (eval cx call false e s)) (switch_tag cls).
  Proof. cbn. destruct (the (eval cx call false e s)); reflexivity. Qed.
  Lemma exec_range line k v def e body s :
    EX (SRange line k v def e body) s = lift (the (eval cx call false e s)) (range_value line k v def e body).
  Proof. reflexivity. Qed.
  Lemma value_true a b s : if_value a b (VBool true) s = block EX a s.
  Proof. reflexivity. Qed.
  Lemma value_false a b s : if_value a b (VBool false) s = block EX b s.
  Proof. reflexivity. Qed.
End Rest.
Definition next_round body e def k v l (o : oc) : oc :=
  match o with Nx s | Ct s => rounds body e def k v l s | Bk s => Nx s | o => o end.
Lemma rounds_cons body e def k v a b r s :
  rounds body e def k v ((a, b) :: r) s =
  if still e a s then next_round body e def k v r (leave (ends_here (bind_range def k v a b (push s)) body))
  else rounds body e def k v r s.
Proof. cbn [rounds]. destruct (still e a s); [|reflexivity]. unfold next_round. destruct (leave _); reflexivity. Qed.
Definition loop_body cond post body n (o : oc) : oc :=
  match o with
  | Nx s | Ct s => ends_here (post s) (loop cond post body n)
  | Bk s => Nx s
  | o => o
  end.
Definition loop_test cond post body n (b : val) (s : st) : oc :=
  match truth b with
  | Some b => if b then loop_body cond post body n (body s) else Nx s
  | None => StkS "condition"
  end.
Lemma loop_next cond post body n s : loop cond post body (S n) s = lift (cond s) (loop_test cond post body n).
Proof. cbn [loop]. unfold loop_test. destruct (cond s) as [b s'| |]; try reflexivity. cbn [lift]. destruct b; try reflexivity. cbn [truth]. match goal with b : bool |- _ => destruct b; [|reflexivity] end. unfold loop_body. destruct (body s'); reflexivity. Qed.
Lemma run_cons ex x r s : run_list ex (x :: r) s = ends_here (ex x s) (run_list ex r).
Proof. reflexivity. Qed.
Definition called (e : list scope) (o : oc) : ev (list val) :=
  match o with
  | Rt vs s' => Ok vs (with_env e s')
  | Nx s' => Ok [] (with_env e s')
  | AbS r s' => Ab r (with_env e s')
  | StkS m => Stk m
  | Bk _ | Ct _ => Stk "break"
  end.

Lemma rcontent_valueOf g : rcontent (valueOf g) = g.
Proof. destruct g; reflexivity. Qed.
Lemma content_box g d : content (LImm (valueOf g)) d = g.
Proof. destruct g; reflexivity. Qed.
Lemma content_imm b g d : content (LImm (RV b g)) d = g.
Proof. reflexivity. Qed.
Lemma content_root d : content LRoot d = d.
Proof. destruct d; reflexivity. Qed.
Lemma rread_val l d : rread (LVal l) d = valueOf (content l d).
Proof. reflexivity. Qed.
Lemma valueOf_rv g : g <> GNil -> valueOf g = RV false g.
Proof. destruct g; try reflexivity. congruence. Qed.
Lemma rwrite_root y d : rwrite LRoot y d = y.
Proof. reflexivity. Qed.
Lemma rread_imm r d : rread (LImm r) d = r.
Proof. reflexivity. Qed.
Lemma rread_elem l d : rread (LElem l) d = elem (rread l d).
Proof. reflexivity. Qed.
Lemma if_value_b cx call f a b c s : if_value cx call f a b (VBool c) s = if c then block (exec cx call f) a s else block (exec cx call f) b s.
Proof. reflexivity. Qed.

(** outcome of a statement that may end the function with a verdict *)
Definition stmt_res (r : res) (s1 s0 : st) : oc :=
  match r with Pass => Nx s0 | Fail m => Rt [VErr m] s1 | r => AbS r s1 end.
Definition res_ev (r : res) (s : st) : ev (list val) :=
  match r with Pass => Ok [VNil] s | Fail m => Ok [VErr m] s | r => Ab r s end.

Definition is_float (r : rval) : bool := match r with RV false (GFloat _ _ _) => true | _ => false end.
Lemma float_case r :
  (exists T b f, r = RV false (GFloat T b f)) \/
  (same_str (kind r) "float32" = false /\ same_str (kind r) "float64" = false /\ is_float r = false).
Proof.
  destruct r as [|[] [| |T [] ?|T [] ?|T is32 f| | | | | | | |T [] ?]]; try (right; repeat split; reflexivity).
  left. eauto.
Qed.
Lemma kind_f32 T b f : same_str (kind (RV false (GFloat T b f))) "float32" = b.
Proof. destruct b; reflexivity. Qed.
Lemma kind_f64 T b f : same_str (kind (RV false (GFloat T b f))) "float64" = negb b.
Proof. destruct b; reflexivity. Qed.
Lemma either_way {A} (b : bool) (x y : A) : (if b then x else if negb b then x else y) = x.
Proof. destruct b; reflexivity. Qed.
Lemma not_interface g : same_str (kind (valueOf g)) "interface" = false.
Proof. destruct g as [| |T []|T []|T []| | | | | | | |T []]; reflexivity. Qed.
Lemma no_ptr g : same_str (kind (valueOf g)) "ptr" = false -> valueOf g = deref1 g.
Proof. destruct g as [| |T []|T []|T []| | | | | | | |T []]; try reflexivity; discriminate. Qed.

Ltac is_value o := match o with Nx _ => idtac | Rt _ _ => idtac | Bk _ => idtac | Ct _ => idtac | AbS _ _ => idtac | StkS _ => idtac end.

(** reading known values *)
Ltac compare_known :=
  match goal with
  | H : same_str ?a ?b = _ |- context [same_str ?a ?b] => rewrite H
  | H : Z.ltb ?a ?b = _ |- context [Z.ltb ?a ?b] => rewrite H
  | H : Z.leb ?a ?b = _ |- context [Z.leb ?a ?b] => rewrite H
  | H : Z.eqb ?a ?b = _ |- context [Z.eqb ?a ?b] => rewrite H
  | H : ty_eqb ?a ?b = _ |- context [ty_eqb ?a ?b] => rewrite H
  | H : implements ?a = _ |- context [implements ?a] => rewrite H
  | |- context [same_str ?a ?b] =>
    let t := eval lazy in (same_str a b) in
    match t with true => idtac | false => idtac end; change (same_str a b) with t
  | |- context [ty_eqb ?a ?b] =>
    let t := eval lazy in (ty_eqb a b) in
    match t with true => idtac | false => idtac end; change (ty_eqb a b) with t
  end.
Ltac read_known := match goal with
  | H : rread ?l ?d = _ |- context [rread ?l ?d] => rewrite H
  | H : content ?l ?d = _ |- context [content ?l ?d] => rewrite H
  | H : valueOf ?g = _ |- context [valueOf ?g] => rewrite H
  end.
(** closed tests that indexing with a constant needs *)
Lemma at_0 {A} (x : A) l : nth_error (x :: l) 0 = Some x.
Proof. reflexivity. Qed.
Ltac close_known :=
  repeat match goal with
  | |- context [0 <? 0] => change (0 <? 0) with false
  | |- context [Z.to_nat 0] => change (Z.to_nat 0) with 0%nat
  end; rewrite ?at_0.
Ltac settle := progress (close_known; repeat compare_known; repeat read_known; rewrite ?content_box, ?content_imm, ?content_root, ?rread_val, ?rread_elem, ?rread_imm, ?rwrite_root, ?Nat2Z.id; cbn [rcontent valueOf elem kind ikind_s ukind_s okind_s]).
(** one step of the statement that comes next *)
Ltac step1 :=
  match goal with
  | |- context [ends_here ?x ?k] => is_value x; let t := eval cbv beta iota delta [ends_here] in (ends_here x k) in change (ends_here x k) with t
  | |- context [leave ?x] => is_value x; let t := eval lazy beta iota zeta delta [leave pop with_env tl env_ doc ord_w ord_u] in (leave x) in change (leave x) with t
  | |- context [no_break ?x] => is_value x; let t := eval cbv beta iota delta [no_break] in (no_break x) in change (no_break x) with t
  | |- context [called ?e ?x] => is_value x; let t := evaluated (called e x) in change (called e x) with t
  | |- context [lift (Ok ?a ?s0) ?k] =>
      match k with
      | fun x => @?b x => let t := evaluated (k a s0) in change (lift (Ok a s0) k) with t
      | _ => change (lift (Ok a s0) k) with (k a s0)
      end
  | |- context [lift (Ab ?a ?s0) ?k] => change (lift (Ab a s0) k) with (AbS a s0)
  | |- context [if_value ?cx ?call ?f ?a ?b (VBool true) ?s0] => change (if_value cx call f a b (VBool true) s0) with (block (exec cx call f) a s0)
  | |- context [if_value ?cx ?call ?f ?a ?b (VBool false) ?s0] => change (if_value cx call f a b (VBool false) s0) with (block (exec cx call f) b s0)
  | |- context [if_rest ?cx ?call ?f ?c ?a ?b ?s0] =>
      let t := evaluated (the (eval cx call false c s0)) in
      change (if_rest cx call f c a b s0) with (lift t (if_value cx call f a b))
  | |- context [switch_tag ?cx ?call ?f ?cls ?v ?s0] =>
      let t := match v with VKind (String _ _) => compared (pick cx call (Some v) cls s0) | _ => evaluated (pick cx call (Some v) cls s0) end in
      change (switch_tag cx call f cls v s0) with (lift t (switch_picked cx call f cls))
  | |- context [switch_value ?cx ?call ?f ?cls ?v ?s0] =>
      let t := evaluated (pick cx call v cls s0) in
      change (switch_value cx call f cls v s0) with (lift t (switch_picked cx call f cls))
  | |- context [switch_picked ?cx ?call ?f ?cls ?o ?s0] =>
      let t := eval lazy beta iota zeta delta [switch_picked clause default_at option_map] in (switch_picked cx call f cls o s0) in
      change (switch_picked cx call f cls o s0) with t
  | |- context [next_round ?body ?e ?def ?k ?v ?l ?x] => is_value x;
      let t := eval cbv beta iota delta [next_round] in (next_round body e def k v l x) in change (next_round body e def k v l x) with t
  | |- context [range_value ?cx ?call ?f ?line ?k ?v ?def ?e ?body ?x ?s0] =>
      let t := evaluated (items cx f line x s0) in
      match t with Some (?l, ?s1) =>
        change (range_value cx call f line k v def e body x s0) with (rounds (run_list (exec cx call f) body) e def k v l s1)
      end
  | |- context [lift ?x ?k] => progress norm x
  | |- context [loop_test ?c ?p ?b ?n (VBool true) ?s0] => change (loop_test c p b n (VBool true) s0) with (loop_body c p b n (b s0))
  | |- context [loop_test ?c ?p ?b ?n (VBool false) ?s0] => change (loop_test c p b n (VBool false) s0) with (Nx s0)
  | |- context [loop_body ?c ?p ?b ?n ?x] => is_value x;
      let t := eval cbv beta iota delta [loop_body] in (loop_body c p b n x) in change (loop_body c p b n x) with t
  | |- context [run_list ?ex [] ?s0] => change (run_list ex [] s0) with (Nx s0)
  | |- context [run_list ?ex (?x :: ?r) ?s0] => rewrite (run_cons ex x r s0)
  | |- context [block ?ex ?l ?s0] => let t := evaluated (push s0) in change (block ex l s0) with (leave (run_list ex l t))
  | |- context [opt_stmt ?ex None ?s0] => change (opt_stmt ex None s0) with (Nx s0)
  | |- context [opt_stmt ?ex (Some ?x) ?s0] => change (opt_stmt ex (Some x) s0) with (ex x s0)
  | |- context [exec ?cx ?call ?f (SIf ?i ?c ?a ?b) ?s0] =>
      let t := evaluated (push s0) in
      change (exec cx call f (SIf i c a b) s0) with (leave (ends_here (opt_stmt (exec cx call f) i t) (if_rest cx call f c a b)))
  | |- context [exec ?cx ?call ?f (SSwitch None ?cls) ?s0] => rewrite (exec_switch cx call f cls s0)
  | |- context [exec ?cx ?call ?f (SSwitch (Some ?e) ?cls) ?s0] =>
      rewrite (exec_switch_tag cx call f e cls s0); norm (the (eval cx call false e s0)); try settle
  | |- context [exec ?cx ?call ?f (SRange ?line ?k ?v ?def ?e ?body) ?s0] =>
      let t := evaluated (the (eval cx call false e s0)) in
      change (exec cx call f (SRange line k v def e body) s0) with (lift t (range_value cx call f line k v def e body))
  | |- context [exec ?cx ?call ?f (SFor ?line ?i (Some ?c) ?p ?body) ?s0] =>
      let t := evaluated (push s0) in
      change (exec cx call f (SFor line i (Some c) p body) s0) with (leave (ends_here (opt_stmt (exec cx call f) i t) (for_rest cx call f c p body)))
  | |- context [exec ?cx ?call ?f (SReturn ?l) ?s0] => norm (exec cx call f (SReturn l) s0)
  | |- context [exec ?cx ?call ?f (SAssign ?l ?op ?r) ?s0] => norm (exec cx call f (SAssign l op r) s0)
  | |- context [exec ?cx ?call ?f (SExpr ?e) ?s0] => norm (exec cx call f (SExpr e) s0)
  | |- context [exec ?cx ?call ?f (SInc ?e ?op) ?s0] => norm (exec cx call f (SInc e op) s0)
  | |- context [exec ?cx ?call ?f (SVar ?x ?t ?e) ?s0] => norm (exec cx call f (SVar x t e) s0)
  | |- context [exec ?cx ?call ?f (SDefer ?e) ?s0] => norm (exec cx call f (SDefer e) s0)
  | |- context [exec ?cx ?call ?f SContinue ?s0] => change (exec cx call f SContinue s0) with (Ct s0)
  | |- context [exec ?cx ?call ?f SBreak ?s0] => change (exec cx call f SBreak s0) with (Bk s0)
  end.
(** one round of a loop *)
Ltac round1 :=
  rewrite rounds_cons;
  match goal with |- context [still ?e ?a ?s0] => norm (still e a s0) end;
  match goal with |- context [bind_range ?def ?k ?v ?a ?b ?s0] => norm (bind_range def k v a b s0) end;
  cbv iota.
Ltac steps := repeat (step1 || settle).

Lemma call_unfold cx k f g args s :
  funcs f = Some g -> List.length args = arity g ->
  call_in funcs cx (S k) f args s = called (env_ s) (run_list (exec cx (call_in funcs cx k) f) (fn_body g) (with_env [frame g args] s)).
Proof.
  intros Hf Ha. cbn [call_in]. rewrite Hf. unfold call_func. rewrite Ha, Nat.eqb_refl. reflexivity.
Qed.
(** arguments that are passed as the same values *)
Lemma call_frame cx k f g args args' s :
  funcs f = Some g -> List.length args = List.length args' -> frame g args = frame g args' ->
  call_in funcs cx (S k) f args s = call_in funcs cx (S k) f args' s.
Proof. intros Hf Hl Hp. cbn [call_in]. rewrite Hf. unfold call_func. rewrite Hl, Hp. reflexivity. Qed.
Ltac pass_as l :=
  match goal with |- context [call_in funcs ?cx (S ?k) ?f ?args ?s0] =>
    let b := eval lazy in (funcs f) in
    match b with Some ?g => rewrite (call_frame cx k f g args l s0 eq_refl eq_refl eq_refl) end
  end.
(** start running a function of the source *)
Ltac open_call :=
  match goal with |- context [call_in funcs ?cx ?k ?f ?args ?s0] =>
    let k1 := eval lazy in (pred k) in
    let f1 := evaluated f in
    let b := eval lazy in (funcs f1) in
    match b with Some ?g =>
      change (call_in funcs cx k f args s0) with (call_in funcs cx (S k1) f1 args s0);
      let H := fresh in
      pose proof (call_unfold cx k1 f1 g args s0 eq_refl eq_refl) as H;
      rewrite H; clear H;
      norm (env_ s0); norm (with_env [frame g args] s0);
      let bd := eval cbv [fn_body] in (fn_body g) in change (fn_body g) with bd
    end
  end.

Ltac split_value v := destruct v as [|T b|T []|T []|T []| |T ifc [l|]|T kk ifc ET [m|]|T a [[i x]|]| | | |T [] [] id].
(** the statement before the rest gives a verdict or goes on in state s0 *)
Ltac joined_at r s0 :=
  match goal with |- called ?e (ends_here ?X ?K) = res_ev _ ?s2 =>
    let H := fresh "H" in let s1 := fresh "s1" in
    assert (H : exists s1, X = stmt_res r s1 s0 /\ with_env e s1 = s2); [|destruct H as (s1 & H & ?); rewrite H; clear H]
  end.
Ltac joined r :=
  match goal with |- called ?e (ends_here ?X ?K) = res_ev _ ?s2 =>
    match X with context [if_value _ _ _ _ _ _ ?s] => let s0 := evaluated (pop s) in joined_at r s0 end
  end.
Ltac verdict := match goal with |- exists s, _ /\ with_env _ s = ?s2 =>
  first [eexists; split; reflexivity | exists s2; split; reflexivity] end.
(** "switch rv.Kind() { case reflect.Ptr, reflect.Interface: rv = rv.Elem() }" has run *)
Ltac after_deref lx d env0 :=
  match goal with |- called ?e (ends_here ?X (run_list ?ex ?rest)) = ?R =>
    let H := fresh "H" in
    enough (H : forall lr, rread lr d = deref1 (content lx d) -> called e (run_list ex rest (env0 lr)) = R);
    [rewrite not_interface;
     let Hp := fresh "Hp" in
     destruct (same_str (kind (valueOf (content lx d))) "ptr") eqn:Hp;
     repeat (lazymatch goal with |- called _ (run_list _ rest _) = _ => fail | _ => step1 || settle end);
     [exact (H (LElem (LVal lx)) eq_refl) |exact (H (LVal lx) (no_ptr _ Hp))]
    |let lr := fresh "lr" in let Hr := fresh "Hr" in intros lr Hr]
  end.

(** a call ended as the model says *)
Definition ended (e : list scope) (o : ev (list val)) (b : out) : Prop :=
  let '(r, v, w) := b in
  exists r' u, o = res_ev r' {| env_ := e; doc := v; ord_w := w; ord_u := u |} /\ same_res r' r.
Lemma ended_agrees o b : ended [] o b -> agrees (error_res o) b.
Proof.
  destruct b as [[r v] w]. intros (r' & u & -> & H). exists r', u. split; [|exact H]. destruct r'; reflexivity.
Qed.
Lemma ended_here e r v w u : ended e (res_ev r {| env_ := e; doc := v; ord_w := w; ord_u := u |}) (r, v, w).
Proof. exists r, u. split; [reflexivity|]. destruct r; reflexivity || exact I. Qed.
Ltac ended_ := lazymatch goal with
  | |- ended _ (Ok [VNil] _) _ => eexists Pass, _; split; [reflexivity|reflexivity]
  | |- ended _ (Ok [VErr ?m] _) _ => eexists (Fail m), _; split; [reflexivity|reflexivity]
  | |- ended _ (Ab ?r _) _ => eexists r, _; split; [reflexivity|reflexivity || exact I]
  end.
(** the call of a child's Validate that comes next ends as the model says *)
Ltac child_agrees H :=
  let r' := fresh "r'" in let u' := fresh "u'" in let Hs := fresh "Hs" in let He := fresh "He" in
  let r := fresh "r" in let d' := fresh "d'" in let w' := fresh "w'" in let Hm := fresh "Hm" in
  match type of H with agrees ?a (?m ?c ?v ?w) =>
    destruct (m c v w) as [[r d'] w'] eqn:Hm; destruct H as (r' & u' & He & Hs); rewrite He; clear He;
    destruct r', r; try discriminate Hs; try (injection Hs as <-); try clear Hs
  end.

(** the same as [joined_at], for [ended] *)
Ltac joined_e r s0 :=
  match goal with |- ended ?e (called ?e (ends_here ?X ?K)) _ =>
    let H := fresh "H" in let s1 := fresh "s1" in let Hs := fresh "Hs" in
    let s2 := evaluated (with_env e s0) in
    assert (H : exists s1, X = stmt_res r s1 s0 /\ with_env e s1 = s2); [|destruct H as (s1 & H & Hs); rewrite H; clear H]
  end.
Ltac failed := match goal with Hs : with_env ?e ?s1 = _ |- ended ?e (called ?e (ends_here (stmt_res ?r ?s1 ?s0) ?K)) _ =>
  match r with
  | Fail ?m => change (called e (ends_here (stmt_res r s1 s0) K)) with (Ok [VErr m] (with_env e s1))
  | _ => change (called e (ends_here (stmt_res r s1 s0) K)) with (@Ab (list val) r (with_env e s1))
  end; rewrite Hs; ended_ end.
Ltac passed_on := match goal with Hs : with_env _ ?s1 = _ |- context [stmt_res Pass ?s1 ?s0] =>
  change (stmt_res Pass s1 s0) with (Nx s0); clear s1 Hs end.
