(** The command as written does what the model of Cli.v says. *)
From Verif Require Import Base GoValue Constraint Validate Builder Generator Cli SrcSyntax SrcShell SrcCli.
Open Scope Z_scope.
Open Scope string_scope.
Open Scope list_scope.

Section Steps.
  Context {H St R : Type} (p : prims H St R) (fns : string -> option func).
  Lemma execs_nil n e s k ret : execs p fns (S n) e s [] k ret = k e s.
  Proof. reflexivity. Qed.
  Lemma execs_cons n e s c r k ret : execs p fns (S n) e s (c :: r) k ret = exec p fns n e s c (fun e s => execs p fns n e s r k ret) ret.
  Proof. reflexivity. Qed.
  Lemma exec_if n e s c a b k ret :
    exec p fns (S n) e s (SIf None c a b) k ret =
    eval p fns n e s c (fun e s vs =>
      match vs with
      | [WBool true] => execs p fns n ([] :: e) s a (fun e s => k (tl e) s) ret
      | [WBool false] => execs p fns n ([] :: e) s b (fun e s => k (tl e) s) ret
      | _ => p_stuck p
      end).
  Proof. reflexivity. Qed.
  Definition frame (kx vx : option string) (i : Z) (v : sv H) : list (string * sv H) :=
    app (match vx with Some y => [(y, v)] | None => [] end) (match kx with Some y => [(y, WInt i)] | None => [] end).
  Lemma exec_range n e s line kx vx x body k ret :
    exec p fns (S n) e s (SRange line kx vx true x body) k ret =
    eval p fns n e s x (fun e s vs =>
      match vs with
      | [WList l] => loop (fun i v e s k => execs p fns n ([] :: frame kx vx i v :: e) s body (fun e s => k (tl (tl e)) s) ret) l 0 e s k
      | _ => p_stuck p
      end).
  Proof. reflexivity. Qed.
End Steps.

Lemma sset_again {A} k (x y : A) m : sset k x (sset k y m) = sset k x m.
Proof.
  assert (R : String.compare k k = Eq) by (apply compare_refl).
  induction m as [|[k' z] m IH]; cbn [sset].
  - rewrite R. reflexivity.
  - destruct (String.compare k k') eqn:E; cbn [sset]; rewrite ?R; try reflexivity. rewrite E, IH. reflexivity.
Qed.

Ltac nf t := eval lazy -[loop build_with process given js_list as_map sset sget dec_Z String.append read_file length map app repeat set_nth Z.add Z.of_nat Z.to_nat
  h_open h_create h_write h_decode h_readfile h_get h_extract h_names ch_build ch_gen w_files w_stdout o_schema o_outfile o_ptrs o_prefix] in t.
(** run one statement: what comes after it stays as it is *)
Ltac stmt :=
  cbv beta iota; rewrite execs_cons;
  match goal with |- exec ?p ?f ?n ?e ?s ?c ?k ?r = _ =>
    let t := constr:(fun K Rt => exec p f n e s c K Rt) in
    let t' := nf t in
    change (exec p f n e s c k r) with (t' k r); cbv beta
  end.
Ltac expr1 :=
  cbv beta iota; match goal with |- eval ?p ?f ?n ?e ?s ?c ?k = _ =>
    let t := constr:(fun K => eval p f n e s c K) in
    let t' := nf t in
    change (eval p f n e s c k) with (t' k); cbv beta
  end.

Section Agree.
  Context (h : host) (G : genv) (fuel : nat) (ch : choices).
  Context (pn : string -> bool) (serve : string -> option string) (argv : list string) (srv_opts : option string).
  Notation P o := (prims_c h G fuel ch pn serve argv o srv_opts).

  Definition body_cli : list stmt := Eval vm_compute in match funcs_c "_cli" with Some f => fn_body f | None => [] end.
  Lemma src_cli_eq o wd :
    src_cli h G fuel ch pn serve argv o srv_opts wd =
    execs (P o) funcs_c 60 [[]] {| sh_world := wd; sh_count := 0 |} body_cli (fun _ s => leave s []) leave.
  Proof. reflexivity. Qed.

  Definition sch (s : schema) : sv hv := WH (HSchema (Some s)).
  Definition js (x : string * built) : sv hv := WH (HJs (fst x) (snd x)).

  Lemma from_pointer_eq m q : from_pointer h m q =
    match h_get h q m with Some g => match as_map g with Some m2 => h_extract h m2 | None => None end | None => None end.
  Proof.
    unfold from_pointer. destruct (h_get h q m) as [g|]; [|reflexivity]. destruct g; try reflexivity.
    unfold as_map. repeat (match goal with |- context [match ?x with _ => _ end] => is_var x; destruct x; try reflexivity end).
  Qed.
  (** the loop over the pointers *)
  Lemma loop_ptrs (st : Z -> sv hv -> scopes hv -> shst -> (scopes hv -> shst -> res) -> res) (E : list schema -> scopes hv) s m (wd : world) :
    (forall i q ss k, st i (WStr q) (E ss) s k =
       match from_pointer h m q with Some sc => k (E (ss ++ [sc])) s | None => Some (Exit 1, wd) end) ->
    forall qs i ss k, loop st (map WStr qs) i (E ss) s k =
       match all_some (from_pointer h m) qs with Some l => k (E (ss ++ l)) s | None => Some (Exit 1, wd) end.
  Proof.
    intros Hst. induction qs as [|q qs IH]; intros i ss k; cbn [map loop all_some].
    - rewrite app_nil_r. reflexivity.
    - rewrite Hst. destruct (from_pointer h m q) as [sc|]; [|reflexivity]. rewrite IH.
      destruct (all_some (from_pointer h m) qs); [|reflexivity]. rewrite <- app_assoc. reflexivity.
  Qed.

  (** the loop that builds the validators *)
  Definition named (prefix : string) (i : nat) (ps : list built) : list (string * built) :=
    map (fun e => (numbered prefix (fst e), snd e)) (combine (seq i (length ps)) ps).
  Lemma set_nth_app (l : list (sv hv)) v w r : set_nth (length l) v (l ++ w :: r) = Some (l ++ v :: r).
  Proof. induction l as [|a l IH]; [reflexivity|]. cbn [length set_nth app]. rewrite IH. reflexivity. Qed.
  Lemma loop_build (st : Z -> sv hv -> scopes hv -> shst -> (scopes hv -> shst -> res) -> res) (E : list (sv hv) -> scopes hv) prefix D (wd : world) :
    (forall i sc vl k, st (Z.of_nat i) (sch sc) (E vl) {| sh_world := wd; sh_count := i |} k =
       match build_with fuel D sc (ch_build ch i) with
       | Built c rf log =>
           match set_nth i (js (numbered prefix i, (c, rf, log))) vl with
           | Some vl' => k (E vl') {| sh_world := wd; sh_count := S i |}
           | None => None
           end
       | BErr _ => Some (Exit 1, wd)
       | BPanic m => Some (Crash m, wd)
       | BOOF => Some (Loops, wd)
       end) ->
    forall ss done k, 
      loop st (map sch ss) (Z.of_nat (length done)) (E (map js done ++ repeat WNil (length ss))%list)
           {| sh_world := wd; sh_count := length done |} k =
      match build_each fuel D (ch_build ch) (length done) ss with
      | BAll ps => k (E (map js (done ++ named prefix (length done) ps)%list)) {| sh_world := wd; sh_count := length done + length ss |}
      | BStop e => Some (e, wd)
      end.
  Proof.
    intros Hst. induction ss as [|sc ss IH]; intros done k; cbn [map loop build_each length repeat].
    - cbn [named seq combine map]. rewrite !app_nil_r, Nat.add_0_r. reflexivity.
    - rewrite Hst. destruct (build_with fuel D sc (ch_build ch (length done))) as [c rf log|e|e|]; try reflexivity.
      rewrite <- (map_length js done) at 1. rewrite set_nth_app.
      specialize (IH (done ++ [(numbered prefix (length done), (c, rf, log))])%list k).
      rewrite app_length in IH. cbn [length] in IH. rewrite Nat.add_1_r in IH.
      rewrite map_app, <- app_assoc in IH. cbn [map app] in IH.
      replace (Z.of_nat (length done) + 1) with (Z.of_nat (S (length done))) by lia. rewrite IH.
      destruct (build_each fuel D (ch_build ch) (S (length done)) ss) as [ps|e]; [|reflexivity].
      unfold named. cbn [length seq combine map fst snd]. rewrite <- app_assoc. cbn [app].
      rewrite Nat.add_succ_r. reflexivity.
  Qed.
  Lemma js_all l : js_list (map js l) = Some l.
  Proof. induction l as [|[n b] l IH]; [reflexivity|]. cbn [map js js_list fst snd]. change (js_list (js (n,b) :: map js l)) with (option_map (cons (n, b)) (js_list (map js l))). rewrite IH. reflexivity. Qed.
  Lemma named_numbers prefix (F : nat -> string -> built -> validator) ps : forall k,
    map (fun e => let '(i, (name, b)) := e in F i name b)
        (combine (seq k (length ps)) (map (fun e : nat * built => (numbered prefix (fst e), snd e)) (combine (seq k (length ps)) ps)))
    = map (fun e => let '(i, b) := e in F i (numbered prefix i) b) (combine (seq k (length ps)) ps).
  Proof.
    induction ps as [|b r IH]; intros k; [reflexivity|]. cbn [length seq combine map fst snd]. f_equal. apply IH.
  Qed.
  Lemma given_named prefix ps : given (named prefix 0 ps) = validators prefix ps.
  Proof.
    unfold given, validators, named.
    assert (E : forall k, map snd (map (fun e : nat * built => (numbered prefix (fst e), snd e)) (combine (seq k (length ps)) ps)) = ps).
    { induction ps as [|b r IH]; intros k; [reflexivity|]. cbn [length seq combine map snd]. f_equal. apply IH. }
    rewrite E. rewrite map_length, combine_length, seq_length, Nat.min_id.
    etransitivity; [apply (named_numbers prefix (fun i name b => let '(c, rf, log) := b in
      {| v_name := name; v_root := c; v_refs := rf;
         v_same := map fst (filter (is_root (negb (existsb has_hash (firstn i ps))) (c, rf, log)) (merge_refs (map unnamed_of ps))) |})) |].
    apply map_ext. intros [i [[c rf] log]]. reflexivity.
  Qed.

  Definition body_rest : list stmt := Eval vm_compute in skipn 10 body_cli.
  Definition env1 (o : copts) (t : string) (m : list (string * gval)) (ss : list schema) : scopes hv :=
    [[("ptrs", WList (map WStr (o_ptrs o))); ("schemas", WList (map sch ss)); ("m", WH (HMap m)); ("err", WNil);
      ("f", WH (HIn t)); ("opts", WH (HOpts o))]].
  Definition env2 o t m ss (vl : list (sv hv)) : scopes hv :=
    match env1 o t m ss with f :: r => (("validators", WList vl) :: ("b", WH HBuilder) :: f) :: r | [] => [] end.

  Lemma rest_run o t m ss wd K :
    execs (P (Some o)) funcs_c 50 (env1 o t m ss) {| sh_world := wd; sh_count := 0 |} body_rest K leave =
    Some (match build_each fuel (h_names h m) (ch_build ch) 0 ss with
          | BStop e => (e, wd)
          | BAll ps => finish h G o (validators (o_prefix o) ps) (ch_gen ch) wd
          end).
  Proof.
    unfold body_rest, env1. stmt. stmt. cbv beta iota. rewrite execs_cons, exec_range. expr1.
    rewrite map_length, Nat2Z.id.
    match goal with |- loop ?st _ _ _ _ ?k = _ =>
      pose proof (loop_build st (env2 o t m ss) (o_prefix o) (h_names h m) wd) as L end.
    unfold env2, env1 in L.
    match type of L with ?A -> _ => assert (Hst : A) end.
    { clear L. intros i sc vl k. cbv beta iota. unfold frame. cbn [app]. stmt.
      destruct (build_with fuel (h_names h m) sc (ch_build ch i)) as [c rf log|e|e|]; try reflexivity.
      stmt. stmt. unfold numbered. destruct (o_prefix o) as [|a r]; stmt; rewrite Nat2Z.id; unfold js; cbn [fst snd];
        (match goal with |- ?L = match ?w with _ => _ end =>
           match L with context [set_nth ?i' ?v vl] => change (set_nth i' v vl) with w end; destruct w end; reflexivity). }
    specialize (L Hst ss []). cbn [length app map Z.of_nat] in L. rewrite L. clear L Hst.
    destruct (build_each fuel (h_names h m) (ch_build ch) 0 ss) as [ps|e]; [|reflexivity].
    pose proof (js_all (named (o_prefix o) 0 ps)) as Hjs. pose proof (given_named (o_prefix o) ps) as Hgv.
    set (vl := map js (named (o_prefix o) 0 ps)) in *. clearbody vl.
    set (cnt := (0 + length ss)%nat). clearbody cnt.
    stmt. stmt. stmt. unfold finish. destruct (o_outfile o) as [|a r].
    - cbv beta iota. stmt. stmt. rewrite Hjs. cbv beta iota. rewrite Hgv.
      destruct (process G (validators (o_prefix o) ps) (ch_gen ch)) as [[text ?]|e|e]; reflexivity.
    - cbv beta iota. destruct (h_create h (String a r)); [|reflexivity].
      cbv beta iota. stmt. stmt. rewrite Hjs. cbv beta iota. rewrite Hgv.
      destruct (process G (validators (o_prefix o) ps) (ch_gen ch)) as [[text ?]|e|e]; try reflexivity.
      stmt. cbn [w_files w_stdout]. rewrite sset_again. reflexivity.
  Qed.

  (** jspointer.New rejects a text: there is nothing to get with it *)
  Hypothesis Hpn : forall q m, pn q = false -> h_get h q m = None.

  Theorem cli_source o wd : src_cli h G fuel ch pn serve argv o srv_opts wd = Some (cli h G fuel o ch wd).
  Proof.
    rewrite src_cli_eq. unfold body_cli, cli.
    stmt. stmt. destruct o as [o|]; [|reflexivity].
    stmt. unfold read_file. destruct (if h_open h (o_schema o) then sget (o_schema o) (w_files wd) else None) as [t|] eqn:Et.
    2:{ stmt. reflexivity. }
    stmt. stmt. stmt. stmt. destruct (h_decode h t) as [m|]; [|reflexivity].
    stmt. stmt. cbv beta iota. rewrite execs_cons, exec_if. expr1.
    unfold schemas. destruct (o_ptrs o) as [|q qs] eqn:Eq.
    - cbn [map length Z.of_nat Z.eqb]. stmt. unfold read_file. rewrite Et. cbv beta iota.
      destruct (h_readfile h t) as [sc|]; [|stmt; reflexivity].
      stmt. stmt. cbv beta iota. rewrite execs_nil. cbv beta iota delta [tl].
      pose proof (rest_run o t m [sc] wd (fun _ s => leave s [])) as L. unfold body_rest, env1 in L. rewrite Eq in L.
      exact L.
    - cbn [map length]. cbn [Z.of_nat Z.eqb]. cbv beta iota.
      rewrite execs_cons, exec_range. expr1. cbv beta iota.
      match goal with |- loop ?st _ _ _ _ ?k = _ =>
        pose proof (loop_ptrs st (fun ss => [] :: [[("ptrs", WList (map WStr (q :: qs))); ("schemas", WList (map sch ss)); ("m", WH (HMap m)); ("err", WNil);
      ("f", WH (HIn t)); ("opts", WH (HOpts o))]]) {| sh_world := wd; sh_count := 0 |} m wd) as L end.
      match type of L with ?A -> _ => assert (Hst : A) end.
      { clear L. intros i p ss k. cbv beta iota. unfold frame. cbn [app]. rewrite from_pointer_eq. stmt. stmt.
        destruct (pn p) eqn:Ep; cbv beta iota; [|stmt; rewrite (Hpn p m Ep); reflexivity].
        stmt. stmt. destruct (h_get h p m) as [g|]; cbv beta iota; [|stmt; reflexivity].
        stmt. stmt. destruct (as_map g) as [m2|]; cbv beta iota; [|stmt; reflexivity].
        stmt. stmt. stmt. destruct (h_extract h m2) as [sc|]; cbv beta iota; [|reflexivity].
        stmt. cbv beta iota. rewrite execs_nil. cbv beta iota delta [tl]. rewrite map_app. reflexivity. }
      specialize (L Hst (q :: qs) 0 []). cbn [map app] in L |- *. rewrite L. clear L Hst.
      destruct (all_some (from_pointer h m) (q :: qs)) as [ss|]; [|reflexivity].
      cbv beta iota. rewrite execs_nil. cbv beta iota delta [tl].
      pose proof (rest_run o t m ss wd (fun _ s => leave s [])) as L. unfold body_rest, env1 in L. rewrite Eq in L.
      exact L.
  Qed.

  Definition body_main : list stmt := Eval vm_compute in match funcs_c "_main" with Some f => fn_body f | None => [] end.
  Lemma src_main_eq o wd :
    src_main h G fuel ch pn serve argv o srv_opts wd =
    execs (P o) funcs_c 64 [[]] {| sh_world := wd; sh_count := 0 |} body_main (fun _ s => leave s []) leave.
  Proof. reflexivity. Qed.
  (** the first argument names the mode *)
  Definition serving : bool := match argv with _ :: a :: _ => String.eqb a "server" | _ => false end.
  Lemma call_cli o n e s K R : exec (P o) funcs_c (S (S n)) e s (SReturn [ECall (EId "_cli") []]) K R =
    execs (P o) funcs_c n [[]] s body_cli (fun _ s => R s []) (fun s vs => R s vs).
  Proof. reflexivity. Qed.
  Definition body_server : list stmt := Eval vm_compute in match funcs_c "_server" with Some f => fn_body f | None => [] end.
  Lemma call_server o n e s K R : exec (P o) funcs_c (S (S n)) e s (SReturn [ECall (EId "_server") []]) K R =
    execs (P o) funcs_c n [[]] s body_server (fun _ s => R s []) (fun s vs => R s vs).
  Proof. reflexivity. Qed.
  Lemma eval_and o n e s a b k : eval (P o) funcs_c (S n) e s (EBin "&&" a b) k =
    eval (P o) funcs_c n e s a (fun e s vs => match vs with [v] => match v with WBool true => eval (P o) funcs_c n e s b k | WBool false => k e s [v] | _ => None end | _ => None end).
  Proof. reflexivity. Qed.
  Lemma args_long o n s k : eval (P o) funcs_c (S (S (S n))) [[]] s (EBin ">" (ECall (EId "len") [ESel (EId "os") "Args"]) (ENum 1)) k =
    k [[]] s [WBool (Z.gtb (Z.of_nat (length (map (@WStr hv) argv))) 1)].
  Proof. reflexivity. Qed.
  Lemma args_first o n s k : eval (P o) funcs_c (S (S (S n))) [[]] s (EBin "==" (EIdx (ESel (EId "os") "Args") (ENum 1)) (EStr "server")) k =
    match nth_error (map (@WStr hv) argv) 1 with
    | Some w => match compare_eq w (WStr "server") with Some t => k [[]] s [WBool t] | None => None end
    | None => None
    end.
  Proof. reflexivity. Qed.
  Lemma test_serving o n s k :
    eval (P o) funcs_c (S (S (S (S n)))) [[]] s
      (EBin "&&" (EBin ">" (ECall (EId "len") [ESel (EId "os") "Args"]) (ENum 1))
                 (EBin "==" (EIdx (ESel (EId "os") "Args") (ENum 1)) (EStr "server"))) k = k [[]] s [WBool serving].
  Proof.
    rewrite eval_and, args_long. cbv beta iota. rewrite map_length. unfold serving.
    destruct (Z.of_nat (length argv) >? 1) eqn:E.
    - rewrite args_first. destruct argv as [|a0 [|a1 r]]; try discriminate. reflexivity.
    - destruct argv as [|a0 [|a1 r]]; try reflexivity. exfalso. cbn [length] in E. rewrite Z.gtb_ltb in E. apply Z.ltb_ge in E. lia.
  Qed.
  (** the whole command *)
  Theorem main_source o wd :
    src_main h G fuel ch pn serve argv o srv_opts wd =
    Some (if serving
          then (match srv_opts with
                | Some l => match serve l with Some _ => Exit 1 | None => Exit 0 end
                | None => Exit 1
                end, wd)
          else cli h G fuel o ch wd).
  Proof.
    rewrite src_main_eq. unfold body_main. rewrite execs_cons, exec_if, test_serving. destruct serving; cbv beta iota.
    - rewrite execs_cons, call_server. unfold body_server.
      stmt. stmt. destruct srv_opts as [l|]; [|reflexivity].
      stmt. stmt. destruct (serve l); [reflexivity|]. stmt. reflexivity.
    - rewrite execs_nil. cbv beta iota delta [tl]. rewrite execs_cons, call_cli, <- cli_source, src_cli_eq. reflexivity.
  Qed.
End Agree.
