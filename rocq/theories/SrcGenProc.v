(** Generator.Process of generator.go, run from its source text. *)
From Coq Require Import Permutation.
From Verif Require Import Base GoFloat GoValue Maybe Formats Constraint ConstrInd StructInfo Validate Builder GoText GoLang Generator GenRound SrcSyntax SrcText SrcTextG SrcProg SrcGen SrcProgG SrcStepG SrcGenFun SrcGenLoop SrcGenTree SrcGenObj SrcGenCode SrcGenAll SrcGenVal SrcGenMerge.
Open Scope string_scope.
Open Scope list_scope.
Open Scope Z_scope.

(** Process writes into its buffer 1; those of the references follow *)
Lemma write1 x e t J v w : qwrite 1 x (mk e ("" :: t :: J) v w) = QOk [] (mk e ("" :: (t +++ x) :: J) v w).
Proof. reflexivity. Qed.
Lemma write0 x e a J v w : qwrite 0 x (mk e (a :: J) v w) = QOk [] (mk e ((a +++ x) :: J) v w).
Proof. reflexivity. Qed.
Lemma bufat1 a b J : bufat 1 (a :: b :: J) = Some b.
Proof. reflexivity. Qed.
Ltac psteps := repeat (qstep1 || (progress (cbv iota)) || rewrite write1).

Section Proc.
Variable G : genv.

(** a statement of Process *)
Definition pwrote (o : qoc) (r : gres (string * orc)) (t : string) e v : Prop :=
  match r with
  | GOk (x, w') => exists J, o = QNx (mk e ("" :: (t +++ x) :: J) v w')
  | GErr m => exists m' s, o = QRt [QErr m'] s /\ starts m m' = true
  | GPanic _ => exists m', o = QPnS m'
  end.
(** the call *)
Definition pgives (o : qev (list qv)) (r : gres (string * orc)) v : Prop :=
  match r with
  | GOk (x, w') => o = QOk [QNil] (mk [] [x] v w')
  | GErr m => exists m' s, o = QOk [QErr m'] s /\ starts m m' = true
  | GPanic _ => exists m', o = QPn m'
  end.
Lemma then_p o (m : gm string) f K t env v w :
  pwrote o (m w) t env v ->
  (forall x w1 J, m w = GOk (x, w1) -> pgives (q_called [] 1 (K (mk env ("" :: (t +++ x) :: J) v w1))) (f x w1) v) ->
  pgives (q_called [] 1 (qends o K)) (gbind m f w) v.
Proof.
  unfold gbind. destruct (m w) as [[x w1]|m1|m1]; cbn [pwrote].
  - intros (J & ->) H. exact (H x w1 J eq_refl).
  - intros (m' & s & -> & Hs) _. cbn [qends q_called]. do 2 eexists. split; [reflexivity|exact Hs].
  - intros (m' & ->) _. eexists; reflexivity.
Qed.
Lemma then_pw o (m : gm string) f K t1 t env e v w :
  pwrote o (m w) t1 env v ->
  (forall x w1 J, m w = GOk (x, w1) -> pwrote (K (mk env ("" :: (t1 +++ x) :: J) v w1)) (f x w1) t e v) ->
  pwrote (qends o K) (gbind m f w) t e v.
Proof.
  unfold gbind. destruct (m w) as [[x w1]|m1|m1]; cbn [pwrote].
  - intros (J & ->) H. exact (H x w1 J eq_refl).
  - intros (m' & s & -> & Hs) _. cbn [qends]. do 2 eexists. split; [reflexivity|exact Hs].
  - intros (m' & ->) _. eexists; reflexivity.
Qed.
Lemma leave_p o r t l env v : pwrote o r t (l :: env) v -> pwrote (qleave o) r t env v.
Proof.
  destruct r as [[x w1]|m1|m1]; cbn [pwrote].
  - intros (J & ->). exists J. reflexivity.
  - intros (m' & s & -> & Hs). do 2 eexists. split; [reflexivity|exact Hs].
  - intros (m' & ->). eexists; reflexivity.
Qed.

Lemma gbind_assoc {A B C} (m : gm A) (f : A -> gm B) (g : B -> gm C) w : gbind (gbind m f) g w = gbind m (fun x => gbind (f x) g) w.
Proof. unfold gbind. destruct (m w) as [[x w1]| |]; reflexivity. Qed.
Lemma rounds_p {X} (f : X -> qv) (g : X -> gm string) body kk vv env v l :
  (forall x i t J w, In x l -> pwrote (qround body kk vv (QInt i) (f x) (mk env ("" :: t :: J) v w)) (g x w) t env v) ->
  forall i t J w, pwrote (qrounds body kk vv (q_indexed i (map f l)) (mk env ("" :: t :: J) v w)) (gconcat (map g l) w) t env v.
Proof.
  intros H. induction l as [|x l IH]; intros i t J w; cbn [map q_indexed qrounds gconcat].
  { cbn. exists J. now rewrite append_nil_r'. }
  pose proof (H x i t J w (or_introl eq_refl)) as Hx. unfold gbind at 1.
  destruct (g x w) as [[y w1]|m|m]; cbn [pwrote] in Hx.
  - destruct Hx as (J1 & ->). specialize (IH (fun x0 i0 t0 J0 w0 Hin => H x0 i0 t0 J0 w0 (or_intror Hin)) (i + 1) (t +++ y) J1 w1).
    unfold gbind. destruct (gconcat (map g l) w1) as [[z w2]|m|m]; cbn [pwrote gret] in *; [|exact IH..].
    destruct IH as (J2 & ->). exists J2. rewrite append_assoc'. reflexivity.
  - destruct Hx as (m' & s & -> & Hs). cbn. do 2 eexists. split; [reflexivity|exact Hs].
  - destruct Hx as (m' & ->). eexists; reflexivity.
Qed.
(** a loop over strings that writes *)
Lemma rounds_text (g : string -> string) body kk vv env v J w l :
  (forall x i t, In x l -> qround body kk vv (QInt i) (QStr x) (mk env ("" :: t :: J) v w) = QNx (mk env ("" :: (t +++ g x) :: J) v w)) ->
  forall i t, qrounds body kk vv (q_indexed i (map QStr l)) (mk env ("" :: t :: J) v w) = QNx (mk env ("" :: (t +++ join "" (map g l)) :: J) v w).
Proof.
  intro H. induction l as [|x l IH]; intros i t; cbn [map q_indexed qrounds]; [cbn; now rewrite append_nil_r'|].
  rewrite H by now left. rewrite IH by (intros; apply H; now right). rewrite join_cons, append_assoc'. reflexivity.
Qed.

Lemma map_fst_combine {A C} (l : list A) (m : list C) : List.length l = List.length m -> map fst (combine l m) = l.
Proof. revert m. induction l as [|x l IH]; intros [|y m] H; try discriminate; [reflexivity|]. cbn. f_equal. apply IH. now injection H. Qed.
Ltac text_loop g :=
  match goal with |- context [qrounds ?body ?kk ?vv (q_indexed 0 (map QStr ?l)) (mk ?env ("" :: ?t :: ?J) ?v ?w)] =>
    rewrite (rounds_text g body kk vv env v J w l)
  end; [|].
Ltac same_state := texts_; reflexivity.
Definition map_name (refs : list (string * constr)) : string := match refs with [] => "" | _ => "M" end.
Definition ref_vars (refs : list (string * constr)) : list (string * string) := combine (sort_s (keys refs)) (map ref_var (seq 0 (List.length (keys refs)))).
Definition ref_map (refs : list (string * constr)) : list (string * qv) := fold_left (fun m e => sset (fst e) (QStr (snd e)) m) (ref_vars refs) [].

Definition refs_code (refs : list (string * constr)) : gm string :=
  match refs with
  | [] => gret ""%string
  | _ =>
      get body <- gconcat (map (fun e =>
          get x <- match sget (fst e) refs with Some c => emit G (map_name refs) c | None => gret ""%string end;
          gret (nl +++ snd e +++ " = " +++ strip x)) (ref_vars refs));
      gret (nl +++ "M = &jsval.ConstraintMap{}" +++ body +++
            join "" (map (fun e => nl +++ "M.SetReference(" +++ quote (g_print G) (fst e) +++ ", " +++ snd e +++ ")") (ref_vars refs)))
  end.
Definition vals_code (refs : list (string * constr)) (l : list validator) : gm string :=
  gconcat (map (fun v => get x <- validator_code G (map_name refs) (ref_vars refs) refs v; gret (nl +++ v_name v +++ " = " +++ x)) l).
Definition names_text (l : list string) : string := join "" (map (fun n => nl +++ "var " +++ n +++ " *jsval.JSVal") l).
Definition vars_text (refs : list (string * constr)) : string :=
  match refs with
  | [] => ""%string
  | _ => nl +++ "var M *jsval.ConstraintMap" +++ join "" (map (fun e => nl +++ "var " +++ snd e +++ " jsval.Constraint") (ref_vars refs))
  end.
Lemma process_text_run vs w : process_text G vs w =
  (get rcode <- refs_code (merge_refs vs);
   get vcode <- vals_code (merge_refs vs) (sort_v (name_all vs));
   gret (names_text (sort_s (map v_name (name_all vs))) +++ vars_text (merge_refs vs) +++ nl +++ "func init() {" +++ rcode +++ vcode +++ nl +++ "}"))
  (skipn (List.length (merge_refs vs)) w).
Proof.
  unfold process_text. unfold gbind at 1. rewrite sorted_names_run, shuffle_rest.
  assert (E : sort_s (map fst (fst (shuffle w (merge_refs vs)))) = sort_s (keys (merge_refs vs))).
  { apply sort_perm. apply Permutation_map. destruct (shuffle w (merge_refs vs)) as [p w1] eqn:Es. apply shuffle_perm in Es. now apply Permutation_sym. }
  rewrite E, length_sort_s. reflexivity.
Qed.

Lemma process_eq vs w : process G vs w =
  (get rcode <- refs_code (merge_refs vs);
   get vcode <- vals_code (merge_refs vs) (sort_v (name_all vs));
   let s := names_text (sort_s (map v_name (name_all vs))) +++ vars_text (merge_refs vs) +++ nl +++ "func init() {" +++ rcode +++ vcode +++ nl +++ "}" in
   match parse_go s with Some _ => gret s | None => gfail "syntax error" end)
  (skipn (List.length (merge_refs vs)) w).
Proof.
  unfold process. unfold gbind at 1. rewrite process_text_run. unfold gbind.
  destruct (refs_code (merge_refs vs) _) as [[x w1]| |]; [|reflexivity..].
  destruct (vals_code _ _ _) as [[y w2]| |]; reflexivity.
Qed.
Lemma ref_vars_fst refs : map fst (ref_vars refs) = sort_s (keys refs).
Proof.
  unfold ref_vars. apply map_fst_combine. now rewrite map_length, seq_length, length_sort_s.
Qed.
Lemma ref_vars_get refs e : ssorted refs -> In e (ref_vars refs) ->
  sget (fst e) (ref_map refs) = Some (QStr (snd e)) /\ (exists c, sget (fst e) refs = Some c) /\ sget (fst e) (ref_vars refs) = Some (snd e).
Proof.
  intros Hs Hin. assert (Hn : NoDup (map fst (ref_vars refs))).
  { rewrite ref_vars_fst. eapply Permutation_NoDup; [apply Permutation_sym, sort_perm_self|]. now apply ssorted_nodup. }
  assert (Hv : sget (fst e) (ref_vars refs) = Some (snd e)) by (destruct e; apply nodup_sget; assumption).
  split; [|split; [|exact Hv]].
  - unfold ref_map. rewrite (vars_get QStr) by exact Hn. now rewrite Hv.
  - apply sget_some_keys. apply (in_map fst) in Hin. rewrite ref_vars_fst in Hin. eapply Permutation_in; [apply sort_perm_self|exact Hin].
Qed.

Lemma name_all_length vs : List.length (name_all vs) = List.length vs.
Proof. unfold name_all. rewrite map_length, combine_length, seq_length. apply Nat.min_id. Qed.
Lemma named_root i v : v_root (named i v) = v_root v.
Proof. unfold named. destruct (v_name v); reflexivity. Qed.
Lemma name_all_root vs v : In v (name_all vs) -> exists u, In u vs /\ v_root v = v_root u.
Proof.
  unfold name_all. intro H. apply in_map_iff in H as ([i u] & <- & H). apply in_combine_r in H. exists u. split; [exact H|apply named_root].
Qed.
Lemma map_snd_combine {A C} (l : list A) (m : list C) : List.length l = List.length m -> map snd (combine l m) = m.
Proof. revert m. induction l as [|x l IH]; intros [|y m] H; try discriminate; [reflexivity|]. cbn. f_equal. apply IH. now injection H. Qed.
Lemma combine_nth (V us : list validator) js j u : map (nth_error V) js = map Some us -> In (j, u) (combine js us) -> nth_error V j = Some u.
Proof.
  revert us. induction js as [|i js IH]; intros [|x us] H Hin; try discriminate; [destruct Hin..|]. cbn in H. injection H as Hi Hr.
  destruct Hin as [E|Hin]; [injection E as <- <-; exact Hi|]. exact (IH us Hr Hin).
Qed.

Ltac vals_round Hcode u Hj :=
  match goal with |- context [qcall (prog_g ?G) ?k ?f [_; QBuf 1; QVal ?j] (mk ?env ("" :: ?t1 :: ?J) ?V ?w)] =>
    let He := fresh "He" in
    pose proof (Hcode j u t1 J env w Hj) as He; unfold ctxv in He; cbn [map_name] in He |- *;
    unfold gbind;
    let x := fresh "x" in let w1 := fresh "w1" in let m := fresh "m" in
    let m' := fresh "m'" in let t' := fresh "t'" in let w' := fresh "w'" in let Hs := fresh "Hs" in
    match goal with |- context [validator_code ?G ?c ?rv ?rf u w] => destruct (validator_code G c rv rf u w) as [[x w1]|m|m] end;
    cbn [gives] in He;
    [rewrite He; clear He; psteps; unfold pwrote; cbn [gret]; exists J; newline; change (bufput 1 ?z ("" :: "" :: J)) with ("" :: z :: J); same_state
    |destruct He as (m' & t' & w' & He & Hs); rewrite He; clear He; psteps; do 2 eexists; split; [reflexivity|exact Hs]
    |destruct He as (m' & He); rewrite He; clear He; psteps; eexists; reflexivity]
  end.
Ltac vals_loop Hcode Hsort rf :=
  match type of Hsort with map (nth_error ?V) (sort_i ?V ?is) = _ =>
    match goal with |- context [qrounds ?body None (Some "v") ?es (mk ?env ("" :: ?t :: ?J) V ?w)] =>
      assert (L : pwrote (qrounds body None (Some "v") es (mk env ("" :: t :: J) V w)) (vals_code rf (sort_v V) w) t env V)
    end;
    [ replace (map QVal (sort_i V is)) with (map (fun e => QVal (fst e)) (combine (sort_i V is) (sort_v V)));
      [|rewrite <- (map_map fst QVal), map_fst_combine; [reflexivity|]; apply (f_equal (@List.length _)) in Hsort; now rewrite !map_length in Hsort];
      unfold vals_code; try match goal with H : ?c = map_name ?r |- _ => rewrite <- H end; replace (sort_v V) with (map snd (combine (sort_i V is) (sort_v V))) at 2;
      [|apply map_snd_combine; apply (f_equal (@List.length _)) in Hsort; now rewrite !map_length in Hsort];
      rewrite map_map; apply rounds_p;
      let j := fresh "j" in let u := fresh "u" in let i := fresh "i" in let t := fresh "t" in let J := fresh "J" in let w0 := fresh "w0" in
      let Hin := fresh "Hin" in let Hj := fresh "Hj" in
      intros [j u] i t J w0 Hin; cbn [fst snd];
      assert (Hj : nth_error V j = Some u) by (eapply combine_nth; eassumption);
      in_round; psteps; rewrite Hj; psteps; vals_round Hcode u Hj
    | ]
  end.

Lemma runes_j y : exists l, q_runes 0 0 (String "j" y) = (QInt 0, QInt 106) :: l.
Proof. eexists. reflexivity. Qed.
Ltac finish_ :=
  rewrite bufat1; psteps;
  match goal with |- context [gret ?mt] =>
    match goal with |- context [QStr ?st] =>
      lazymatch st with context [String "}"%char ""] => replace mt with st by (newline; same_text) end
    end
  end;
  match goal with |- context [parse_go ?mt] => destruct (parse_go mt) end;
  [psteps; rewrite write0; psteps; unfold pgives, gret; reflexivity
  |psteps; rewrite bufat1; psteps; unfold pgives, gfail; do 2 eexists; split; [reflexivity|apply starts_refl]].

Lemma process_run vs refs k (Hrf : merge_refs vs = refs) (Hsr : ssorted refs) (Hrefs : Forall (fun v => ssorted (v_refs v)) vs)
  (Hroot : forall v, In v vs -> gen_at G (map_name refs) (QMap (of_ref refs)) (QMap (ref_map refs)) k (v_root v))
  (Href : forall n c, sget n refs = Some c -> gen_at G (map_name refs) (QMap (of_ref refs)) (QMap (ref_map refs)) (S (S k)) c)
  w w' : skipn (refs_count vs) w = skipn (List.length refs) w' ->
  pgives (qcall (prog_g G) (S (S (S k))) "Generator.Process" [QNil; QBuf 0; QVals (seq 0 (List.length vs))] (mk [] [""] vs w))
    (process G vs w') (name_all vs).
Proof.
  intro Hw.
  remember (seq 0 (List.length vs)) as is eqn:His.
  open_g. rewrite qrun_cons.
  match goal with |- context [qends ?x _] => let t := eval vm_compute in x in change x with t end.
  psteps.
  change (List.length [""]) with 1%nat. change ([""] ++ [""]) with ["";""].
  match goal with |- context [qrounds ?body (Some "i") (Some "v") _ (mk [[_; _; _; ?b; ?c; ?g; ?o; ?vv]] _ _ _)] =>
    assert (L : forall suf pre m M xs ns w, M = of_ref m ->
       qrounds body (Some "i") (Some "v") (q_indexed (Z.of_nat (List.length pre)) (map QVal (seq (List.length pre) (List.length suf))))
         (mk [[("valnames", QStrs ns); ("refnames", QStrs xs); ("refs", QMap M); b; c; g; o; vv]] ["";""] (pre ++ suf) w) =
       let '(m', xs', w') := all_refs w suf (m, xs) in
       let suf' := map (fun p => named (fst p) (snd p)) (combine (seq (List.length pre) (List.length suf)) suf) in
       QNx (mk [[("valnames", QStrs (ns ++ map v_name suf')); ("refnames", QStrs xs'); ("refs", QMap (of_ref m')); b; c; g; o; vv]] ["";""] (pre ++ suf') w'))
  end.
  { clear. induction suf as [|v suf IH]; intros pre m M xs ns w HM.
    - cbn [List.length seq map q_indexed qrounds all_refs combine]. now rewrite HM, !app_nil_r.
    - cbn [List.length seq map q_indexed]. roundq.
      assert (Hn : nth_error (pre ++ v :: suf) (List.length pre) = Some v) by (rewrite nth_error_app2, Nat.sub_diag by lia; reflexivity).
      psteps. rewrite Hn. psteps. rewrite range_map, shuffle_map.
      cbn [all_refs]. destruct (shuffle w (v_refs v)) as [p w1] eqn:Es. cbn [fst snd].
      match goal with |- context [qrounds _ _ _ (map q_entry (map ?f p))] => change (map f p) with (of_ref p) end.
      match goal with |- context [qrounds ?body (Some "rname") (Some "rc") _ (mk [?e1; [?n; _; _; ?b; ?c; ?g; ?o; ?vv]] _ ?vs ?w1)] =>
        assert (Li : forall p m M xs, M = of_ref m ->
          qrounds body (Some "rname") (Some "rc") (map q_entry (of_ref p)) (mk [e1; [n; ("refnames", QStrs xs); ("refs", QMap M); b; c; g; o; vv]] ["";""] vs w1) =
          QNx (mk [e1; [n; ("refnames", QStrs (snd (fold_left add_ref p (m, xs)))); ("refs", QMap (of_ref (fst (fold_left add_ref p (m, xs))))); b; c; g; o; vv]] ["";""] vs w1))
      end.
      { clear. induction p as [|[n c] p IH]; intros m M xs HM; [cbn; now rewrite HM|].
        unfold of_ref at 1. cbn [map fst snd]. fold (of_ref p). unfold q_entry at 1. cbn [fst snd]. roundq. psteps.
        assert (Hg : sget n M = option_map (QRefC n) (sget n m)) by (rewrite HM; apply sget_of_ref). rewrite Hg.
        cbn [fold_left]. destruct (sget n m) as [d|] eqn:En; cbn [option_map]; psteps.
        - assert (E1 : add_ref (m, xs) (n, c) = (m, xs)) by (unfold add_ref; cbn [fst snd]; now rewrite En). rewrite E1. now apply IH.
        - assert (E1 : add_ref (m, xs) (n, c) = (sset n c m, xs ++ [n])) by (unfold add_ref; cbn [fst snd]; now rewrite En). rewrite E1.
          apply IH. now rewrite HM, sset_of_ref. }
      rewrite (Li p m M xs HM). clear Li. destruct (fold_left add_ref p (m, xs)) as [m1 xs1] eqn:Ef. cbn [fst snd].
      remember (of_ref m1) as M1 eqn:HM1. psteps. rewrite Hn. psteps.
      assert (Hf : firstn (List.length pre) (pre ++ v :: suf) = pre) by now apply firstn_old.
      assert (Hk : skipn (S (List.length pre)) (pre ++ v :: suf) = suf).
      { change (v :: suf) with ([v] ++ suf). rewrite app_assoc, skipn_app, skipn_all2 by (rewrite app_length; cbn; lia).
        rewrite app_length. cbn [List.length]. replace (S (List.length pre) - (List.length pre + 1))%nat with 0%nat by lia. reflexivity. }
      assert (Hn' : nth_error (pre ++ named (List.length pre) v :: suf) (List.length pre) = Some (named (List.length pre) v))
        by (rewrite nth_error_app2, Nat.sub_diag by lia; reflexivity).
      match goal with |- context [qends (qleave (if qsame (v_name v) "" then ?a else ?b)) ?K] =>
        match b with QNx (mk (_ :: ?env) _ _ _) =>
          assert (Hw0 : qleave (if qsame (v_name v) "" then a else b) = QNx (mk env ["";""] (pre ++ named (List.length pre) v :: suf) w1))
        end
      end.
      { destruct (v_name v) as [|c0 r0] eqn:Ev.
        - change (qsame "" "") with true. psteps. rewrite Hn. psteps. rewrite Hf, Hk. unfold named. rewrite Ev. reflexivity.
        - change (qsame (String c0 r0) "") with false. psteps. unfold named. rewrite Ev. reflexivity. }
      rewrite Hw0. clear Hw0. remember (named (List.length pre) v) as v' eqn:Hv'. psteps. rewrite Hn'. psteps. rewrite Hv'.
      specialize (IH (pre ++ [named (List.length pre) v]) m1 M1 xs1 (ns ++ [v_name (named (List.length pre) v)]) w1 HM1).
      rewrite app_length in IH. cbn [List.length] in IH. rewrite Nat.add_1_r in IH. rewrite Nat2Z.inj_succ in IH.
      rewrite <- !app_assoc in IH. cbn [app] in IH.
      rewrite <- Z.add_1_r in IH. rewrite IH. destruct (all_refs w1 suf (m1, xs1)) as [[m2 xs2] w2].
      cbn [combine map fst snd]. rewrite <- ?app_assoc. cbn [app]. reflexivity. }
  specialize (L vs [] [] [] [] [] w eq_refl). cbn [List.length app] in L. rewrite <- His in L. change (Z.of_nat 0) with 0 in L.
  rewrite L. clear L.
  pose proof (all_refs_map vs w ([], []) Hrefs) as Hm. pose proof (all_refs_names vs w ([], []) (Permutation_refl _)) as Hx.
  pose proof (all_refs_rest vs w ([], [])) as Hr.
  destruct (all_refs w vs ([], [])) as [[m' xs] w1]. cbn [fst snd] in Hm, Hx, Hr.
  rewrite Hm in * by constructor. clear Hm m'. rewrite <- merge_refs_put, Hrf in *. subst w1. rewrite Hw.
  rewrite process_eq, Hrf. clear Hrf Hw w. remember (skipn (List.length refs) w') as w eqn:Hw. clear Hw w'.
  assert (Hxs : sort_s xs = sort_s (keys refs)) by (apply sort_perm; exact Hx).
  fold (name_all vs) in *. replace (map _ (combine is vs)) with (name_all vs) by (rewrite His; reflexivity).
  cbv zeta.
  remember (name_all vs) as V eqn:HV. remember (of_ref refs) as M eqn:HM.
  set (T1 := names_text (sort_s (map v_name V))).
  psteps.
  text_loop (fun n => nl +++ "var " +++ n +++ " *jsval.JSVal").
  2: { intros n i t _. in_round. psteps. newline. same_state. }
  rewrite !append_nil_l'. fold (names_text (sort_s (map v_name V))). fold T1. clearbody T1.
  psteps.
  assert (HV2 : forall v, In v V -> gen_at G (map_name refs) (QMap M) (QMap (ref_map refs)) k (v_root v)).
  { intros v Hv. subst V. destruct (name_all_root vs v Hv) as (u & Hu & ->). exact (Hroot u Hu). }
  assert (Hsort : map (nth_error V) (sort_i V is) = map Some (sort_v V)).
  { apply sort_i_v. rewrite His. replace (List.length vs) with (List.length V) by (subst V; apply name_all_length). apply nth_seq. }
  assert (Hrn : forall r, In r (map fst refs) -> exists x, sget r (ref_vars refs) = Some x /\ sget r (ref_map refs) = Some (QStr x)).
  { intros r Hr. assert (Hin : In r (map fst (ref_vars refs))).
    { rewrite ref_vars_fst. eapply Permutation_in; [apply Permutation_sym, sort_perm_self|exact Hr]. }
    apply in_map_iff in Hin as ([r' x] & <- & Hin). destruct (ref_vars_get refs (r', x) Hsr Hin) as (H1 & _ & H2). exists x. auto. }
  assert (Hcode : forall j u t J e w0, nth_error V j = Some u ->
    gives (qcall (prog_g G) (S (S k)) "generateCode" [ctxv (map_name refs) (QMap M) (QMap (ref_map refs)); QBuf 1; QVal j] (mk e ("" :: t :: J) V w0))
      (validator_code G (map_name refs) (ref_vars refs) refs u w0) 1 t ("" :: "" :: J) e V).
  { intros j u t J e w0 Hj. rewrite HM in *. apply (code_val G (map_name refs) refs (ref_map refs) (ref_vars refs) Hrn k 1 t ("" :: "" :: J)); [exact Hj| |cbn; lia].
    apply HV2. eapply nth_error_In; eauto. }
  clear Hroot HV2 Hrn.
  destruct refs as [|e0 r0].
  { change (of_ref []) with (@nil (string * qv)) in HM. subst M. change (0 <? Z.of_nat (List.length (@nil (string * qv)))) with false. psteps. change (0 <? Z.of_nat (List.length (@nil (string * qv)))) with false. psteps.
    unfold refs_code, vars_text. unfold gbind at 1, gret at 1. cbv iota beta.
    change (ref_map []) with (@nil (string * qv)) in Hcode.
    vals_loop Hcode Hsort (@nil (string * constr)).
    eapply then_p; [exact L|]. clear L. intros x w1 J _. psteps.
    finish_. }
  assert (Hpos : (0 <? Z.of_nat (List.length M)) = true) by (apply Z.ltb_lt; rewrite HM; unfold of_ref; rewrite map_length; cbn [List.length]; lia).
  rewrite Hpos. psteps.
  remember (e0 :: r0) as rf eqn:Hrf.
  assert (Hcm : map_name rf = "M") by (subst rf; reflexivity).
  assert (Hrc : refs_code rf =
      get body <- gconcat (map (fun e =>
          get x <- match sget (fst e) rf with Some c => emit G (map_name rf) c | None => gret ""%string end;
          gret (nl +++ snd e +++ " = " +++ strip x)) (ref_vars rf));
      gret (nl +++ "M = &jsval.ConstraintMap{}" +++ body +++
            join "" (map (fun e => nl +++ "M.SetReference(" +++ quote (g_print G) (fst e) +++ ", " +++ snd e +++ ")") (ref_vars rf))))
    by (subst rf; reflexivity).
  assert (Hvt : vars_text rf = nl +++ "var M *jsval.ConstraintMap" +++ join "" (map (fun e => nl +++ "var " +++ snd e +++ " jsval.Constraint") (ref_vars rf)))
    by (subst rf; reflexivity).
  rewrite Hrc, Hvt, Hxs. clear Hrc Hvt Hxs Hx. rewrite Hcm in *.
  match goal with |- context [qrounds ?body (Some "i") (Some "rname") _ (mk ?env ["";?t9] V w)] =>
    match env with context E [("refnames", QMap [])] =>
      let g := constr:(fun m : list (string * qv) => ltac:(let t := context E [("refnames", QMap m)] in exact t)) in
      assert (L : forall l i mm t, qrounds body (Some "i") (Some "rname") (q_indexed (Z.of_nat i) (map QStr l)) (mk (g mm) ["";t] V w) =
        QNx (mk (g (fold_left (fun m e => sset (fst e) (QStr (snd e)) m) (combine l (map ref_var (seq i (List.length l)))) mm))
          ["";t +++ join "" (map (fun e => nl +++ "var " +++ snd e +++ " jsval.Constraint") (combine l (map ref_var (seq i (List.length l)))))] V w))
    end
  end.
  { clear. induction l as [|n l IH]; intros i mm t.
    - cbn [map q_indexed qrounds combine fold_left List.length seq join]. now rewrite append_nil_r'.
    - cbn [map q_indexed]. roundq. psteps. specialize (IH (S i)). rewrite Nat2Z.inj_succ, <- Z.add_1_r in IH. rewrite IH.
      cbn [List.length seq map combine fold_left fst snd]. rewrite join_cons. newline. same_state. }
  change 0 with (Z.of_nat 0). rewrite L. clear L. change (Z.of_nat 0) with 0.
  assert (Hvars : combine (sort_s (keys rf)) (map ref_var (seq 0 (List.length (sort_s (keys rf))))) = ref_vars rf)
    by (unfold ref_vars; now rewrite length_sort_s).
  rewrite Hvars. fold (ref_map rf).
  pose proof (ref_vars_get rf) as Hget. pose proof (ref_vars_fst rf) as Hfst.
  remember (ref_map rf) as RM eqn:HRM. remember (ref_vars rf) as rv eqn:Hrv. remember (sort_s (keys rf)) as names eqn:Hnames.
  set (T2 := join "" (map (fun e => nl +++ "var " +++ snd e +++ " jsval.Constraint") rv)). clearbody T2.
  psteps. rewrite Hpos. psteps.
  replace (map QStr names) with (map (fun e : string * string => QStr (fst e)) rv) by (rewrite <- Hfst, map_map; reflexivity).
  match goal with |- pgives (q_called [] 1 (qends ?o ?K)) (gbind ?m ?f ?w) V =>
    match o with context [mk ([] :: [] :: ?env) [""; ?T0 +++ ?X] V w] =>
      assert (L : pwrote o (m w) T0 env V); [set (T0v := T0); clearbody T0v|]
    end
  end.
  { apply leave_p with (l := []). apply leave_p with (l := []).
    eapply then_pw.
    - apply rounds_p. intros [n x] i t J w0 Hin. destruct (Hget (n, x) Hsr Hin) as (Hg1 & (c & Hg2) & Hg3). cbn [fst snd] in *.
      assert (HgM : sget n M = Some (QRefC n c)) by (rewrite HM, sget_of_ref, Hg2; reflexivity).
      rewrite Hg2.
      in_round. psteps. rewrite Hg1. psteps. rewrite HgM. psteps.
      rewrite call_ref. filled (Href n c Hg2).
      pose proof (emit_j G "M" c w0) as Hj. unfold gbind.
      destruct (emit G "M" c w0) as [[y w2]|m|m]; cbn [gives] in He.
      + specialize (Hj y w2 eq_refl). rewrite He. clear He. rewrite append_nil_l', bufput_new. psteps. rewrite bufat_new. psteps.
        rewrite (strip_j y Hj).
        destruct y as [|d y]; [|cbn in Hj; subst d].
        * cbn [q_runes qrounds app]. psteps. unfold pwrote. cbn [gret]. exists (J ++ [""]). newline. same_state.
        * destruct (runes_j y) as [l Hl]. rewrite Hl. clear Hl. roundq. psteps. change (q_space 106) with false. psteps. cbn [drop_s].
          match goal with |- context [0 <=? Z.of_nat ?n] => change (0 <=? 0) with true; replace (0 <=? Z.of_nat n) with true by (symmetry; apply Z.leb_le; lia) end.
          change (drop_s (Z.to_nat 0) (String "j" y)) with (String "j" y).
          cbn [app]. psteps.
          unfold pwrote. cbn [gret]. exists (J ++ [String "j" y]). newline. same_state.
      + destruct He as (m' & t' & w' & He & Hs). rewrite He. psteps. do 2 eexists. split; [reflexivity|exact Hs].
      + destruct He as (m' & He). rewrite He. psteps. eexists; reflexivity.
    - intros x w1 J _. psteps.
      text_loop (fun n => nl +++ "M.SetReference(" +++ quote (g_print G) n +++ ", " +++ match sget n rv with Some x => x | None => "" end +++ ")").
      2: { intros n i t Hin. rewrite <- Hfst in Hin. apply in_map_iff in Hin as ([n' z] & <- & Hin).
        destruct (Hget (n', z) Hsr Hin) as (Hg1 & _ & Hg3). cbn [fst snd] in *. rewrite Hg3.
        in_round. psteps. rewrite Hg1. psteps. newline. same_state. }
      psteps. unfold pwrote. cbn [gret]. exists J.
      assert (Et : map (fun n => nl +++ "M.SetReference(" +++ quote (g_print G) n +++ ", " +++ match sget n rv with Some x => x | None => "" end +++ ")") names =
        map (fun e : string * string => nl +++ "M.SetReference(" +++ quote (g_print G) (fst e) +++ ", " +++ snd e +++ ")") rv).
      { rewrite <- Hfst, map_map. apply map_ext_in. intros e Hin. destruct (Hget e Hsr Hin) as (_ & _ & ->). reflexivity. }
      rewrite Et. clear Et. newline. same_state. }
  eapply then_p; [exact L|]. clear L. intros rcode w1 J1 _. psteps.
  assert (Hcode2 : forall j u t J e w0, nth_error V j = Some u ->
    gives (qcall (prog_g G) (S (S k)) "generateCode" [ctxv "M" (QMap M) (QMap RM); QBuf 1; QVal j] (mk e ("" :: t :: J) V w0))
      (validator_code G (map_name rf) (ref_vars rf) rf u w0) 1 t ("" :: "" :: J) e V) by (rewrite Hcm, <- Hrv; exact Hcode).
  remember (map_name rf) as cm9 eqn:Hcm9.
  vals_loop Hcode2 Hsort rf.
  eapply then_p; [exact L|]. clear L. intros x w2 J _. psteps.
  finish_.
Qed.
End Proc.
