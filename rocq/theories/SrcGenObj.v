(** generateObjectCode of generator.go. *)
From Verif Require Import Base GoFloat GoValue Maybe Formats Constraint StructInfo Validate Builder GoText GoLang Generator SrcSyntax SrcText SrcTextG SrcProg SrcGen SrcProgG SrcStepG SrcGenFun SrcGenLoop SrcGenTree.
Open Scope string_scope.
Open Scope list_scope.
Open Scope Z_scope.

(** "for name := range m { names = append(names, name) }" *)
Ltac gather :=
  rewrite range_map, ?shuffle_of_str; cbn [fst snd];
  (let Es := fresh "Es" in match goal with |- context [snd (shuffle ?w ?m)] => destruct (shuffle w m) as [? ?] eqn:Es; cbn [fst snd] end);
  match goal with |- context [qrounds ?body ?kk None (map q_entry (of_str ?f ?p)) (mk ?env ?bs ?vs ?w)] =>
    match env with context E [QStrs []] =>
      let g := constr:(fun acc : list string => ltac:(let t := context E [QStrs acc] in exact t)) in
      let L := fresh "L" in
      let p' := fresh "p" in let IH := fresh "IH" in let acc := fresh "acc" in let n := fresh "n" in let x := fresh "x" in
      assert (L : forall p' acc, qrounds body kk None (map q_entry (of_str f p')) (mk (g acc) bs vs w) = QNx (mk (g (acc ++ map fst p')) bs vs w));
      [intro p'; induction p' as [|[n x] p' IH]; intro acc; [cbn [of_str map qrounds]; now rewrite app_nil_r|];
       change (map q_entry (of_str f ((n, x) :: p'))) with ((QStr n, f x) :: map q_entry (of_str f p')); cbn [map fst]; roundq; qsteps; rewrite (IH (acc ++ [n])), <- app_assoc; reflexivity
      |rewrite (L p []); clear L; cbn [app];
       (let ns := fresh "ns" in let Hns := fresh "Hns" in remember (map fst p) as ns eqn:Hns);
       qsteps]
    end
  end.
Lemma sorted_names_map {A C} (f : A -> C) (m : list (string * A)) w :
  sorted_names (map (fun e => (fst e, f (snd e))) m) w = GOk (sort_s (map fst (fst (shuffle w m))), snd (shuffle w m)).
Proof. rewrite sorted_names_run, shuffle_map. cbn [fst snd]. rewrite map_map. reflexivity. Qed.
Lemma sget_map_snd {A C} (f : A -> C) k m : sget k (map (fun e => (fst e, f (snd e))) m) = option_map f (sget k m).
Proof. induction m as [|[k' x] m IH]; cbn; [reflexivity|]. destruct (String.eqb k k'); [reflexivity|exact IH]. Qed.
(** the next statement is a loop that writes *)
Ltac loop_writes :=
  match goal with |- gives (q_called _ _ (qends (qrounds ?body ?k ?v ?es (mk ?env (bufput ?a ?t0 ?B) ?vs ?w)) _)) _ _ _ _ _ _ =>
    eapply (then_gives _ _ _ _ _ _ t0 _ _ env); [apply rounds_wrote|] end.
Lemma fold_left_map' {X Y Z0} (f : Y -> X -> X) (g : Z0 -> Y) l : forall m, fold_left (fun m e => f e m) (map g l) m = fold_left (fun m e => f (g e) m) l m.
Proof. induction l as [|x l IH]; intro m; cbn; [reflexivity|apply IH]. Qed.
(** the temporary map of the pattern properties *)
Lemma pats_by {Y} (f : constr -> Y) k (p : list ((nat * string) * constr)) : forall m,
  sget k (fold_left (fun m e => sset (snd (fst e)) (f (snd e)) m) p (map (fun e => (fst e, f (snd e))) m))
  = option_map f (sget k (fold_left (fun m e => sset (snd (fst e)) (snd e) m) p m)).
Proof.
  induction p as [|[[i x] c] p IH]; intro m; cbn [fold_left fst snd]; [apply sget_map_snd|].
  rewrite <- IH. f_equal. f_equal. induction m as [|[k' y] m IHm]; cbn; [reflexivity|].
  destruct (String.compare x k'); cbn; [reflexivity..|]. now rewrite IHm.
Qed.
Lemma pats_from {Y} (f : constr -> Y) k (p : list ((nat * string) * constr)) :
  sget k (fold_left (fun m e => sset (snd (fst e)) (f (snd e)) m) p [])
  = option_map f (sget k (fold_left (fun m e => sset (snd (fst e)) (snd e) m) p [])).
Proof. exact (pats_by f k p []). Qed.
Lemma pats_last k (p : list ((nat * string) * constr)) : forall m, (In k (map (fun e => snd (fst e)) p) \/ exists c, sget k m = Some c) ->
  exists c, sget k (fold_left (fun m e => sset (snd (fst e)) (snd e) m) p m) = Some c /\ (In c (map snd p) \/ sget k m = Some c).
Proof.
  induction p as [|[[i x] c] p IH]; intros m H; cbn [fold_left map fst snd] in *.
  { destruct H as [[]|[c H]]. eauto. }
  destruct (IH (sset x c m)) as (d & Hd & Hi).
  { destruct (String.eqb_spec k x) as [->|N]; [right; exists c; apply sget_sset_same|]. rewrite sget_sset_other by exact N.
    destruct H as [[->|H]|H]; [now elim N|now left|now right]. }
  exists d. split; [exact Hd|]. destruct Hi as [Hi|Hi]; [left; now right|].
  destruct (String.eqb_spec k x) as [->|N]; [rewrite sget_sset_same in Hi; injection Hi as ->; left; now left|].
  rewrite sget_sset_other in Hi by exact N. now right.
Qed.
Lemma pats_found k (p : list ((nat * string) * constr)) : In k (map (fun e => snd (fst e)) p) ->
  exists c, sget k (fold_left (fun m e => sset (snd (fst e)) (snd e) m) p []) = Some c /\ In c (map snd p).
Proof. intro H. destruct (pats_last k p [] (or_introl H)) as (c & Hc & [Hi|Hi]); [eauto|discriminate]. Qed.
Lemma join_cons x l : join "" (x :: l) = x +++ join "" l.
Proof. destruct l; cbn; [now rewrite append_nil_r'|reflexivity]. Qed.
Lemma gconcat_rets {X} (f : X -> string) l w : gconcat (map (fun x => gret (f x)) l) w = GOk (join "" (map f l), w).
Proof.
  induction l as [|x l IH]; [reflexivity|]. cbn [map gconcat]. rewrite join_cons. unfold gbind, gret at 1. cbv beta iota.
  rewrite IH. reflexivity.
Qed.
Lemma join_app l m : join "" (l ++ m) = join "" l +++ join "" m.
Proof. induction l as [|x l IH]; [reflexivity|]. cbn [app]. now rewrite !join_cons, IH, append_assoc'. Qed.
Lemma join_flat {X} (f : X -> list string) l : join "" (flat_map f l) = join "" (map (fun x => join "" (f x)) l).
Proof. induction l as [|x l IH]; [reflexivity|]. cbn [flat_map map]. now rewrite join_app, join_cons, IH. Qed.
Section Gen.
Variable G : genv.
Variable cm : string.
Variables refs refnames : qv.
Notation ctx := (ctxv cm refs refnames).
Notation call := (qcall (prog_g G)).
Notation gen_at := (gen_at G cm refs refnames).

Lemma gen_obj k a t B e v w o : gen_at (S k) o.(o_add) -> (forall x, In x (map snd o.(o_props)) -> gen_at (S k) x) ->
  (forall x, In x (map snd o.(o_pats)) -> gen_at (S k) x) -> (a < List.length B)%nat ->
  gives (call (S (S k)) "generateObjectCode" [ctx; QBuf a; QC (CObj o)] (mk e (bufput a t B) v w))
    (object_code G o (emit G cm o.(o_add)) (map (fun e => (fst e, emit G cm (snd e))) o.(o_props))
                      (map (fun e => (fst e, emit G cm (snd e))) o.(o_pats)) w) a t B e v.
Proof.
  intros IHa IHp IHq. begin_. rewrite has_default; qsteps. unfold object_code. stmt_writes.
  { destruct (o_req o) as [|x0 l0] eqn:El; [change (0 <? Z.of_nat (List.length (of_str (fun _ : unit => QNil) []))) with false; qsteps; done_w|].
    rewrite <- El. assert (Hl : List.length (of_str (fun _ : unit => QNil) (o_req o)) = List.length (o_req o)) by apply map_length.
    rewrite Hl. replace (0 <? Z.of_nat (List.length (o_req o))) with true by (rewrite El; reflexivity).
    qsteps. unfold gbind. rewrite sorted_names_run. gather.
    match goal with |- context [qrounds ?body ?k ?v ?es (mk ?env (bufput ?a ?t0 ?B) ?vs ?w)] =>
      rewrite (rounds_join (quote (g_print G)) ", " body k v a B env vs (Z.of_nat (List.length (o_req o)))) end.
    2: { intros x i t0 w0. in_round. qsteps. destruct (i <? Z.of_nat (List.length (o_req o)) - 1); qsteps; cbn [when]; same_text. }
    2: { rewrite length_sort_s, Hns, map_length. pose proof (length_shuffle w (o_req o)) as Hp. rewrite Es in Hp. cbn [fst] in Hp. rewrite Hp. apply Z.add_0_l. }
    qsteps. done_w. }
  intros x1 w1 _. qsteps. stmt_writes.
  { destruct (nil_or (o_add o)) as [E|Hn]; [rewrite E; qsteps; done_w|].
    rewrite !Hn. qsteps. called_code IHa. done_w. }
  intros x2 w2 _. qsteps. unfold gbind at 1. rewrite sorted_names_map. gather.
  loop_writes.
  { intros x i t0 w0 Hin.
    assert (Hx : exists c, sget x (o_props o) = Some c /\ In (x, c) (o_props o)) by (apply (in_names w2); rewrite Es; cbn [fst]; now rewrite <- Hns).
    destruct Hx as (c & Hc & Hi). in_round. qsteps.
    rewrite sget_of_str, Hc; cbn [option_map]. qsteps. rewrite sget_map_snd, Hc; cbn [option_map].
    assert (IH : gen_at (S k) c) by (apply IHp; apply in_map_iff; now exists (x, c)).
    called_code IH. done_w. }
  generalize (sort_s ns). clear Es Hns ns l. intros pn x3 w3 _; clear o0. qsteps.
  rewrite range_pats. unfold gbind at 1. rewrite (shuffle_map (fun e => (fst e, emit G cm (snd e)))).
  cbn [fst snd]. destruct (shuffle w3 (o_pats o)) as [p w4] eqn:Es. cbn [fst snd].
  match goal with |- context [qrounds ?body ?kk ?vv (map q_pat p) (mk ?env ?bs ?vs w4)] =>
    match env with context E1 [QStrs []] =>
      let g1 := constr:(fun acc : list string => ltac:(let t := context E1 [QStrs acc] in exact t)) in
      let g2 := eval cbv beta in (g1 ["x"]) in
      match env with context E2 [QMap []] =>
      let g2 := constr:(fun (acc : list string) (m : list (string * qv)) => ltac:(let t := context E2 [QMap m] in
          match t with context E3 [QStrs []] => let t' := context E3 [QStrs acc] in exact t' end)) in
      assert (L : forall p acc m, qrounds body kk vv (map q_pat p) (mk (g2 acc m) bs vs w4) =
        QNx (mk (g2 (acc ++ map (fun e => snd (fst e)) p) (fold_left (fun m e => sset (snd (fst e)) (QC (snd e)) m) p m)) bs vs w4))
      end
    end
  end.
  { induction p0 as [|[[id rx] c] p0 IH]; intros acc m; [cbn [map qrounds fold_left]; now rewrite app_nil_r|].
    change (map q_pat ((id, rx, c) :: p0)) with ((QRx rx, QC c) :: map q_pat p0). cbn [map fold_left fst snd]. roundq. qsteps.
    rewrite (IH (acc ++ [rx]) (sset rx (QC c) m)), <- app_assoc. reflexivity. }
  rewrite (L p [] []). clear L. cbn [app].
  remember (map (fun e : nat * string * constr => snd (fst e)) p) as pns eqn:Hpns.
  remember (fold_left (fun m e => sset (snd (fst e)) (QC (snd e)) m) p []) as ppm eqn:Hppm.
  qsteps. rewrite map_map. cbn [fst snd].
  rewrite <- Hpns.
  loop_writes.
  { intros x i t0 w0 Hin.
    destruct (pats_found x p) as (c & Hc & Hi); [rewrite <- Hpns; now apply in_sort_s|].
    assert (IH : gen_at (S k) c).
    { apply IHq. apply in_map_iff in Hi as (e0 & <- & He0). apply in_map. apply (in_shuffle w3). now rewrite Es. }
    in_round. qsteps. rewrite Hppm, (pats_from QC x p), Hc; cbn [option_map]. qsteps.
    rewrite fold_left_map'. cbv beta. cbn [fst snd]. rewrite (pats_from (emit G cm) x p), Hc; cbn [option_map].
    called_code IH. done_w. }
  intros x4 w5 _. clear Es Hpns Hppm p w4. generalize (sort_s pns). clear pns. intros pns. qsteps.
  unfold gbind. rewrite sorted_names_run.
  destruct (o_propdeps o) as [|x0 l0] eqn:El.
  { change (0 <? Z.of_nat (List.length (of_str QStrs []))) with false. qsteps. cbn [map fst snd].
    change (shuffle w5 (@nil (string * list string))) with (@nil (string * list string), w5). cbn [fst snd map].
    change (sort_s []) with (@nil string). cbn [flat_map join]. done_. }
  rewrite <- El.
  replace (0 <? Z.of_nat (List.length (of_str QStrs (o_propdeps o)))) with true by (rewrite El; reflexivity).
  qsteps. gather.
  set (dep := fun from to : string => "." +++ nl +++ "PropDependency(" +++ quote (g_print G) from +++ ", " +++ quote (g_print G) to +++ ")").
  match goal with |- context [qrounds ?body ?k ?v ?es (mk ?env (bufput ?a ?t0 ?B) ?vs ?w)] =>
    assert (L : wrote (qrounds body k v es (mk env (bufput a t0 B) vs w))
      (gconcat (map (fun from => gret (join "" (map (dep from) (prop_deps o from)))) (sort_s ns)) w) a t0 B env vs)
  end.
  { apply rounds_wrote. intros x i t0 w0 Hin.
    assert (Hx : exists c, sget x (o_propdeps o) = Some c /\ In (x, c) (o_propdeps o)) by (apply (in_names w5); rewrite Es; cbn [fst]; now rewrite <- Hns).
    destruct Hx as (c & Hc & _). unfold prop_deps. rewrite Hc. in_round. qsteps.
    rewrite sget_of_str, Hc; cbn [option_map]. qsteps.
    match goal with |- context [qrounds ?body ?k ?v ?es (mk ?env (bufput ?a ?t0 ?B) ?vs ?w)] =>
      assert (L : wrote (qrounds body k v es (mk env (bufput a t0 B) vs w))
        (gconcat (map (fun to => gret (dep x to)) c) w) a t0 B env vs)
    end.
    { apply rounds_wrote. intros y j t1 w6 _. in_round. qsteps. unfold dep. done_w. }
    rewrite gconcat_rets in L. unfold wrote in L. rewrite L. qsteps. done_w. }
  rewrite gconcat_rets in L. unfold wrote in L. rewrite L. qsteps.
  unfold gives. cbn [gret]. rewrite join_flat. same_text.
Qed.
End Gen.
