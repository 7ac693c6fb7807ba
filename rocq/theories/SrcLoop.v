(** What the functions of the builder are shown to do, loops over schemas, and the
    constraints that combine others. *)
From Verif Require Import Base GoFloat GoValue Maybe Formats Constraint StructInfo Validate Builder SrcSyntax SrcText SrcTextB SrcProg SrcStore SrcProgB SrcStepB SrcSetters SrcRep SrcBuildS.
Open Scope string_scope.
Open Scope list_scope.
Open Scope nat_scope.

(** ** Nesting of schemas *)
Fixpoint height (s : schema) : nat :=
  match s with
  | SNil => 0
  | Sch c =>
      S (Nat.max (height (sc_not c)) (Nat.max (list_max (map height (sc_allOf c))) (Nat.max (list_max (map height (sc_anyOf c)))
         (Nat.max (list_max (map height (sc_oneOf c))) (Nat.max (match sc_items c with Some (_, l) => list_max (map height l) | None => 0 end)
         (Nat.max (match sc_addItems c with Some x => height x | None => 0 end)
         (Nat.max (list_max (map (fun e => height (snd e)) (sc_props c))) (Nat.max (list_max (map (fun e => height (snd e)) (sc_pats c)))
         (Nat.max (match sc_addProps c with Some x => height x | None => 0 end)
         (list_max (map (fun e => height (snd e)) (sc_depSchemas c))))))))))))
  end.
Lemma list_max_in {A} (f : A -> nat) x l : In x l -> f x <= list_max (map f l).
Proof. unfold list_max. induction l as [|y l IH]; intros []; cbn [map fold_right]; [subst; lia|]. specialize (IH H). lia. Qed.

(** ** Outcomes *)
(** error texts: the name of an unknown type is not modelled *)
Definition said (m' m : string) : Prop := m' = m \/ m = "unknown type: " /\ exists x, m' = "unknown type: " +++ x.

Definition outcome {A} (ret : string -> list bv) (o : boc) (m : gres (A * Builder.names * orc)) (Q : A -> Builder.names -> bst -> Prop) : Prop :=
  match m with
  | GOk (x, R, w) => exists s, o = BNx s /\ bord s = w /\ Q x R s
  | GErr e => exists e' s, o = BRt (ret e') s /\ said e' e
  | GPanic _ => exists e', o = BPnS e'
  end.
Lemma seqM_length {A} (l : list (bm A)) : forall R w ys R' w', seqM l R w = GOk (ys, R', w') -> List.length ys = List.length l.
Proof.
  induction l as [|m l IH]; intros R w ys R' w' H; cbn in H; [injection H as <- _ _; reflexivity|].
  unfold Builder.bind, Builder.ret in H. destruct (m R w) as [[[y R1] w1]|?|?]; try discriminate H.
  destruct (seqM l R1 w1) as [[[zs R2] w2]|?|?] eqn:E; try discriminate H. injection H as <- _ _. cbn [List.length]. f_equal. eapply IH, E.
Qed.
Section Loop.
  Context {X A : Type}.
  Variables (bx : list string) (body : bst -> boc) (def : bool) (k v : option string) (ret : string -> list bv).
  Variable f : X -> bm A.
  Variable ent : nat -> X -> bv * bv.
  Fixpoint ents (n : nat) (l : list X) : list (bv * bv) := match l with [] => [] | x :: r => ent n x :: ents (S n) r end.
  Variable Inv : list A -> Builder.names -> bst -> Prop.
  Lemma loop_gen : forall N l d R s, List.length d + List.length l = N ->
    (forall x d R s, In x l -> List.length d < N -> Inv d R s ->
       outcome ret (bleave (bends (b_bind bx def k v (fst (ent (List.length d) x)) (snd (ent (List.length d) x)) (bpush s)) body)) (f x R (bord s))
         (fun y R' s' => Inv (d ++ [y]) R' s')) ->
    Inv d R s ->
    outcome ret (brounds bx body def k v (ents (List.length d) l) s) (seqM (map f l) R (bord s)) (fun ys R' s' => Inv (d ++ ys) R' s').
  Proof.
    intro N. induction l as [|x l IH]; intros d R s HN Hr HI.
    - cbn. exists s. rewrite app_nil_r. auto.
    - cbn [List.length] in HN. assert (Hd : List.length d < N) by lia. pose proof (Hr x d R s (or_introl eq_refl) Hd HI) as Hx. cbn [ents map seqM]. unfold Builder.bind at 1.
      destruct (ent (List.length d) x) as [a b] eqn:Een. rewrite brounds_cons. cbn [fst snd] in Hx.
      unfold outcome in Hx at 1. destruct (f x R (bord s)) as [[[y R'] w']|e|e].
      + destruct Hx as (s' & -> & <- & HI'). cbn [b_next].
        replace (S (List.length d)) with (List.length (d ++ [y])) by (rewrite app_length; cbn [List.length]; lia).
        assert (HN' : List.length (d ++ [y]) + List.length l = N) by (rewrite app_length; cbn [List.length]; lia).
        pose proof (IH (d ++ [y]) R' s' HN' (fun x0 d0 R0 s0 Hin => Hr x0 d0 R0 s0 (or_intror Hin)) HI') as H. unfold Builder.bind.
        destruct (seqM (map f l) R' (bord s')) as [[[ys R2] w2]|e|e]; cbn [outcome Builder.ret] in *.
        * destruct H as (s2 & H1 & H2 & H3). exists s2. rewrite <- app_assoc in H3. auto.
        * exact H.
        * exact H.
      + destruct Hx as (e' & s' & -> & Hs). cbn [b_next outcome]. eauto.
      + destruct Hx as (e' & ->). cbn [b_next outcome]. eauto.
  Qed.
End Loop.
Lemma ents_indexed l : forall n, b_indexed (Z.of_nat n) (map of_schema l) = ents (fun n x => (BInt (Z.of_nat n), of_schema x)) n l.
Proof. induction l as [|x l IH]; intro n; cbn; [reflexivity|]. rewrite <- IH. do 2 f_equal. lia. Qed.
Lemma ents_map {X} (g : X -> bv * bv) l : forall n, ents (fun _ => g) n l = map g l.
Proof. induction l as [|x l IH]; intro n; cbn; [reflexivity|]. now rewrite IH. Qed.

(** ** The builder's context *)
Section Ctx.
  Variable D : bv -> resolver.
  Variable tn : nat -> string.
  Notation P := (prog D tn).
  Variables (V sv : bv) (cc r : nat).
  Definition ctx_struct : bv := BStruct "buildctx" [("V", V); ("S", sv); ("R", BMap r)].
  Definition ctx_ok (h : list bv) (R : Builder.names) : Prop := cell cc h = Some ctx_struct /\ cell r h = Some (BMapI (ref_map R)).
  Lemma ctx_lt h R : ctx_ok h R -> cc < List.length h /\ r < List.length h /\ cc <> r.
  Proof.
    intros [H1 H2]. split; [exact (cell_lt _ _ _ H1)|]. split; [exact (cell_lt _ _ _ H2)|].
    intros ->. rewrite H1 in H2. discriminate H2.
  Qed.
  Lemma ctx_keep h h' R : ctx_ok h R -> cell cc h' = cell cc h -> cell r h' = cell r h -> ctx_ok h' R.
  Proof. intros [H1 H2] E1 E2. split; congruence. Qed.

  (** buildFromSchema at call depth [k] does what the model says for [x] *)
  Definition builds (k : nat) (x : schema) : Prop := forall e h R w, ctx_ok h R ->
    let o := bcall P k "buildFromSchema" [BPtr cc []; of_schema x] (st e h w) in
    match build x R w with
    | GOk (c, R', w') => exists v h', o = BOk [v; BNil] (st e h' w') /\ rep V (List.length h) (List.length h') h' v c /\ ctx_ok h' R' /\ grown r h h'
    | GErr m => exists m' h' w', o = BOk [BNil; BMsg m'] (st e h' w') /\ said m' m
    | GPanic _ => exists m', o = BPn m'
    end.
  (** a function that fills in the constraint at [a], the cells of which start at [lo] *)
  Definition fills (k : nat) (f : string) (a lo : nat) (c : scfg) (m : bm constr) (e : list bscope) (h : list bv) (R : Builder.names) (w : orc) : Prop :=
    let o := bcall P k f [BPtr cc []; BPtr a []; BSch c] (st e h w) in
    match m R w with
    | GOk (x, R', w') => exists h', o = BOk [BNil] (st e h' w') /\ rep V lo (List.length h') h' (BPtr a []) x /\ ctx_ok h' R' /\
        List.length h <= List.length h' /\ (forall y, y < lo -> y <> r -> cell y h' = cell y h)
    | GErr m => exists m' h' w', o = BOk [BMsg m'] (st e h' w') /\ said m' m
    | GPanic _ => exists m', o = BPn m'
    end.

  (** ** A combination being filled: at [a], the first cell after [h0] *)
  Definition mk (T : string) (l : list constr) : constr :=
    if String.eqb T "AnyConstraint" then CAny l else if String.eqb T "AllConstraint" then CAll l else COneOf l.
  Definition combo_at (T : string) (h0 h : list bv) (cs : list constr) : Prop :=
    let a := List.length h0 in
    exists v vl, cell a h = Some (combo_struct T v) /\ slice_items v = Some vl /\ reps V (S a) (List.length h) h vl cs /\
      r < a /\ cc < a /\ (forall x, x < a -> x <> r -> cell x h = cell x h0).
  Lemma combo_new T h R : ctx_ok h R -> combo_at T h (h ++ [combo_struct T BNil]) [].
  Proof.
    intro H. destruct (ctx_lt _ _ H) as (H1 & H2 & _). exists BNil, []. split; [apply cell_new|]. split; [reflexivity|]. split; [constructor|].
    split; [exact H2|]. split; [exact H1|]. intros x Hx _. now apply cell_old.
  Qed.
  Lemma combo_keep T h0 h h' cs : combo_at T h0 h cs -> grown r h h' -> combo_at T h0 h' cs.
  Proof.
    intros (v & vl & H1 & H2 & H3 & H4 & H5 & H6) [G1 G2]. pose proof (cell_lt _ _ _ H1) as Hlt.
    exists v, vl. split; [rewrite G2 by lia; exact H1|]. split; [exact H2|].
    split; [eapply reps_keep; [exact H3|lia|exact G1|intros; apply G2; lia]|].
    split; [exact H4|]. split; [exact H5|]. intros x Hx Hn. rewrite G2 by lia. now apply H6.
  Qed.
  Lemma combo_add e w k T h0 h cs lo v c R : combo T -> combo_at T h0 h cs -> ctx_ok h R -> rep V lo (List.length h) h v c -> S (List.length h0) <= lo ->
    exists h', bcall P (S (S (S k))) (T +++ ".Add") [BPtr (List.length h0) []; v] (st e h w) = BOk [BPtr (List.length h0) []] (st e h' w) /\
      combo_at T h0 h' (cs ++ [c]) /\ ctx_ok h' R /\ List.length h' = List.length h /\ (forall x, x <> List.length h0 -> cell x h' = cell x h).
  Proof.
    intros HT (v0 & vl & H1 & H2 & H3 & H4 & H5 & H6) HC Hr Hlo.
    assert (Hgo : bcall P (S (S (S k))) (T +++ ".Add") [BPtr (List.length h0) []; v] (st e h w) =
      BOk [BPtr (List.length h0) []] (st e (put (List.length h0) (combo_struct T (BList (vl ++ [v]))) h) w)).
    { assert (Hc : v0 = BNil /\ vl = [] \/ v0 = BList vl) by (destruct v0; try discriminate H2; injection H2 as <-; auto).
      destruct Hc as [[-> ->]| ->]; [now apply src_add_first|now apply src_add]. }
    eexists. split; [exact Hgo|]. pose proof (cell_lt _ _ _ H1) as Hlt.
    assert (Hk : forall x, x <> List.length h0 -> cell x (put (List.length h0) (combo_struct T (BList (vl ++ [v]))) h) = cell x h)
      by (intros x Hx; apply cell_other; exact Hx).
    split; [|split; [|split; [apply put_length|exact Hk]]].
    - exists (BList (vl ++ [v])), (vl ++ [v]). split; [now apply cell_put|]. split; [reflexivity|]. rewrite put_length.
      split; [|split; [exact H4|split; [exact H5|intros x Hx Hn; rewrite Hk by lia; now apply H6]]].
      apply reps_app.
      + eapply reps_keep; [exact H3|lia|lia|intros x Hx; apply Hk; lia].
      + constructor; [|constructor]. eapply rep_keep; [exact Hr|lia|lia|intros x Hx; apply Hk; lia].
    - eapply ctx_keep; [exact HC|apply Hk; lia|apply Hk; lia].
  Qed.
  Lemma combo_reduce e w k T h0 h cs : combo T -> combo_at T h0 h cs ->
    exists v, bcall P (S (S (S k))) (T +++ ".Reduce") [BPtr (List.length h0) []] (st e h w) = BOk [v] (st e h w) /\
      rep V (List.length h0) (List.length h) h v (reduce (mk T cs)).
  Proof.
    intros HT (v0 & vl & H1 & H2 & H3 & H4 & H5 & H6). pose proof (cell_lt _ _ _ H1) as Hlt.
    exists (match vl with [x] => x | _ => BPtr (List.length h0) [] end). split; [now apply src_reduce with (v := v0)|].
    assert (Hall : rep V (List.length h0) (List.length h) h (BPtr (List.length h0) []) (mk T cs)).
    { assert (H3' : reps V (List.length h0) (List.length h) h vl cs) by (eapply reps_keep; [exact H3|lia|lia|reflexivity]).
      destruct HT as [->|[->| ->]]; unfold mk; cbn [String.eqb Ascii.eqb Bool.eqb]; econstructor; try eassumption; lia. }
    destruct H3 as [|v1 c1 vl1 cs1 Hv Hvs]; [destruct HT as [->|[->| ->]]; exact Hall|].
    destruct Hvs as [|v2 c2 vl2 cs2 Hv2 Hvs2]; [|destruct HT as [->|[->| ->]]; exact Hall].
    destruct HT as [->|[->| ->]]; (eapply rep_keep; [exact Hv|lia|lia|reflexivity]).
  Qed.
End Ctx.

(** a call of buildFromSchema that is about to run *)
Ltac use_build Hx HC :=
  lazymatch type of HC with ctx_ok _ _ _ _ ?h0 ?R =>
  lazymatch goal with |- context [bcall ?cx ?k "buildFromSchema" [?p; of_schema ?x] (st ?E ?h ?w)] =>
    let Hb := fresh "Hb" in pose proof (Hx E h R w HC) as Hb; cbv zeta in Hb;
    destruct (build x R w) as [[[y1 R1] w1]|m1|m1];
    [destruct Hb as (v1 & h1 & Hb & Hrep1 & HC1 & G1)|destruct Hb as (m1' & h1 & w1 & Hb & Hsaid1)|destruct Hb as (m1' & Hb)]; rewrite Hb; clear Hb
  end end.
