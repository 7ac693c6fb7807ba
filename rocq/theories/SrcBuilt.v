(** buildFromSchema for all schemas, by induction on their height; then
    builder/builder.go:29-154, Build, BuildWithCtx and compileReferences. *)
From Verif Require Import Base GoFloat GoValue Maybe Formats Constraint StructInfo Validate Builder SrcSyntax SrcText SrcTextB SrcProg SrcAccess SrcStore SrcProgB SrcStepB SrcSetters SrcSetObj SrcRep SrcBuildS SrcGuess SrcLoop SrcBuildA SrcBuildO SrcBuildAll SchemaForm.
Open Scope string_scope.
Open Scope list_scope.
Open Scope nat_scope.

Section Built.
  Variable D : bv -> resolver.
  Variable tn : nat -> string.
  Notation P := (prog D tn).
  Variables (V sv : bv) (cc r : nat).
  Notation builds := (builds D tn V sv cc r).

  Lemma src_buildNil k : builds (S k) SNil.
  Proof. intros e h R w HC. cbv zeta. cbn [build of_schema]. unfold Builder.boom. open_b. stepsb. eexists. reflexivity. Qed.

  (** Run to a call depth of [2 * height x + 4] or more, the source of
      buildFromSchema does what [build] says. *)
  Lemma src_build : forall H x, height x <= H -> forall k, builds (2 * H + 4 + k) x.
  Proof.
    induction H as [|H IH]; intros x Hx k.
    - destruct x as [|c]; [|cbn [height] in Hx; lia]. apply src_buildNil.
    - destruct x as [|c]; [replace (2 * S H + 4 + k) with (S (2 * S H + 3 + k)) by lia; apply src_buildNil|].
      replace (2 * S H + 4 + k) with (S (S (S (S (S (2 * H + 1 + k)))))) by lia. cbn [height] in Hx.
      assert (Hc : forall x, height x <= H -> builds (S (S (S (S (2 * H + 1 + k))))) x)
        by (intros x' Hx'; replace (S (S (S (S (2 * H + 1 + k))))) with (2 * H + 4 + (1 + k)) by lia; now apply IH).
      assert (Hi : forall x, height x <= H -> builds (S (S (S (2 * H + 1 + k)))) x)
        by (intros x' Hx'; replace (S (S (S (2 * H + 1 + k)))) with (2 * H + 4 + k) by lia; now apply IH).
      apply src_buildFrom; unfold under, inside; repeat apply conj.
      + apply Hc. lia.
      + intros x' Hin. apply Hc. apply (list_max_in height) in Hin. lia.
      + intros x' Hin. apply Hc. apply (list_max_in height) in Hin. lia.
      + intros x' Hin. apply Hc. apply (list_max_in height) in Hin. lia.
      + intros t l x' E Hin. apply Hi. rewrite E in Hx. apply (list_max_in height) in Hin. lia.
      + intros x' E. apply Hi. rewrite E in Hx. lia.
      + intros n x' Hin. apply Hi. apply (list_max_in (fun e => height (snd e))) in Hin. cbn [snd] in Hin. lia.
      + intros n x' Hin. apply Hi. apply (list_max_in (fun e => height (snd e))) in Hin. cbn [snd] in Hin. lia.
      + intros x' E. apply Hi. rewrite E in Hx. lia.
      + intros n x' Hin. apply Hi. apply (list_max_in (fun e => height (snd e))) in Hin. cbn [snd] in Hin. lia.
  Qed.
End Built.

(** ** A range over ctx.R *)
Definition with_w (c : cstate) (w : orc) : cstate := {| c_refs := c_refs c; c_R := c_R c; c_w := w; c_log := c_log c |}.
Lemma kmem_mem x l : kmem (BStr x) (map BStr l) = mem x l.
Proof.
  unfold kmem, mem. induction l as [|y l IH]; cbn [map existsb]; [reflexivity|]. rewrite IH. f_equal. cbn [kcmp].
  destruct (String.eqb_spec x y) as [->|Hn]; [now rewrite compare_refl|].
  destruct (String.compare x y) eqn:E; [|reflexivity|reflexivity]. now apply String.compare_eq_iff in E.
Qed.
Lemma filter_kmem (f : bool -> bool) v l : filter (fun x => f (kmem x (map BStr v))) (map BStr l) = map BStr (filter (fun x => f (mem x v)) l).
Proof. induction l as [|y l IH]; cbn [map filter]; [reflexivity|]. rewrite kmem_mem, IH. destruct (f (mem y v)); reflexivity. Qed.

Section Live.
  Variables (bx : list string) (body : nat -> bst -> boc) (key : string) (r : nat) (ret : string -> list bv).
  Variable bm : string -> cstate -> cres.
  Variable Par : Type.
  Variable Inv : Par -> cstate -> bst -> Prop.
  Hypothesis Inv_w : forall p c s, Inv p c s -> bord s = c_w c.
  Hypothesis Inv_k : forall p c s, Inv p c s -> cell_keys r s = map BStr (keys (c_R c)).
  Hypothesis Inv_o : forall p c s w, Inv p c s -> Inv p (with_w c w) (with_bord w s).
  Definition cres_ok (p : Par) (o : boc) (x : cres) : Prop :=
    match x with
    | COk c => exists s, o = BNx s /\ Inv p c s
    | CErr m => exists m' s, o = BRt (ret m') s /\ said m' m
    | CPanic _ => exists m', o = BPnS m'
    | COOF => True
    end.
  Hypothesis Hbody : forall x c, bm x c <> COOF -> exists K, forall k, K <= k -> forall p s, Inv p c s ->
    cres_ok p (bround bx (body k) true (Some key) None (BStr x) BNil s) (bm x c).
  Lemma live : forall n start visited c, range_refs n bm start visited c <> COOF ->
    exists K, forall k F, K <= k -> K <= F -> forall p s, Inv p c s ->
      cres_ok p (blive bx F (body k) true (Some key) r (map BStr start) (map BStr visited) s) (range_refs n bm start visited c).
  Proof.
    induction n as [|n IH]; intros start visited c Hn; [now elim Hn|].
    cbn [range_refs] in *. destruct (next (c_w c)) as [i w] eqn:Ew.
    change {| c_refs := c_refs c; c_R := c_R c; c_w := w; c_log := c_log c |} with (with_w c w) in *.
    set (todo := filter (fun k => negb (mem k visited)) (keys (c_R c))) in *.
    set (due := filter (fun k => mem k start) todo) in *.
    assert (Hvisit : forall x, match bm x (with_w c w) with COk st2 => range_refs n bm start (x :: visited) st2 | r0 => r0 end <> COOF ->
      exists K, forall k F, K <= k -> K <= F -> forall p s, Inv p (with_w c w) s ->
        cres_ok p (match bround bx (body k) true (Some key) None (BStr x) BNil s with
                 | BNx s | BCt s => blive bx F (body k) true (Some key) r (map BStr start) (BStr x :: map BStr visited) s
                 | BBk s => BNx s
                 | o => o end)
                (match bm x (with_w c w) with COk st2 => range_refs n bm start (x :: visited) st2 | r0 => r0 end)).
    { intros x Hx. destruct (Hbody x (with_w c w)) as [K1 H1]; [intro E; rewrite E in Hx; now elim Hx|].
      destruct (bm x (with_w c w)) as [c2|m|m|] eqn:E.
      - destruct (IH start (x :: visited) c2 Hx) as [K2 H2]. exists (Nat.max K1 K2). intros k F Hk HF p s Hs.
        destruct (H1 k ltac:(lia) p s Hs) as (s2 & -> & Hs2). cbn [cres_ok]. apply H2; [lia|lia|exact Hs2].
      - exists K1. intros k F Hk HF p s Hs. destruct (H1 k Hk p s Hs) as (m' & s2 & -> & Hm). cbn [cres_ok]. eauto.
      - exists K1. intros k F Hk HF p s Hs. destruct (H1 k Hk p s Hs) as (m' & ->). cbn [cres_ok]. eauto.
      - now elim Hx. }
    assert (Hstep : forall k F p s, Inv p c s -> Inv p (with_w c w) (with_bord w s) /\
      blive bx (S F) (body k) true (Some key) r (map BStr start) (map BStr visited) s =
      (let visit x := match bround bx (body k) true (Some key) None x BNil (with_bord w s) with
                 | BNx s | BCt s => blive bx F (body k) true (Some key) r (map BStr start) (x :: map BStr visited) s
                 | BBk s => BNx s
                 | o => o end in
       match map BStr due with
       | [] => match nth_error (map BStr todo) i with None => BNx (with_bord w s) | Some x => visit x end
       | d :: _ => visit (nth i (map BStr todo) d)
       end)).
    { intros k F p s Hs. split; [now apply Inv_o|]. cbn [blive]. rewrite (Inv_w _ _ _ Hs), Ew, (Inv_k _ _ _ Hs).
      rewrite (filter_kmem negb). fold todo. rewrite (filter_kmem (fun b => b)). reflexivity. }
    destruct due as [|d l] eqn:Ed; cbn [map] in Hstep.
    - destruct (nth_error todo i) as [x|] eqn:Ei.
      + destruct (Hvisit x Hn) as [K HK]. exists (S K). intros k [|F] Hk HF p s Hs; [lia|]. destruct (Hstep k F p s Hs) as [Hs' ->].
        cbv zeta. rewrite nth_error_map, Ei. cbn [option_map]. apply HK; [lia|lia|exact Hs'].
      + exists 1. intros k [|F] Hk HF p s Hs; [lia|]. destruct (Hstep k F p s Hs) as [Hs' ->]. cbv zeta. rewrite nth_error_map, Ei. cbn [option_map cres_ok]. eauto.
    - destruct (Hvisit (nth i todo d) Hn) as [K HK]. exists (S K). intros k [|F] Hk HF p s Hs; [lia|]. destruct (Hstep k F p s Hs) as [Hs' ->].
      cbv zeta. rewrite (map_nth BStr). apply HK; [lia|lia|exact Hs'].
  Qed.
End Live.

Lemma scompare_eqb {A} x y (a b : A) : match String.compare x y with Eq => a | _ => b end = if String.eqb x y then a else b.
Proof.
  destruct (String.eqb_spec x y) as [->|Hn]; [now rewrite compare_refl|].
  destruct (String.compare x y) eqn:E; [|reflexivity|reflexivity]. now apply String.compare_eq_iff in E.
Qed.
(** ** The validator under construction *)
Ltac round_starts := match goal with |- context [b_bind ?bx ?def ?k ?v ?a1 ?b1 (bpush ?s1)] => let t := evalb (b_bind bx def k v a1 b1 (bpush s1)) in change (b_bind bx def k v a1 b1 (bpush s1)) with t end.
Section Refs.
  Variable D : bv -> resolver.
  Variable tn : nat -> string.
  Notation P := (prog D tn).
  Variables (sv jsctx : bv) (rc : constr) (cc r va cm : nat).
  Notation V := (BPtr va []).
  Notation ctx_ok := (ctx_ok V sv cc r).
  Notation DD := (D jsctx).

  (** the constraint [c], made of cells other than those in [bad] *)
  Definition own (bad : list nat) (h : list bv) (v : bv) (c : constr) : Prop :=
    exists lo hi, hi <= List.length h /\ (forall x, In x bad -> ~ lo <= x < hi) /\ rep V lo hi h v c.
  Lemma own_keep bad h h' v c : own bad h v c -> (forall x, x < List.length h -> ~ In x bad -> cell x h' = cell x h) ->
    List.length h <= List.length h' -> own bad h' v c.
  Proof.
    intros (lo & hi & H1 & H2 & H3) Hk Hl. exists lo, hi. split; [lia|]. split; [exact H2|].
    eapply rep_keep; [exact H3|lia|lia|]. intros x Hx. apply Hk; [lia|]. intro Hin. exact (H2 x Hin Hx).
  Qed.
  Lemma own_more bad h v c x : own bad h v c -> List.length h <= x -> own (x :: bad) h v c.
  Proof.
    intros (lo & hi & H1 & H2 & H3) Hx. exists lo, hi. split; [lia|]. split; [|exact H3]. intros y [<-|Hy]; [lia|now apply H2].
  Qed.
  Definition regs (bad : list nat) (h : list bv) : list (bv * bv) -> refs -> Prop :=
    Forall2 (fun e p => fst e = BStr (fst p) /\ own bad h (snd e) (snd p)).
  Lemma regs_get bad h l rf x : regs bad h l rf -> match kget (BStr x) l with Some _ => exists c, sget x rf = Some c | None => sget x rf = None end.
  Proof.
    induction 1 as [|[kx v] [y c] l rf [E Ho] Hr IH]; cbn [kget sget fst snd] in *; [reflexivity|]. subst kx. cbn [kcmp].
    rewrite scompare_eqb. destruct (String.eqb x y); [eauto|exact IH].
  Qed.
  Lemma regs_put bad h l rf x v c : regs bad h l rf -> own bad h v c -> regs bad h (kput (BStr x) v l) (sset x c rf).
  Proof.
    intros H Ho. induction H as [|[kx v'] [y c'] l rf [E Ho'] Hr IH]; cbn [kput sset fst snd] in *; [constructor; [now split|constructor]|]. subst kx. cbn [kcmp].
    destruct (String.compare x y); constructor; auto; now constructor.
  Qed.
  Definition specials : list nat := [va; cm; cc; r].
  (** the cells of the validator; the names, the constraints registered *)
  Definition val_ok (rv root : bv) (h : list bv) (rf : refs) : Prop :=
    cell va h = Some (val_struct (BPtr cm []) "" root) /\
    (cell cm h = Some (map_struct BNil) /\ rf = [] /\ own specials h rv rc \/
     exists m l, cell cm h = Some (map_struct (BMap m)) /\ ~ In m specials /\ cell m h = Some (BMapI l) /\
       regs (m :: specials) h l rf /\ own (m :: specials) h rv rc).
  Definition refs_ok (rv : bv) (h : list bv) (c : cstate) : Prop := ctx_ok h (c_R c) /\ val_ok rv BNil h (c_refs c).

  (** GetReference: the name is registered, or not; the map is there afterwards *)
  Definition val_map (rv root : bv) (h : list bv) (rf : refs) (m : nat) : Prop :=
    exists l, cell va h = Some (val_struct (BPtr cm []) "" root) /\
      cell cm h = Some (map_struct (BMap m)) /\ ~ In m specials /\ cell m h = Some (BMapI l) /\ regs (m :: specials) h l rf /\ own (m :: specials) h rv rc.
  Lemma val_map_ok rv root h rf m : val_map rv root h rf m -> val_ok rv root h rf.
  Proof. intros (l & H1 & H2 & H3 & H4 & H5 & H6). split; [exact H1|]. right. exists m, l. auto 10. Qed.
  Lemma regs_keep bad h h' l rf : regs bad h l rf -> (forall x, x < List.length h -> ~ In x bad -> cell x h' = cell x h) ->
    List.length h <= List.length h' -> regs bad h' l rf.
  Proof. intros H Hk Hl. induction H as [|e p l rf [H1 H2] Hr IH]; constructor; [split; [exact H1|eapply own_keep; eassumption]|exact IH]. Qed.
  Hypothesis Hj : as_iface jsctx = jsctx.
  Hypothesis Hva : va <> cm.
  Hypothesis Hcc : cc <> va /\ cc <> cm /\ r <> va /\ r <> cm.
  Lemma src_get rv e h w k c x : refs_ok rv h c -> exists h' m a b, bcall P (S (S (S k))) "ConstraintMap.GetReference" [BPtr cm []; BStr x] (st e h w) = BOk [a; b] (st e h' w) /\
    (match sget x (c_refs c) with Some _ => b = BNil | None => exists m, b = BMsg m end) /\ ctx_ok h' (c_R c) /\ val_map rv BNil h' (c_refs c) m.
  Proof.
    intros [HC [Hv [(Hm & Hrf & Ho)|(m & l & Hm & Hns & Hml & Hrs & Ho)]]].
    - destruct (ctx_lt _ _ _ _ _ _ HC) as (L1 & L2 & _). pose proof (cell_lt _ _ _ Hm). pose proof (cell_lt _ _ _ Hv).
      rewrite (src_getReference_first D tn e h w k cm x Hm). do 4 eexists. split; [reflexivity|]. rewrite Hrf. split; [eexists; reflexivity|].
      assert (Hk : forall y, y < List.length h -> y <> cm -> cell y (put cm (map_struct (BMap (List.length h))) (h ++ [BMapI []])) = cell y h)
        by (intros y Hy Hn; rewrite cell_other by exact Hn; now apply cell_old).
      assert (Hl : List.length h <= List.length (put cm (map_struct (BMap (List.length h))) (h ++ [BMapI []]))) by (rewrite put_length, app_length; lia).
      split; [eapply ctx_keep; [exact HC|apply Hk; intuition|apply Hk; intuition]|].
      exists []. split; [rewrite Hk by auto; exact Hv|]. split; [apply cell_put; rewrite app_length; cbn; lia|].
      split; [cbn; intuition lia|]. split; [rewrite cell_other by lia; apply cell_new|]. split; [constructor|].
      apply own_keep with (h := h); [now apply own_more|intros y Hy Hn; apply Hk; [exact Hy|]; intros ->; apply Hn; cbn; tauto|exact Hl].
    - rewrite (src_getReference D tn e h w k cm m l x Hm Hml). pose proof (regs_get _ _ _ _ x Hrs) as Hg.
      exists h, m. destruct (kget (BStr x) l) as [c0|].
      + destruct Hg as [c1 ->]. do 2 eexists. split; [reflexivity|]. split; [reflexivity|]. split; [exact HC|]. exists l. auto 10.
      + rewrite Hg. do 2 eexists. split; [reflexivity|]. split; [eauto|]. split; [exact HC|]. exists l. auto 10.
  Qed.
  Ltac iface := repeat match goal with |- context [("jsctx", Vl ?t)] => lazymatch t with jsctx => fail | _ => change t with (as_iface jsctx); rewrite Hj end end.
  Ltac get_ref c Hh :=
    lazymatch goal with |- context [bcall P (S (S (S ?k))) "ConstraintMap.GetReference" [_; BStr ?x] (st ?E ?h ?w)] =>
      destruct (src_get _ E h w k c x Hh) as (h1 & m1 & a1 & b1 & Hg1 & Hb1 & HC1 & HV1); rewrite Hg1; clear Hg1
    end.
  (** a constraint built meanwhile *)
  Lemma val_grown rv root h h' rf m : val_map rv root h rf m -> grown r h h' -> val_map rv root h' rf m.
  Proof.
    intros (l & H1 & H2 & H3 & H4 & H5 & H6) [G1 G2]. pose proof (cell_lt _ _ _ H1). pose proof (cell_lt _ _ _ H2). pose proof (cell_lt _ _ _ H4).
    assert (Hk : forall y, y < List.length h -> ~ In y (m :: specials) -> cell y h' = cell y h) by (intros y Hy Hn; apply G2; [exact Hy|]; intros ->; apply Hn; cbn; tauto).
    exists l. repeat apply conj.
    - rewrite G2 by intuition. exact H1.
    - rewrite G2 by intuition. exact H2.
    - exact H3.
    - rewrite G2; [exact H4|assumption|]. intros ->. apply H3. cbn. tauto.
    - eapply regs_keep; eassumption.
    - eapply own_keep; eassumption.
  Qed.
  Lemma src_put rv e h w k c x v y m : ctx_ok h (c_R c) -> val_map rv BNil h (c_refs c) m -> own (m :: specials) h v y ->
    exists h', bcall P (S (S (S k))) "ConstraintMap.SetReference" [BPtr cm []; BStr x; v] (st e h w) = BOk [] (st e h' w) /\
      ctx_ok h' (c_R c) /\ val_map rv BNil h' (sset x y (c_refs c)) m.
  Proof.
    intros HC (l & H1 & H2 & H3 & H4 & H5 & H6) Ho. assert (Hn : cm <> m) by (intros ->; apply H3; cbn; tauto).
    pose proof (cell_lt _ _ _ H4).
    rewrite (src_setReference D tn e h w k cm m l x v Hn H2 H4). eexists. split; [reflexivity|].
    assert (Hk : forall z, z <> m -> cell z (put m (BMapI (kput (BStr x) v l)) h) = cell z h) by (intros; now apply cell_other).
    assert (Hk' : forall z, z < List.length h -> ~ In z (m :: specials) -> cell z (put m (BMapI (kput (BStr x) v l)) h) = cell z h) by (intros z _ Hz; apply Hk; intros ->; apply Hz; cbn; tauto).
    assert (Hl : List.length h <= List.length (put m (BMapI (kput (BStr x) v l)) h)) by (rewrite put_length; lia).
    split; [eapply ctx_keep; [exact HC| |]; apply Hk; intros <-; apply H3; cbn; tauto|].
    exists (kput (BStr x) v l). repeat apply conj.
    - rewrite Hk; [exact H1|]. intros <-. apply H3. cbn. tauto.
    - rewrite Hk by exact Hn. exact H2.
    - exact H3.
    - now apply cell_put.
    - eapply regs_keep; [apply regs_put; eassumption|exact Hk'|exact Hl].
    - eapply own_keep; eassumption.
  Qed.
  Definition comp_ok (rv : bv) (o : bev (list bv)) (e : list bscope) (x : cres) : Prop :=
    match x with
    | COk c => exists h, o = BOk [BNil] (st e h (c_w c)) /\ refs_ok rv h c
    | CErr m => exists m' h w, o = BOk [BMsg m'] (st e h w) /\ said m' m
    | CPanic _ => exists m', o = BPn m'
    | COOF => True
    end.
  Lemma resolve_call call s x : method_of P call BResolver "Resolve" [jsctx; BStr x] s =
    match DD x with RError e => BOk [BNil; BMsg e] s | t => BOk [BThing t; BNil] s end.
  Proof. reflexivity. Qed.
  (** the names of the specials are below the length *)
  Lemma own_built rv h h' v y m root rf R : ctx_ok h R -> val_map rv root h rf m -> rep V (List.length h) (List.length h') h' v y -> own (m :: specials) h' v y.
  Proof.
    intros HC (l & H1 & H2 & _ & H4 & _) Hr. destruct (ctx_lt _ _ _ _ _ _ HC) as (L1 & L2 & _).
    pose proof (cell_lt _ _ _ H1). pose proof (cell_lt _ _ _ H2). pose proof (cell_lt _ _ _ H4).
    exists (List.length h), (List.length h'). split; [lia|]. split; [|exact Hr]. intros x Hin. cbn in Hin. intuition lia.
  Qed.
  (** the loop over ctx.R, in an environment [E] *)
  Definition in_env (rv : bv) (E : list bscope) (c : cstate) (s : bst) : Prop := exists h, s = st E h (c_w c) /\ refs_ok rv h c.
  Definition loop_body : list stmt := Eval vm_compute in
    match funcs_b "compileReferences" with
    | Some g => match find (fun x => match x with SRange _ _ _ _ _ _ => true | _ => false end) (fn_body g) with Some (SRange _ _ _ _ _ b) => b | _ => [] end
    | None => []
    end.
  Definition compile_rest : list stmt := Eval vm_compute in match funcs_b "compileReferences" with Some g => skipn 7 (fn_body g) | None => [] end.
  Lemma in_env_keys rv E c s : in_env rv E c s -> cell_keys r s = map BStr (keys (c_R c)).
  Proof.
    intros (h & -> & [[_ HR] _]). unfold cell_keys. cbn [heap]. change (heap (st E h (c_w c))) with h. rewrite HR. unfold ref_map, keys. rewrite !map_map. apply map_ext. now intros [].
  Qed.
  Definition comp_spec (n : nat) : Prop := forall ref c, compile n DD ref c <> COOF -> exists K, forall k, K <= k -> forall rv e h w, w = c_w c -> refs_ok rv h c ->
    comp_ok rv (bcall P k "compileReferences" [BPtr cc []; BResolver; BPtr va []; BStr ref; jsctx] (st e h w)) e (compile n DD ref c).
  (** the value of the parameters and variables *)
  Definition compile_frame (th s1 : bv) (ref : string) : bscope :=
    [("s1", Vl s1); ("err", Vl BNil); ("thing", Vl th); ("ctx", Vl (BPtr cc [])); ("r", Vl BResolver); ("v", Vl V); ("ref", Vl (BStr ref)); ("jsctx", Vl jsctx)].
  Definition after_build (n : nat) (ref : string) (x : schema) (c : cstate) : cres :=
    match build x (c_R c) (c_w c) with
    | GErr m => CErr m
    | GPanic m => CPanic m
    | GOk (y, R', w') => range_refs n (compile n DD) (keys R') [] {| c_refs := sset ref y (c_refs c); c_R := R'; c_w := w'; c_log := ref :: c_log c |}
    end.
  (** builder/builder.go:139-153 *)
  Lemma src_compile_rest n : comp_spec n -> forall ref x c, after_build n ref x c <> COOF ->
    exists K, forall k, K <= k -> forall rv th e h w m, w = c_w c -> ctx_ok h (c_R c) -> val_map rv BNil h (c_refs c) m ->
      comp_ok rv (b_called e (brun (bexec P (bcall P k) [] k) compile_rest (st [compile_frame th (of_schema x) ref] h w))) e (after_build n ref x c).
  Proof.
    intros IH ref x c Hn. unfold after_build in *.
    assert (Hbuild : forall k, 2 * height x + 7 <= k -> builds D tn V sv cc r k x)
      by (intros k Hk; replace k with (2 * height x + 4 + (k - (2 * height x + 4))) by lia; now apply src_build).
    destruct (build x (c_R c) (c_w c)) as [[[y R'] w']|m0|m0] eqn:Eb.
    - set (c1 := {| c_refs := sset ref y (c_refs c); c_R := R'; c_w := w'; c_log := ref :: c_log c |}) in *.
      set (F1 := fun th v1 => [("c1", Vl v1) :: compile_frame th (of_schema x) ref]).
      set (Inv := fun (p : bv * bv * bv) c s => in_env (fst (fst p)) (F1 (snd (fst p)) (snd p)) c s).
      assert (Hloop : exists K, forall k F, K <= k -> K <= F -> forall p s, Inv p c1 s ->
        cres_ok (fun m => [BMsg m]) _ Inv p (blive [] F (brun (bexec P (bcall P k) [] k) loop_body) true (Some "ref") r (map BStr (keys R')) [] s) (range_refs n (compile n DD) (keys R') [] c1)).
      { apply (live [] (fun k => brun (bexec P (bcall P k) [] k) loop_body) "ref" r (fun m => [BMsg m]) (compile n DD) _ Inv); [| | | |exact Hn].
        - intros p c0 s (h & -> & _). reflexivity.
        - intros p c0 s H. eapply in_env_keys, H.
        - intros p c0 s w (h & -> & Hh). exists h. split; [reflexivity|exact Hh].
        - intros z c0 Hz. destruct (IH z c0 Hz) as [K HK]. exists K. intros k Hk [[rv th] v1] s (h & -> & Hh). cbn [fst snd] in Hh |- *.
          unfold bround, loop_body, F1, compile_frame. remember (c_w c0) as w0 eqn:Ew0.
          round_starts. stepsb. 
          lazymatch goal with |- context [bcall P k "compileReferences" _ (st ?E h w0)] => pose proof (HK k Hk rv E h w0 eq_refl Hh) as H0 end.
          destruct (compile n DD z c0) as [c2|m2|m2|]; cbn [comp_ok cres_ok] in *.
          + destruct H0 as (h2 & -> & Hh2). remember (c_w c2) as w2 eqn:Ew2. stepsb. eexists. split; [reflexivity|]. exists h2. rewrite <- Ew2. split; [reflexivity|exact Hh2].
          + destruct H0 as (m' & h2 & w2 & -> & Hm). stepsb. do 2 eexists. split; [reflexivity|exact Hm].
          + destruct H0 as (m' & ->). stepsb. eexists. reflexivity.
          + exact I. }
      destruct Hloop as [K HK]. exists (Nat.max K (2 * height x + 7)). intros k Hk rv th e h w m Ew HC HV. rewrite <- Ew in Eb.
      do 7 (destruct k as [|k]; [lia|]).
      pose proof (Hbuild (S (S (S (S (S (S (S k))))))) ltac:(lia)) as HB. clear Hbuild.
      unfold compile_rest, compile_frame. stepsb.
      lazymatch goal with |- context [bcall P _ "buildFromSchema" _ (st ?E h ?w)] => pose proof (HB E h (c_R c) w HC) as H0 end.
      cbv zeta in H0. rewrite Eb in H0. destruct H0 as (v1 & h1 & -> & Hr1 & HC1 & HG1).
      pose proof (own_built _ _ _ _ _ _ _ _ _ HC HV Hr1) as Ho1. pose proof (val_grown _ _ _ _ _ _ HV HG1) as HV1. 
      pose proof HV1 as (l1 & Hv1 & _).
      stepsb.
      lazymatch goal with |- context [bcall P (S (S (S ?k))) "ConstraintMap.SetReference" _ (st ?E h1 ?w)] =>
        destruct (src_put rv E h1 w k {| c_refs := c_refs c; c_R := R'; c_w := w'; c_log := [] |} ref v1 y m HC1 HV1 Ho1) as (h2 & -> & HC2 & HV2) end.
      cbn [c_refs c_R] in HC2, HV2. clear Hv1. pose proof HV2 as (l2 & Hv2 & _). pose proof HC2 as [Hc2 _].
      stepsb.
      match goal with |- context [b_range P ?call [] ?F ?k0 ?v0 ?d ?b (BMap r) ?s] =>
        change (b_range P call [] F k0 v0 d b (BMap r) s) with (blive [] F (brun (bexec P call [] F) loop_body) d k0 r (cell_keys r s) [] s);
        assert (Hin : in_env rv (F1 th v1) c1 s) by (exists h2; split; [reflexivity|]; split; [exact HC2|eapply val_map_ok; exact HV2]);
        pose proof (HK F F ltac:(lia) ltac:(lia) (rv, th, v1) s Hin) as H0; rewrite (in_env_keys _ _ _ _ Hin); change (keys (c_R c1)) with (keys R')
      end.
      destruct (range_refs n (compile n DD) (keys R') [] c1) as [c2|m2|m2|]; cbn [comp_ok cres_ok] in *.
      + destruct H0 as (s2 & -> & h3 & -> & Hh3). cbn [fst snd] in Hh3 |- *. unfold F1, compile_frame. remember (c_w c2) as w2 eqn:Ew2. stepsb. eexists. split; [reflexivity|exact Hh3].
      + destruct H0 as (m' & s2 & -> & Hm). stepsb. exists m', (heap s2), (bord s2). split; [reflexivity|exact Hm].
      + destruct H0 as (m' & ->). stepsb. eexists. reflexivity.
      + exact I.
    - exists (2 * height x + 7). intros k Hk rv th e h w m Ew HC HV. rewrite <- Ew in Eb. pose proof (Hbuild k Hk) as HB.
      unfold compile_rest, compile_frame. stepsb.
      lazymatch goal with |- context [bcall P _ "buildFromSchema" _ (st ?E h ?w)] => pose proof (HB E h (c_R c) w HC) as H0 end.
      cbv zeta in H0. rewrite Eb in H0. destruct H0 as (m' & h1 & w1 & -> & Hm). stepsb. cbn [comp_ok]. exists m', h1, w1. split; [reflexivity|exact Hm].
    - exists (2 * height x + 7). intros k Hk rv th e h w m Ew HC HV. rewrite <- Ew in Eb. pose proof (Hbuild k Hk) as HB.
      unfold compile_rest, compile_frame. stepsb.
      lazymatch goal with |- context [bcall P _ "buildFromSchema" _ (st ?E h ?w)] => pose proof (HB E h (c_R c) w HC) as H0 end.
      cbv zeta in H0. rewrite Eb in H0. destruct H0 as (m' & ->). stepsb. cbn [comp_ok]. eexists. reflexivity.
  Qed.
  (** builder/builder.go:110-154 *)
  Lemma src_compile : forall n, comp_spec n.
  Proof.
    induction n as [|n IH]; intros ref c Hn; [now elim Hn|].
    assert (Hd : compile (S n) DD ref c = match sget ref (c_refs c) with Some _ => COk c | None =>
      match DD ref with RError m => CErr m | RSchema x => after_build n ref x c | RMap (inr m) => CErr m | RMap (inl x) => after_build n ref x c | ROther => after_build n ref SNil c end end).
    { cbn [compile]. unfold after_build. destruct (sget ref (c_refs c)); [reflexivity|]. destruct (DD ref) as [m|x|[x|m]|]; reflexivity. }
    rewrite Hd in *. clear Hd. destruct (sget ref (c_refs c)) as [c0|] eqn:Eg.
    - exists 4. intros k Hk rv e h w Ew Hh. do 4 (destruct k as [|k]; [lia|]). cbn [comp_ok]. pose proof Hh as [[Hcc1 _] [Hv1 _]]. open_b. iface. stepsb.
      get_ref c Hh. rewrite Eg in Hb1. subst b1. stepsb. eexists. rewrite <- Ew. split; [reflexivity|]. split; [exact HC1|eapply val_map_ok; exact HV1].
    - destruct (DD ref) as [m|x|[x|m]|] eqn:Er.
      + exists 4. intros k Hk rv e h w Ew Hh. do 4 (destruct k as [|k]; [lia|]). cbn [comp_ok]. pose proof Hh as [[Hcc1 _] [Hv1 _]]. open_b. iface. stepsb.
        get_ref c Hh. rewrite Eg in Hb1. destruct Hb1 as (m2 & ->). stepsb. rewrite resolve_call, Er. stepsb. do 3 eexists. split; [reflexivity|left; reflexivity].
      + destruct (src_compile_rest n IH ref x c Hn) as [K HK].
        exists (K + 5). intros k Hk rv e h w Ew Hh. do 4 (destruct k as [|k]; [lia|]). pose proof Hh as [[Hcc1 _] [Hv1 _]]. open_b. iface. stepsb.
        get_ref c Hh. rewrite Eg in Hb1. destruct Hb1 as (m2 & ->). stepsb. rewrite resolve_call, Er.
        assert (HK1 : K <= S (S (S k))) by lia.
        pose proof (HK (S (S (S k))) HK1 rv (BThing (RSchema x)) e h1 w m1 Ew HC1 HV1) as H0. revert H0. unfold compile_rest, compile_frame. stepsb. intro H0. exact H0.
      + destruct (src_compile_rest n IH ref x c Hn) as [K HK].
        exists (K + 5). intros k Hk rv e h w Ew Hh. do 4 (destruct k as [|k]; [lia|]). pose proof Hh as [[Hcc1 _] [Hv1 _]]. open_b. iface. stepsb.
        get_ref c Hh. rewrite Eg in Hb1. destruct Hb1 as (m2 & ->). stepsb. rewrite resolve_call, Er.
        assert (HK1 : K <= S (S (S k))) by lia.
        pose proof (HK (S (S (S k))) HK1 rv (BThing (RMap (inl x))) e h1 w m1 Ew HC1 HV1) as H0. revert H0. unfold compile_rest, compile_frame. stepsb. intro H0. exact H0.
      + exists 4. intros k Hk rv e h w Ew Hh. do 4 (destruct k as [|k]; [lia|]). cbn [comp_ok]. pose proof Hh as [[Hcc1 _] [Hv1 _]]. open_b. iface. stepsb.
        get_ref c Hh. rewrite Eg in Hb1. destruct Hb1 as (m2 & ->). stepsb. rewrite resolve_call, Er. stepsb. do 3 eexists. split; [reflexivity|left; reflexivity].
      + destruct (src_compile_rest n IH ref SNil c Hn) as [K HK].
        exists (K + 5). intros k Hk rv e h w Ew Hh. do 4 (destruct k as [|k]; [lia|]). pose proof Hh as [[Hcc1 _] [Hv1 _]]. open_b. iface. stepsb.
        get_ref c Hh. rewrite Eg in Hb1. destruct Hb1 as (m2 & ->). stepsb. rewrite resolve_call, Er.
        assert (HK1 : K <= S (S (S k))) by lia.
        pose proof (HK (S (S (S k))) HK1 rv (BThing (ROther)) e h1 w m1 Ew HC1 HV1) as H0. revert H0. unfold compile_rest, compile_frame. stepsb. intro H0. exact H0.
  Qed.
End Refs.