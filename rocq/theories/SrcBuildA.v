(** builder/array.go, run from its source. *)
From Verif Require Import Base GoFloat GoValue Maybe Formats Constraint StructInfo Validate Builder SrcSyntax SrcText SrcTextB SrcProg SrcStore SrcProgB SrcStepB SrcSetters SrcRep SrcBuildS SrcLoop.
Open Scope string_scope.
Open Scope list_scope.
Open Scope nat_scope.

Section Arr.
  Variable D : bv -> resolver.
  Variable tn : nat -> string.
  Notation P := (prog D tn).
  Variables (V sv : bv) (cc r : nat).
  Notation ctx_ok := (ctx_ok V sv cc r).
  Notation builds := (builds D tn V sv cc r).
  Lemma arr_done X vi vp va l a h h1 h' R : grown a h1 h' -> cell a h' = Some (arr_struct X vi vp va) ->
    rep V (S a) (List.length h1) h1 vi (a_items X) -> slice_items vp = Some l -> reps V (S a) (List.length h1) h1 l (a_pos X) ->
    rep V (S a) (List.length h1) h1 va (a_add X) -> ctx_ok h1 R -> a <> r -> a <> cc -> S a = List.length h -> List.length h <= List.length h1 ->
    (forall y, y < a -> y <> r -> cell y h1 = cell y h) ->
    rep V a (List.length h') h' (BPtr a []) (CArr X) /\ ctx_ok h' R /\ List.length h <= List.length h' /\ (forall y, y < a -> y <> r -> cell y h' = cell y h).
  Proof.
    intros [G1 G2] Ha H1 H2 H3 H4 H5 H6 H7 H8 H9 H10. destruct (ctx_lt _ _ _ _ _ _ H5) as (L1 & L2 & _).
    split; [|split; [|split; [lia|intros y Hy Hn; rewrite G2 by lia; now apply H10]]].
    - assert (Hk : forall x, S a <= x < List.length h1 -> cell x h' = cell x h1) by (intros x Hx; apply G2; lia).
      econstructor; [|exact Ha| | exact H2| |]; [lia|eapply rep_keep; [exact H1|lia|lia|exact Hk]|eapply reps_keep; [exact H3|lia|lia|exact Hk]|eapply rep_keep; [exact H4|lia|lia|exact Hk]].
    - eapply ctx_keep; [exact H5|apply G2; [exact L1|congruence]|apply G2; [exact L2|congruence]].
  Qed.
  Ltac finish c x vi vp va :=
    rewrite brun_cons;
    leads (arr_struct (set_opt arr_min (sc_minItems c) x) vi vp va) ltac:(optional (sc_minItems c) src_arr_min);
    rewrite brun_cons;
    leads (arr_struct (set_opt arr_max (sc_maxItems c) (set_opt arr_min (sc_minItems c) x)) vi vp va) ltac:(optional (sc_maxItems c) src_arr_max);
    rewrite brun_cons;
    leads (arr_struct (set_opt arr_unique (sc_unique c) (set_opt arr_max (sc_maxItems c) (set_opt arr_min (sc_minItems c) x))) vi vp va) ltac:(optional (sc_unique c) src_arr_unique);
    stepsb.

  Lemma kept_items (c : scfg) x : a_items (set_opt arr_unique (sc_unique c) (set_opt arr_max (sc_maxItems c) (set_opt arr_min (sc_minItems c) x))) = a_items x.
  Proof. destruct (sc_unique c), (sc_maxItems c), (sc_minItems c); reflexivity. Qed.
  Lemma kept_pos (c : scfg) x : a_pos (set_opt arr_unique (sc_unique c) (set_opt arr_max (sc_maxItems c) (set_opt arr_min (sc_minItems c) x))) = a_pos x.
  Proof. destruct (sc_unique c), (sc_maxItems c), (sc_minItems c); reflexivity. Qed.
  Lemma kept_add (c : scfg) x : a_add (set_opt arr_unique (sc_unique c) (set_opt arr_max (sc_maxItems c) (set_opt arr_min (sc_minItems c) x))) = a_add x.
  Proof. destruct (sc_unique c), (sc_maxItems c), (sc_minItems c); reflexivity. Qed.

  (** the model, in the two parts of the source *)
  Definition arr_of (c : scfg) : bm arrcfg :=
    match sc_items c with
    | None => Builder.ret new_arr
    | Some (false, []) => Builder.boom "index out of range"
    | Some (false, x :: _) => Builder.bind (build x) (fun y => Builder.ret (arr_items y new_arr))
    | Some (true, l) => Builder.bind (seqM (map build l)) (fun ys =>
        match sc_addItems c with
        | None => Builder.ret (arr_additional CNil (arr_positional ys new_arr))
        | Some SNil => Builder.ret (arr_additional CEmpty (arr_positional ys new_arr))
        | Some x => Builder.bind (build x) (fun y => Builder.ret (arr_additional y (arr_positional ys new_arr)))
        end)
    end.
  Definition arr_end (c : scfg) (x : arrcfg) : arrcfg := set_opt arr_unique (sc_unique c) (set_opt arr_max (sc_maxItems c) (set_opt arr_min (sc_minItems c) x)).
  Lemma build_array_eq c R w :
    build_array c (match sc_items c with Some (_, l) => map build l | None => [] end) (match sc_addItems c with Some x => build x | None => Builder.ret CNil end) R w =
    Builder.bind (arr_of c) (fun x => Builder.ret (CArr (arr_end c x))) R w.
  Proof.
    unfold build_array, arr_of. destruct (sc_items c) as [[[] [|x l]]|]; try reflexivity.
    - cbn [map seqM]. unfold Builder.bind, Builder.ret. destruct (sc_addItems c) as [[|c']|]; try reflexivity.
      destruct (build (Sch c') R w) as [[[? ?] ?]|?|?]; reflexivity.
    - unfold Builder.bind, Builder.ret. destruct (seqM (map build (x :: l)) R w) as [[[ys R1] w1]|?|?]; try reflexivity.
      destruct (sc_addItems c) as [[|c']|]; try reflexivity. destruct (build (Sch c') R1 w1) as [[[? ?] ?]|?|?]; reflexivity.
    - cbn [map]. unfold Builder.bind, Builder.ret. destruct (build x R w) as [[[? ?] ?]|?|?]; reflexivity.
  Qed.

  Lemma set_nth_mid {A} (vl : list A) x y rest : set_nth (List.length vl) y (vl ++ x :: rest) = vl ++ y :: rest.
  Proof. induction vl as [|z vl IH]; cbn; [reflexivity|]. now rewrite IH. Qed.
  Lemma set_index_var vl b0 rest v1 s x n : List.length vl = n -> set_index (EId x) v1 (BList (vl ++ b0 :: rest)) (BInt (Z.of_nat n)) s =
    match var_set x (BList (vl ++ v1 :: rest)) s with Some s => BNx s | None => BStkS x end.
  Proof.
    intros <-. unfold set_index. rewrite (proj2 (Z.leb_le 0 (Z.of_nat (List.length vl)))) by lia.
    rewrite (proj2 (Z.ltb_lt (Z.of_nat (List.length vl)) _)) by (rewrite app_length; cbn [List.length]; lia).
    rewrite Nat2Z.id, set_nth_mid. reflexivity.
  Qed.
  Definition arr_state (a : nat) (h : list bv) (E : list bscope) (x : arrcfg) (R : Builder.names) (s : bst) : Prop :=
    exists h1 vi vp va l, s = st E h1 (bord s) /\ cell a h1 = Some (arr_struct x vi vp va) /\ rep V (S a) (List.length h1) h1 vi (a_items x) /\
      slice_items vp = Some l /\ reps V (S a) (List.length h1) h1 l (a_pos x) /\ rep V (S a) (List.length h1) h1 va (a_add x) /\
      ctx_ok h1 R /\ List.length h <= List.length h1 /\ (forall y, y < a -> y <> r -> cell y h1 = cell y h).
  Lemma src_buildArray k c a h R w e :
    ctx_ok h R -> cell a h = Some (arr_struct new_arr BNil BNil empty_struct) -> S a = List.length h ->
    (forall t l x, sc_items c = Some (t, l) -> In x l -> builds (S (S k)) x) -> (forall x, sc_addItems c = Some x -> builds (S (S k)) x) ->
    fills D tn V sv cc r (S (S (S k))) "buildArrayConstraint" a a c
      (build_array c (match sc_items c with Some (_, l) => map build l | None => [] end) (match sc_addItems c with Some x => build x | None => Builder.ret CNil end)) e h R w.
  Proof.
    intros HC Ha Hlast Hi Hadd. unfold fills. rewrite build_array_eq. cbv zeta. destruct (ctx_lt _ _ _ _ _ _ HC) as (L1 & L2 & L3).
    assert (Nr : a <> r) by (intros ->; destruct HC as [_ HC]; rewrite Ha in HC; discriminate HC).
    assert (Nc : a <> cc) by (intros ->; destruct HC as [HC _]; rewrite Ha in HC; discriminate HC).
    open_b. rewrite brun_cons.
    match goal with |- context [bexec ?cx ?call ?bx ?n ?x ?s0] => assert (H0 : bexec cx call bx n x s0 = BNx s0) by (stepsb; reflexivity); rewrite H0; clear H0; cbn [bends] end.
    rewrite brun_cons.
    match goal with |- context [bexec ?cx ?call ?bx ?n ?x (st ?E ?h ?w)] =>
      assert (Hitems : outcome (fun m => [BMsg m]) (bexec cx call bx n x (st E h w)) (arr_of c R w) (arr_state a h E)) end.
    { unfold arr_of. destruct (sc_items c) as [[[] l]|] eqn:Ei.
      - stepsb. rewrite map_length, Nat2Z.id.
        match goal with |- context [brounds ?bx ?body ?def ?k ?v _ (st (?E1 :: ?E) h w)] =>
          pose (Inv := fun (d : list constr) (R : Builder.names) (s : bst) => exists h1 vl rest w1,
            s = st ([("specs", Vl (BList (vl ++ rest)))] :: E) h1 w1 /\
            List.length vl + List.length rest = List.length l /\ reps V (S a) (List.length h1) h1 vl d /\
            cell a h1 = Some (arr_struct new_arr BNil BNil empty_struct) /\ ctx_ok h1 R /\ List.length h <= List.length h1 /\
            (forall y, y < a -> y <> r -> cell y h1 = cell y h));
          assert (Hloop : outcome (fun m => [BMsg m]) (brounds bx body def k v (b_indexed 0 (map of_schema l)) (st (E1 :: E) h w)) (seqM (map build l) R w) Inv) end.
        { pose proof (ents_indexed l 0) as He. cbn in He. rewrite He.
          refine (loop_gen _ _ _ _ _ _ build (fun n x => (BInt (Z.of_nat n), of_schema x)) Inv (List.length l) l [] R _ eq_refl _ _).
          2:{ exists h, [], (repeat BNil (List.length l)), w. split; [reflexivity|]. split; [rewrite repeat_length; reflexivity|]. split; [constructor|].
            split; [exact Ha|]. split; [exact HC|]. split; [lia|reflexivity]. }
          intros x d R0 s0 Hin Hlt (h0 & vl & rest & w0 & -> & Hd & Hvl & Ha0 & HC0 & HL0 & HK0). cbn [fst snd bord].
          pose proof (Hi true l x eq_refl Hin) as Hx. pose proof (reps_length _ _ _ _ _ _ Hvl) as Hlen.
          match goal with |- context [b_bind ?bx ?def ?k ?v ?a1 ?b1 (bpush ?s1)] => let t := evalb (b_bind bx def k v a1 b1 (bpush s1)) in change (b_bind bx def k v a1 b1 (bpush s1)) with t end.
          stepsb. use_build Hx HC0.
          * pose proof (reps_length _ _ _ _ _ _ Hvl) as Hlen0. destruct rest as [|b0 rest]; [cbn [List.length] in Hd; lia|].
            stepsb. rewrite (set_index_var _ _ _ _ _ _ _ Hlen). stepsb. destruct G1 as [G1 G2]. pose proof (cell_lt _ _ _ Ha0) as Hl0.
            eexists. split; [reflexivity|]. split; [reflexivity|]. exists h1, (vl ++ [v1]), rest, w1. rewrite <- app_assoc.
            split; [reflexivity|]. split; [rewrite app_length; cbn [List.length] in *; lia|].
            destruct (ctx_lt _ _ _ _ _ _ HC0) as (M1 & M2 & M3).
            split; [apply reps_app; [eapply reps_keep; [exact Hvl|lia|lia|]|constructor; [|constructor]; eapply rep_keep; [exact Hrep1|lia|lia|reflexivity]]; intros y Hy; apply G2; lia|].
            split; [rewrite G2 by (try lia; exact Nr); exact Ha0|]. split; [exact HC1|]. split; [lia|].
            intros y Hy Hn. rewrite G2 by (try lia; exact Hn). now apply HK0.
          * stepsb. do 2 eexists. split; [reflexivity|assumption].
          * stepsb. eexists. reflexivity. }
        unfold Builder.bind at 1. destruct (seqM (map build l) R w) as [[[ys R5] w5]|m|m] eqn:Es.
        + destruct Hloop as (s1 & -> & <- & h5 & vl & rest & w6 & -> & Hd & Hvl & Ha1 & HC1 & HL1 & HK1). cbn [bord]. clear Inv.
          apply seqM_length in Es. rewrite map_length in Es. pose proof (reps_length _ _ _ _ _ _ Hvl) as Hlen.
          destruct rest as [|? rest]; [|cbn [List.length] in Hd; lia]. rewrite app_nil_r. clear Hd Es.
          pose proof (cell_lt _ _ _ Ha1) as Hl1. destruct (ctx_lt _ _ _ _ _ _ HC1) as (M1 & M2 & M3).
          stepsb. erewrite src_arr_positional by exact Ha1.
          match goal with |- context [put a ?X h5] => pose proof (cell_put a X h5 Hl1) as Ha2; remember (put a X h5) as h2 eqn:Eh2 end.
          assert (Hk : forall x, x <> a -> cell x h2 = cell x h5) by (intros; subst h2; now apply cell_other).
          assert (Hl2 : List.length h2 = List.length h5) by (subst h2; apply put_length). clear Eh2.
          assert (HC2 : ctx_ok h2 R5) by (eapply ctx_keep; [exact HC1|apply Hk; congruence|apply Hk; congruence]).
          assert (Hvl2 : reps V (S a) (List.length h2) h2 vl ys) by (eapply reps_keep; [exact Hvl|lia|lia|intros; apply Hk; lia]).
          assert (HK2 : forall y, y < a -> y <> r -> cell y h2 = cell y h) by (intros y Hy Hn; rewrite Hk by lia; now apply HK1).
          clear Hvl Ha1 HC1 HK1 Hk.
          destruct (sc_addItems c) as [[|c']|] eqn:Ea; unfold Builder.ret.
          * stepsb. erewrite src_arr_additional by exact Ha2. stepsb. eexists. split; [reflexivity|]. split; [reflexivity|].
            exists (put a (arr_struct (arr_additional CEmpty (arr_positional ys new_arr)) BNil (BList vl) empty_struct) h2), BNil, (BList vl), empty_struct, vl.
            assert (Hk : forall x X, x <> a -> cell x (put a X h2) = cell x h2) by (intros; now apply cell_other).
            split; [reflexivity|]. rewrite put_length. split; [apply cell_put; lia|]. split; [constructor|]. split; [reflexivity|].
            split; [eapply reps_keep; [exact Hvl2|lia|lia|intros; apply Hk; lia]|]. split; [constructor|].
            split; [eapply ctx_keep; [exact HC2|apply Hk; congruence|apply Hk; congruence]|]. split; [lia|].
            intros y Hy Hn. rewrite Hk by lia. now apply HK2.
          * pose proof (Hadd _ eq_refl) as Hx. unfold Builder.bind. stepsb. change (BSch c') with (of_schema (Sch c')). use_build Hx HC2.
            -- destruct G1 as [G1 G2]. assert (Ha3 : cell a h1 = Some (arr_struct new_arr BNil (BList vl) empty_struct)) by (rewrite G2 by (try lia; exact Nr); exact Ha2).
               stepsb. erewrite src_arr_additional by exact Ha3. stepsb. eexists. split; [reflexivity|]. split; [reflexivity|].
               exists (put a (arr_struct (arr_additional y1 (arr_positional ys new_arr)) BNil (BList vl) v1) h1), BNil, (BList vl), v1, vl.
               assert (Hk : forall x X, x <> a -> cell x (put a X h1) = cell x h1) by (intros; now apply cell_other).
               split; [reflexivity|]. rewrite put_length. split; [apply cell_put; lia|]. split; [constructor|]. split; [reflexivity|].
               split; [eapply reps_keep; [exact Hvl2|lia|lia|intros; rewrite Hk by lia; apply G2; lia]|].
               split; [eapply rep_keep; [exact Hrep1|lia|lia|intros; apply Hk; lia]|].
               split; [eapply ctx_keep; [exact HC1|apply Hk; congruence|apply Hk; congruence]|]. split; [lia|].
               intros y Hy Hn. rewrite Hk by lia. rewrite G2 by (try lia; exact Hn). now apply HK2.
            -- stepsb. do 2 eexists. split; [reflexivity|assumption].
            -- stepsb. eexists. reflexivity.
          * stepsb. erewrite src_arr_additional by exact Ha2. stepsb. eexists. split; [reflexivity|]. split; [reflexivity|].
            exists (put a (arr_struct (arr_additional CNil (arr_positional ys new_arr)) BNil (BList vl) BNil) h2), BNil, (BList vl), BNil, vl.
            assert (Hk : forall x X, x <> a -> cell x (put a X h2) = cell x h2) by (intros; now apply cell_other).
            split; [reflexivity|]. rewrite put_length. split; [apply cell_put; lia|]. split; [constructor|]. split; [reflexivity|].
            split; [eapply reps_keep; [exact Hvl2|lia|lia|intros; apply Hk; lia]|]. split; [constructor|].
            split; [eapply ctx_keep; [exact HC2|apply Hk; congruence|apply Hk; congruence]|]. split; [lia|].
            intros y Hy Hn. rewrite Hk by lia. now apply HK2.
        + destruct Hloop as (m' & s1 & -> & Hs). stepsb. do 2 eexists. split; [reflexivity|exact Hs].
        + destruct Hloop as (m' & ->). stepsb. eexists. reflexivity.
      - destruct l as [|x l].
        + unfold Builder.boom. stepsb. eexists. reflexivity.
        + pose proof (Hi false (x :: l) x eq_refl (or_introl eq_refl)) as Hx. unfold Builder.bind, Builder.ret. stepsb. use_build Hx HC.
          * destruct G1 as [G1 G2]. assert (Ha1 : cell a h1 = Some (arr_struct new_arr BNil BNil empty_struct)) by (rewrite G2 by (try lia; exact Nr); exact Ha).
            stepsb. erewrite src_arr_items by exact Ha1. stepsb.
            eexists. split; [reflexivity|]. split; [reflexivity|]. pose proof (cell_lt _ _ _ Ha1) as Hl1.
            exists (put a (arr_struct (arr_items y1 new_arr) v1 BNil empty_struct) h1), v1, BNil, empty_struct, [].
            split; [reflexivity|]. split; [now apply cell_put|]. rewrite put_length.
            assert (Hk : forall x X, x <> a -> cell x (put a X h1) = cell x h1) by (intros; now apply cell_other).
            split; [eapply rep_keep; [exact Hrep1|lia|lia|intros; apply Hk; lia]|].
            split; [reflexivity|]. split; [constructor|]. split; [constructor|].
            split; [eapply ctx_keep; [exact HC1|apply Hk; congruence|apply Hk; congruence]|]. split; [exact G1|].
            intros y Hy Hn. rewrite Hk by lia. apply G2; [lia|exact Hn].
          * stepsb. do 2 eexists. split; [reflexivity|assumption].
          * stepsb. eexists. reflexivity.
      - unfold Builder.ret. stepsb. eexists. split; [reflexivity|]. split; [reflexivity|].
        exists h, BNil, BNil, empty_struct, []. split; [reflexivity|]. split; [exact Ha|]. split; [constructor|]. split; [reflexivity|].
        split; [constructor|]. split; [constructor|]. split; [exact HC|]. split; [lia|reflexivity]. }
    clear Hi Hadd. unfold Builder.bind. destruct (arr_of c R w) as [[[x R1] w1]|m|m].
    - destruct Hitems as (s1 & -> & <- & h1 & vi & vp & va & l & -> & Ha1 & H1 & H2 & H3 & H4 & HC1 & HL & HK).
      cbn [bends Builder.ret bord]. unfold Builder.ret. clear Ha HC. rename Ha1 into Ha.
      pose proof (grown_refl a h1) as G.
      finish c x vi vp va. eexists. split; [reflexivity|]. unfold arr_end.
      eapply arr_done; try eassumption; rewrite ?kept_items, ?kept_pos, ?kept_add; assumption.
    - destruct Hitems as (m' & s1 & -> & Hs). stepsb. exists m', (heap s1), (bord s1). split; [reflexivity|exact Hs].
    - destruct Hitems as (m' & ->). stepsb. eexists. reflexivity.
  Qed.
End Arr.
