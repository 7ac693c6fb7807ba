(** The setters of ObjectConstraint, run from their Go source. *)
From Verif Require Import Base GoFloat GoValue Maybe Formats Constraint StructInfo Validate Builder SrcSyntax SrcText SrcTextB SrcProg SrcStore SrcProgB SrcStepB SrcSetters.
Open Scope string_scope.
Open Scope list_scope.
Open Scope Z_scope.

Section O.
  Variable D : bv -> resolver.
  Variable tn : nat -> string.
  Notation P := (prog D tn).
  Variables (vs : list bscope) (h : list bv) (w : orc) (k : nat).
  Notation go f args h' v := (bcall P (S (S (S k))) f args (st vs h w) = BOk [v] (st vs h' w)).
  (** object.go:22-33 *)
  Lemma src_obj_new : exists h' m,
    go "Object" [] h' (BPtr (List.length h + 5) []) /\ List.length h' = (List.length h + 6)%nat /\
    (forall x, (x < List.length h)%nat -> cell x h' = cell x h) /\ cell (List.length h + 5) h' = Some (obj_struct (-1) (-1) BNil m) /\
    (forall x, (List.length h <= x < List.length h + 5)%nat -> cell x h' = Some (BMapI [])) /\
    m = {| om_pats := List.length h; om_props := List.length h + 1; om_deps := List.length h + 2; om_req := List.length h + 3; om_sdeps := List.length h + 4 |}.
  Proof.
    eexists. eexists. split; [|split; [|split; [|split; [|split]]]].
    6: reflexivity.
    - open_b. stepsb. rewrite <- !app_assoc. cbn [app]. rewrite !app_length. cbn [List.length]. reflexivity.
    - rewrite app_length. reflexivity.
    - intros x Hx. apply cell_old. exact Hx.
    - unfold cell. rewrite nth_error_app2 by lia. replace (_ + 5 - _)%nat with 5%nat by lia. cbn [nth_error]. reflexivity.
    - intros x Hx. unfold cell. rewrite nth_error_app2 by lia.
      remember (x - List.length h)%nat as n eqn:En. assert (Hn : (n < 5)%nat) by lia. clear - Hn.
      do 5 (destruct n as [|n]; [reflexivity|]). lia.
  Qed.
  Section Obj.
    Variables (a : nat) (lo hi : Z) (va : bv) (m : omaps).
    Hypothesis Ha : cell a h = Some (obj_struct lo hi va m).
    Lemma src_obj_min n : go "ObjectConstraint.MinProperties" [BPtr a []; BInt n] (put a (obj_struct n hi va m) h) (BPtr a []). Proof. ran. Qed.
    Lemma src_obj_max n : go "ObjectConstraint.MaxProperties" [BPtr a []; BInt n] (put a (obj_struct lo n va m) h) (BPtr a []). Proof. ran. Qed.
    Lemma src_obj_additional v : go "ObjectConstraint.AdditionalProperties" [BPtr a []; v] (put a (obj_struct lo hi v m) h) (BPtr a []). Proof. ran. Qed.
    Lemma src_obj_addProp l x c : cell (om_props m) h = Some (BMapI l) ->
      go "ObjectConstraint.AddProp" [BPtr a []; BStr x; c] (put (om_props m) (BMapI (kput (BStr x) c l)) h) (BPtr a []).
    Proof. intro. destruct m as [m1 m2 m3 m4 m5]. cbn [om_props] in *. ran. Qed.
    Lemma src_obj_pattern l x c : cell (om_pats m) h = Some (BMapI l) ->
      go "ObjectConstraint.PatternProperties" [BPtr a []; BRx x; c] (put (om_pats m) (BMapI (kput (BRx x) c l)) h) (BPtr a []).
    Proof. intro. destruct m as [m1 m2 m3 m4 m5]. cbn [om_pats] in *. ran. Qed.
    Lemma src_obj_schemaDep l x c : cell (om_sdeps m) h = Some (BMapI l) ->
      go "ObjectConstraint.SchemaDependency" [BPtr a []; BStr x; c] (put (om_sdeps m) (BMapI (kput (BStr x) c l)) h) (BPtr a []).
    Proof. intro. destruct m as [m1 m2 m3 m4 m5]. cbn [om_sdeps] in *. ran. Qed.
    (** append to what is there; no entry counts as an empty slice *)
    Definition slice_or_none (o : option bv) : option (list bv) := match o with Some v => slice_items v | None => Some [] end.
    Lemma app_slice v l k0 : slice_items v = Some l -> slice_items (match l ++ k0 with [] => v | x :: r => BList (x :: r) end) = Some (l ++ k0).
    Proof. intro H. destruct (l ++ k0) eqn:E; [|reflexivity]. apply app_eq_nil in E. destruct E as [-> _]. exact H. Qed.
    Lemma src_obj_propDep l x v0 v xs : cell (om_deps m) h = Some (BMapI l) -> slice_or_none (kget (BStr x) l) = Some xs ->
      slice_items v = Some v0 ->
      exists y, slice_items y = Some (xs ++ v0) /\
      go "ObjectConstraint.PropDependency" [BPtr a []; BStr x; BDots v] (put (om_deps m) (BMapI (kput (BStr x) y l)) h) (BPtr a []).
    Proof.
      intros H1 H2 H3. destruct m as [m1 m2 m3 m4 m5]. cbn [om_deps] in *. bounds.
      assert (Hv : v = BNil /\ v0 = [] \/ v = BList v0) by (destruct v; try discriminate H3; injection H3 as <-; auto).
      assert (Hu : kget (BStr x) l = None /\ xs = [] \/ kget (BStr x) l = Some BNil /\ xs = [] \/ kget (BStr x) l = Some (BList xs)).
      { unfold slice_or_none in H2. destruct (kget (BStr x) l) as [u|]; [|injection H2 as <-; auto].
        destruct u; try discriminate H2; injection H2 as <-; auto. }
      clear H2 H3.
      destruct Hv as [[-> ->]| ->]; destruct Hu as [[Hu ->]|[[Hu ->]|Hu]]; open_b; stepsb;
        (eexists; split; [|reflexivity]); apply app_slice; reflexivity.
    Qed.
    Lemma src_obj_required l xs : cell (om_req m) h = Some (BMapI l) ->
      go "ObjectConstraint.Required" [BPtr a []; BDots (BList (map BStr xs))] (put (om_req m) (BMapI (fold_left (fun l x => kput (BStr x) BUnit l) xs l)) h) (BPtr a []).
    Proof.
      intros H1. destruct m as [m1 m2 m3 m4 m5]. cbn [om_req] in *. bounds. open_b. stepsb.
      match goal with |- context [brounds ?bx ?body ?def ?kk ?v (b_indexed 0 (map BStr xs)) (st ?E _ _)] =>
        assert (Hr : forall ys i l h1, cell a h1 = Some (obj_struct lo hi va (Build_omaps m1 m2 m3 m4 m5)) -> cell m4 h1 = Some (BMapI l) ->
          brounds bx body def kk v (b_indexed i (map BStr ys)) (st E h1 w) =
          BNx (st E (put m4 (BMapI (fold_left (fun l x => kput (BStr x) BUnit l) ys l)) h1) w))
      end.
      { clear - k. induction ys as [|y ys IH]; intros i l h1 Ha H1; cbn [map b_indexed fold_left].
        - rewrite put_same by exact H1. reflexivity.
        - bounds. roundb. stepsb. rewrite (IH _ (kput (BStr y) BUnit l)).
          + now rewrite put_put.
          + rewrite cell_other; [exact Ha|]. intros ->. rewrite Ha in H1. discriminate.
          + apply cell_put. assumption. }
      rewrite (Hr xs 0 l h Ha H1). clear Hr. stepsb. reflexivity.
    Qed.
  End Obj.
End O.
