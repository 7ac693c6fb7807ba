(** Documents with sharing (Heap.v): when the tree model of Validate.v is exact, and what
    validation may change. *)
From Verif Require Import Base GoFloat GoValue Maybe Formats Constraint StructInfo Validate Fuel Reach ReadOnly Frame Preserve Heap.
Open Scope Z_scope.

(** ** The tree a value stands for *)
Definition scalar (v : hval) : Prop := match v with HArr _ | HMap _ => False | _ => True end.

(** In heap h the value v stands for the tree g; fp: the addresses met, once per way of
    reaching them. *)
Inductive rep (h : heap) : hval -> gval -> list nat -> Prop :=
| rep_scalar v : scalar v -> rep h v (shell v) []
| rep_arr l gl fp : repl h l gl fp -> rep h (HArr l) (gslice gl) fp
| rep_map a m fp : (a < List.length h)%nat -> repm h (h_at h a) m fp -> rep h (HMap a) (gmap m) (a :: fp)
with repl (h : heap) : list hval -> list gval -> list nat -> Prop :=
| repl_nil : repl h [] [] []
| repl_cons x l g gl f1 f2 : rep h x g f1 -> repl h l gl f2 -> repl h (x :: l) (g :: gl) (f1 ++ f2)
with repm (h : heap) : hmap -> list (string * gval) -> list nat -> Prop :=
| repm_nil : repm h [] [] []
| repm_cons k x l g gl f1 f2 : rep h x g f1 -> repm h l gl f2 -> repm h ((k, x) :: l) ((k, g) :: gl) (f1 ++ f2).
Scheme rep_mind := Induction for rep Sort Prop
with repl_mind := Induction for repl Sort Prop
with repm_mind := Induction for repm Sort Prop.
Combined Scheme rep_mut from rep_mind, repl_mind, repm_mind.

(** values without maps *)
Fixpoint mapless (v : hval) : Prop :=
  match v with
  | HArr l => (fix go l := match l with [] => True | x :: r => mapless x /\ go r end) l
  | HMap _ => False
  | _ => True
  end.
Fixpoint tree_of (v : hval) : gval :=
  match v with
  | HArr l => gslice (map tree_of l)
  | _ => shell v
  end.

(** ** Constraints without addresses *)
Fixpoint erase (c : hconstr) : constr :=
  match c with
  | KNil => CNil
  | KEmpty => CEmpty
  | KNull => CNull
  | KBool d => CBool (option_map tree_of d)
  | KStr d s => CStr (option_map tree_of d) s
  | KNum d m => CNum (option_map tree_of d) m
  | KInt d m => CInt (option_map tree_of d) m
  | KArr a => CArr {| a_items := erase (a_items a); a_pos := map erase (a_pos a); a_add := erase (a_add a);
                      a_min := a_min a; a_max := a_max a; a_uniq := a_uniq a |}
  | KObj o => CObj {| o_add := erase (o_add o);
                      o_pats := map (fun e => (fst e, erase (snd e))) (o_pats o);
                      o_props := map (fun e => (fst e, erase (snd e))) (o_props o);
                      o_propdeps := o_propdeps o; o_req := o_req o; o_min := o_min o; o_max := o_max o;
                      o_sdeps := map (fun e => (fst e, erase (snd e))) (o_sdeps o) |}
  | KEnum l => CEnum l
  | KAny l => CAny (map erase l)
  | KAll l => CAll (map erase l)
  | KOneOf l => COneOf (map erase l)
  | KNot c => CNot (erase c)
  | KRef name => CRef name
  end.

Definition hkids (c : hconstr) : list hconstr :=
  match c with
  | KArr a => a_items a :: a_add a :: a_pos a
  | KObj o => o_add o :: map snd (o_pats o) ++ map snd (o_props o) ++ map snd (o_sdeps o)
  | KAny l | KAll l | KOneOf l => l
  | KNot c => [c]
  | _ => []
  end.
Definition own_default (c : hconstr) : option hval :=
  match c with KBool d | KStr d _ | KNum d _ | KInt d _ => d | _ => None end.

(** d is a default value kept in c or in a constraint c uses *)
Inductive HHas (R : string -> option hconstr) : hconstr -> hval -> Prop :=
| HH_own c d : own_default c = Some d -> HHas R c d
| HH_kid c k d : In k (hkids c) -> HHas R k d -> HHas R c d
| HH_ref name c d : R name = Some c -> HHas R c d -> HHas R (KRef name) d.

(** ** Facts about rep *)
Lemma rep_det h :
  (forall v g fp, rep h v g fp -> forall g' fp', rep h v g' fp' -> g' = g /\ fp' = fp) /\
  (forall l gl fp, repl h l gl fp -> forall gl' fp', repl h l gl' fp' -> gl' = gl /\ fp' = fp) /\
  (forall m gm fp, repm h m gm fp -> forall gm' fp', repm h m gm' fp' -> gm' = gm /\ fp' = fp).
Proof.
  apply rep_mut.
  - intros v S g' fp' X. inversion X; subst; try contradiction; auto.
  - intros l gl fp _ IH g' fp' X. inversion X; subst; try contradiction.
    match goal with H : repl h l _ _ |- _ => destruct (IH _ _ H) as [-> ->] end. auto.
  - intros a m fp _ _ IH g' fp' X. inversion X; subst; try contradiction.
    match goal with H : repm h _ _ _ |- _ => destruct (IH _ _ H) as [-> ->] end. auto.
  - intros gl' fp' X. inversion X; auto.
  - intros x l g gl f1 f2 _ I1 _ I2 gl' fp' X. inversion X; subst.
    match goal with H : rep h x _ _, K : repl h l _ _ |- _ => destruct (I1 _ _ H) as [-> ->]; destruct (I2 _ _ K) as [-> ->] end. auto.
  - intros gl' fp' X. inversion X; auto.
  - intros k x l g gl f1 f2 _ I1 _ I2 gl' fp' X. inversion X; subst.
    match goal with H : rep h x _ _, K : repm h l _ _ |- _ => destruct (I1 _ _ H) as [-> ->]; destruct (I2 _ _ K) as [-> ->] end. auto.
Qed.

Lemma rep_frame h h' : List.length h' = List.length h ->
  (forall v g fp, rep h v g fp -> (forall a, In a fp -> h_at h' a = h_at h a) -> rep h' v g fp) /\
  (forall l gl fp, repl h l gl fp -> (forall a, In a fp -> h_at h' a = h_at h a) -> repl h' l gl fp) /\
  (forall m gm fp, repm h m gm fp -> (forall a, In a fp -> h_at h' a = h_at h a) -> repm h' m gm fp).
Proof.
  intros L. apply rep_mut; intros.
  - now constructor.
  - constructor. auto.
  - constructor; [lia|]. rewrite H0 by now left. apply H. intros b B. apply H0. now right.
  - constructor.
  - constructor; [apply H|apply H0]; intros; apply H1, in_or_app; auto.
  - constructor.
  - constructor; [apply H|apply H0]; intros; apply H1, in_or_app; auto.
Qed.

Lemma mapless_in l x : mapless (HArr l) -> In x l -> mapless x.
Proof. induction l as [|y l IH]; cbn; [tauto|]. intros [A B] [<-|I]; auto. Qed.

Lemma mapless_rep h : forall v, mapless v -> rep h v (tree_of v) [].
Proof.
  fix IH 1. intros [| b | f | s | l | a] F;
    [apply (rep_scalar h HNil I)|apply (rep_scalar h (HBool b) I)|apply (rep_scalar h (HNum f) I)|apply (rep_scalar h (HStr s) I)| |destruct F].
  cbn [tree_of]. constructor. induction l as [|x l IHl]; [constructor|]. destruct F as [F1 F2].
  change (@nil nat) with (@nil nat ++ @nil nat). cbn [map]. constructor; [now apply IH|now apply IHl].
Qed.

(** following the addresses gives that tree: vis are the addresses followed on the way *)
Definition above (h : heap) (vis fp : list nat) : Prop :=
  NoDup vis /\ forall b, In b vis -> (b < List.length h)%nat /\ exists gb fb, rep h (HMap b) gb fb /\ (List.length fp < List.length fb)%nat.
Lemma above_sub h vis f1 f2 : above h vis f2 -> (List.length f1 <= List.length f2)%nat -> above h vis f1.
Proof. intros [A B] L. split; auto. intros b I. destruct (B b I) as (C & gb & fb & X & Y). split; auto. exists gb, fb. split; auto. lia. Qed.
Lemma rep_spread h :
  (forall v g fp, rep h v g fp -> forall vis n, above h vis fp -> (List.length h <= n + List.length vis)%nat -> spread (unfold_at h n) v = Some g) /\
  (forall l gl fp, repl h l gl fp -> forall vis n, above h vis fp -> (List.length h <= n + List.length vis)%nat -> opt_all (spread (unfold_at h n)) l = Some gl) /\
  (forall m gm fp, repm h m gm fp -> forall vis n, above h vis fp -> (List.length h <= n + List.length vis)%nat ->
     opt_all (fun e => option_map (pair (fst e)) (spread (unfold_at h n) (snd e))) m = Some gm).
Proof.
  apply rep_mut.
  - intros v S vis n _ _. destruct v; try contradiction; reflexivity.
  - intros l gl fp _ IH vis n A L. cbn [spread]. now rewrite (IH vis n A L).
  - intros a m fp LT RM IH vis n A L. cbn [spread].
    assert (X : ~ In a vis).
    { intros I. destruct A as [_ A]. destruct (A a I) as (_ & gb & fb & Y & Z).
      destruct (proj1 (rep_det h) _ _ _ (rep_map h a m fp LT RM) _ _ Y) as [-> ->]. lia. }
    assert (A' : above h (a :: vis) fp).
    { split; [constructor; [exact X|exact (proj1 A)]|]. intros b [<-|I].
      - split; auto. exists (gmap m), (a :: fp). split; [now constructor|cbn; lia].
      - destruct (proj2 A b I) as (B & gb & fb & Y & Z). split; auto. exists gb, fb. split; auto. cbn in Z. lia. }
    assert (LE : (List.length (a :: vis) <= List.length h)%nat).
    { rewrite <- (seq_length (List.length h) 0). apply NoDup_incl_length; [exact (proj1 A')|]. intros b I. apply in_seq. destruct (proj2 A' b I) as [B _]. lia. }
    destruct n as [|n]; [cbn in LE, L; lia|]. cbn [unfold_at]. rewrite (IH (a :: vis) n A'); [reflexivity|cbn; lia].
  - reflexivity.
  - intros x l g gl f1 f2 _ I1 _ I2 vis n A L. cbn [opt_all].
    rewrite (I1 vis n), (I2 vis n); auto; apply (above_sub _ _ _ _ A); rewrite app_length; lia.
  - reflexivity.
  - intros k x l g gl f1 f2 _ I1 _ I2 vis n A L. cbn [opt_all fst snd].
    rewrite (I1 vis n), (I2 vis n); auto; apply (above_sub _ _ _ _ A); rewrite app_length; lia.
Qed.
Lemma rep_unfold h v g fp : rep h v g fp -> unfold h v = Some g.
Proof. intros X. apply (proj1 (rep_spread h) v g fp X []); [split; [constructor|intros b []]|cbn; lia]. Qed.
Lemma repl_unfold h l gl fp : repl h l gl fp -> opt_all (unfold h) l = Some gl.
Proof. intros X. apply (proj1 (proj2 (rep_spread h)) l gl fp X []); [split; [constructor|intros b []]|cbn; lia]. Qed.

(** ** Maps entry by entry *)
Lemma repm_keys h m gm fp : repm h m gm fp -> keys gm = keys m.
Proof. induction 1 as [|k x l g gl f1 f2 A B IH]; [reflexivity|]. cbn. f_equal. exact IH. Qed.
Lemma repm_none h m gm fp k : repm h m gm fp -> sget k m = None -> sget k gm = None.
Proof. intros X N. apply sget_none_keys. rewrite (repm_keys _ _ _ _ X). now apply sget_none_keys. Qed.
(** the place of one entry: the rest stays as it is when only addresses below it change *)
Lemma repm_at h m gm fp k x : repm h m gm fp -> sget k m = Some x ->
  exists g f1 fa fb, fp = fa ++ f1 ++ fb /\ sget k gm = Some g /\ rep h x g f1 /\
    forall h' g', List.length h' = List.length h -> rep h' x g' f1 -> (forall a, In a (fa ++ fb) -> h_at h' a = h_at h a) -> repm h' m (supd k g' gm) fp.
Proof.
  induction 1 as [|k0 y l g gl f1 f2 A B IH]; [discriminate|]. cbn [sget supd]. destruct (String.eqb k k0) eqn:Q.
  - intros [= ->]. exists g, f1, [], f2. repeat split; auto. intros h' g' L X F. constructor; auto. apply (proj2 (proj2 (rep_frame h h' L)) _ _ _ B F).
  - intros S. destruct (IH S) as (g0 & f0 & fa & fb & -> & G & X & K). exists g0, f0, (f1 ++ fa), fb. rewrite <- app_assoc. repeat split; auto.
    intros h' g' L X' F. constructor.
    + apply (proj1 (rep_frame h h' L) _ _ _ A). intros a I. apply F. rewrite <- app_assoc. apply in_or_app. auto.
    + apply K; auto. intros a I. apply F. rewrite <- app_assoc. apply in_or_app. auto.
Qed.
Lemma repm_set h m gm fp k d gd : repm h m gm fp -> sget k m = None -> rep h d gd [] -> repm h (sset k d m) (sset k gd gm) fp.
Proof.
  intros X N D. induction X as [|k0 y l g gl f1 f2 A B IH]; cbn [sset].
  - change (@nil nat) with (@nil nat ++ @nil nat). repeat constructor. exact D.
  - cbn [sget] in N. destruct (String.eqb_spec k k0) as [->|NE]; [discriminate|]. destruct (String.compare k k0) eqn:Q.
    + apply String.compare_eq_iff in Q. contradiction.
    + change (f1 ++ f2) with ([] ++ (f1 ++ f2)). constructor; [exact D|now constructor].
    + constructor; auto.
Qed.
Lemma repl_at h l gl fp i : repl h l gl fp -> (i < List.length l)%nat ->
  exists g f1 fa fb, fp = fa ++ f1 ++ fb /\ nth i gl GNil = g /\ rep h (nth i l HNil) g f1 /\
    forall h' g', List.length h' = List.length h -> rep h' (nth i l HNil) g' f1 -> (forall a, In a (fa ++ fb) -> h_at h' a = h_at h a) -> repl h' l (set_nth i g' gl) fp.
Proof.
  intros X. revert i. induction X as [|y l g gl f1 f2 A B IH]; intros i L; [cbn in L; lia|]. destruct i as [|i]; cbn [nth set_nth].
  - exists g, f1, [], f2. repeat split; auto. intros h' g' LL X F. constructor; auto. apply (proj1 (proj2 (rep_frame h h' LL)) _ _ _ B F).
  - destruct (IH i) as (g0 & f0 & fa & fb & -> & G & X & K); [cbn in L; lia|]. exists g0, f0, (f1 ++ fa), fb. rewrite <- app_assoc. repeat split; auto.
    intros h' g' LL X' F. constructor.
    + apply (proj1 (rep_frame h h' LL) _ _ _ A). intros a I. apply F. rewrite <- app_assoc. apply in_or_app. auto.
    + apply K; auto. intros a I. apply F. rewrite <- app_assoc. apply in_or_app. auto.
Qed.
Lemma repl_length h l gl fp : repl h l gl fp -> List.length gl = List.length l.
Proof. induction 1; cbn; auto. Qed.

(** ** Iteration orders do not look at the elements *)
Lemma take_nth_map {A B} (f : A -> B) : forall i x l, take_nth i (f x) (map f l) = let (y, r) := take_nth i x l in (f y, map f r).
Proof.
  induction i as [|i IH]; intros x l; [reflexivity|]. destruct l as [|y l]; [reflexivity|]. cbn [map take_nth]. rewrite IH. now destruct (take_nth i y l).
Qed.
Lemma shuffle_map {A B} (f : A -> B) l : forall w, shuffle w (map f l) = let (p, w') := shuffle w l in (map f p, w').
Proof.
  unfold shuffle. intros w. rewrite map_length. generalize (List.length l) as n. intros n. revert w l. induction n as [|n IH]; intros w l; [destruct l; reflexivity|].
  destruct l as [|x l]; [reflexivity|]. cbn [map shuffle_n]. destruct (next w) as [k w1]. rewrite take_nth_map. destruct (take_nth k x l) as [y r].
  rewrite IH. destruct (shuffle_n n w1 r) as [p w2]. reflexivity.
Qed.

(** ** The loops with their tests for nil spelled out *)
Definition is_knil (c : hconstr) : bool := match c with KNil => true | _ => false end.
Definition is_cnil (c : constr) : bool := match c with CNil => true | _ => false end.
Lemma is_nil_erase c : is_cnil (erase c) = is_knil c.
Proof. destruct c; reflexivity. Qed.
Lemma harr_eq E rec a l h w : harr E rec a (HArr l) h w =
  if (-1 <? a_min a) && (Z.of_nat (List.length l) <? a_min a) then (Fail "fewer items than minItems", h, w)
  else if (-1 <? a_max a) && (a_max a <? Z.of_nat (List.length l)) then (Fail "more items than maxItems", h, w)
  else match (if a_uniq a then hunique E h l else Some true) with
  | None => (OOF, h, w)
  | Some false => (Fail "duplicate element found", h, w)
  | Some true =>
      if is_knil (a_items a) then
        match hidx rec (combine (seq 0 (List.length l)) (a_pos a)) l h w with
        | (Pass, h1, w1) =>
            if (0 <? List.length (a_pos a))%nat && (List.length (a_pos a) <? List.length l)%nat then
              if is_knil (a_add a) then (Fail "additional elements found in array", h1, w1)
              else hidx rec (map (fun i => (i, a_add a)) (seq (List.length (a_pos a) - 1) (List.length l - (List.length (a_pos a) - 1)))) l h1 w1
            else (Pass, h1, w1)
        | o => o
        end
      else hidx rec (map (fun i => (i, a_items a)) (seq 0 (List.length l))) l h w
  end.
Proof. destruct a as [it pos ad mn mx u]. cbn. destruct it; try reflexivity. destruct ad; reflexivity. Qed.
Lemma arr_eq E rec a gl w : arr_validate rec E a (gslice gl) w =
  if (-1 <? a_min a) && (Z.of_nat (List.length gl) <? a_min a) then (Fail "fewer items than minItems", gslice gl, w)
  else if (-1 <? a_max a) && (a_max a <? Z.of_nat (List.length gl)) then (Fail "more items than maxItems", gslice gl, w)
  else if a_uniq a && negb (uniq_loop E [] gl) then (Fail "duplicate element found", gslice gl, w)
  else if is_cnil (a_items a) then
    match idx_loop rec (combine (seq 0 (List.length gl)) (a_pos a)) gl w with
    | (Pass, l1, w1) =>
        if (0 <? List.length (a_pos a))%nat && (List.length (a_pos a) <? List.length gl)%nat then
          if is_cnil (a_add a) then (Fail "additional elements found in array", gslice l1, w1)
          else let '(r, l2, w2) := idx_loop rec (map (fun i => (i, a_add a)) (seq (List.length (a_pos a) - 1) (List.length gl - (List.length (a_pos a) - 1)))) l1 w1 in (r, gslice l2, w2)
        else (Pass, gslice l1, w1)
    | (r, l1, w1) => (r, gslice l1, w1)
    end
  else let '(r, l1, w1) := idx_loop rec (map (fun i => (i, a_items a)) (seq 0 (List.length gl))) gl w in (r, gslice l1, w1).
Proof. destruct a as [it pos ad mn mx u]. cbn. destruct it; try reflexivity. destruct ad; reflexivity. Qed.
Lemma hobj_eq E rec gd o a h w : hobj E rec gd o (HMap a) h w =
  if (-1 <? o_min o) && (Z.of_nat (List.length (keys (h_at h a))) <? o_min o) then (Fail "fewer properties than minProperties", h, w)
  else if (-1 <? o_max o) && (o_max o <? Z.of_nat (List.length (keys (h_at h a)))) then (Fail "more properties than maxProperties", h, w)
  else
    let '(ps, w1) := shuffle w (o_props o) in
    match hprops rec gd o a ps (h, keys (h_at h a), []) w1 with
    | (Pass, st1, w2) =>
        let '(pats, w3) := shuffle w2 (o_pats o) in
        match hpats E rec a pats st1 w3 with
        | (Pass, (h4, premain, pseen), w4) =>
            match (match premain with
                   | [] => (Pass, h4, w4)
                   | _ => if is_knil (o_add o) then (Fail "additional properties are not allowed", h4, w4)
                          else let '(ns, w5) := shuffle w4 premain in hadd rec (o_add o) a ns h4 w5
                   end) with
            | (Pass, h6, w6) => let '(ns, w7) := shuffle w6 pseen in hdeps rec o pseen ns (HMap a) h6 w7
            | x => x
            end
        | (rs, (h4, _, _), w4) => (rs, h4, w4)
        end
    | (rs, (h2, _, _), w2) => (rs, h2, w2)
    end.
Proof.
  unfold hobj. destruct (_ && _); auto. destruct (_ && _); auto. destruct (shuffle w (o_props o)) as [ps w1].
  destruct (hprops _ _ _ _ _ _ _) as [[[| | |] [[h2 pm2] sn2]] w2]; auto. destruct (shuffle w2 (o_pats o)) as [pats w3].
  destruct (hpats _ _ _ _ _ _) as [[[| | |] [[h4 [|k pm]] sn]] w4]; auto. destruct (shuffle w4 (k :: pm)) as [ns w5].
  destruct (o_add o); auto; cbn [is_knil is_cnil]; destruct (hadd _ _ _ _ _ _) as [[[| | |] h5] w6]; reflexivity.
Qed.
Lemma obj_eq E rec gd o m w : obj_validate rec gd E o (gmap m) w =
  if (-1 <? o_min o) && (Z.of_nat (List.length (keys m)) <? o_min o) then (Fail "fewer properties than minProperties", gmap m, w)
  else if (-1 <? o_max o) && (o_max o <? Z.of_nat (List.length (keys m))) then (Fail "more properties than maxProperties", gmap m, w)
  else
    let '(ps, w1) := shuffle w (o_props o) in
    match props_loop rec gd E o ps (gmap m, keys m, []) w1 with
    | (Pass, st1, w2) =>
        let '(pats, w3) := shuffle w2 (o_pats o) in
        match pats_loop rec E pats st1 w3 with
        | (Pass, (v4, premain, pseen), w4) =>
            match (match premain with
                   | [] => (Pass, v4, w4)
                   | _ => if is_cnil (o_add o) then (Fail "additional properties are not allowed", v4, w4)
                          else let '(ns, w5) := shuffle w4 premain in add_loop rec (o_add o) ns v4 w5
                   end) with
            | (Pass, v6, w6) => let '(ns, w7) := shuffle w6 pseen in deps_loop rec o pseen ns v6 w7
            | x => x
            end
        | (rs, (v4, _, _), w4) => (rs, v4, w4)
        end
    | (rs, (v2, _, _), w2) => (rs, v2, w2)
    end.
Proof.
  unfold obj_validate. change (get_names (deref1 (gmap m))) with (@GOk (list string) (keys m)). cbv iota beta.
  destruct (_ && _); auto. destruct (_ && _); auto. destruct (shuffle w (o_props o)) as [ps w1].
  destruct (props_loop _ _ _ _ _ _ _) as [[[| | |] [[h2 pm2] sn2]] w2]; auto. destruct (shuffle w2 (o_pats o)) as [pats w3].
  destruct (pats_loop _ _ _ _ _) as [[[| | |] [[h4 [|k pm]] sn]] w4]; auto. destruct (shuffle w4 (k :: pm)) as [ns w5].
  destruct (o_add o); auto; cbn [is_knil is_cnil]; destruct (add_loop _ _ _ _ _) as [[[| | |] h5] w6]; reflexivity.
Qed.

Lemma hdeps_eq rec o sn k ns v h w : hdeps rec o sn (k :: ns) v h w =
  match hprop_deps o k with
  | (_ :: _) as deps =>
      match missing_dep sn deps with
      | Some d => (Fail ("required dependency '" +++ d +++ "' is mising"), h, w)
      | None => hdeps rec o sn ns v h w
      end
  | [] =>
      if is_knil (hschema_dep o k) then hdeps rec o sn ns v h w
      else match rec (hschema_dep o k) v h w with (Pass, h', w') => hdeps rec o sn ns v h' w' | x => x end
  end.
Proof. cbn [hdeps]. destruct (hprop_deps o k); auto. destruct (hschema_dep o k); reflexivity. Qed.
Lemma deps_eq rec o sn k ns v w : deps_loop rec o sn (k :: ns) v w =
  match prop_deps o k with
  | (_ :: _) as deps =>
      match missing_dep sn deps with
      | Some d => (Fail ("required dependency '" +++ d +++ "' is mising"), v, w)
      | None => deps_loop rec o sn ns v w
      end
  | [] =>
      if is_cnil (schema_dep o k) then deps_loop rec o sn ns v w
      else match rec (schema_dep o k) v w with (Pass, v', w') => deps_loop rec o sn ns v' w' | x => x end
  end.
Proof. cbn [deps_loop]. destruct (prop_deps o k); auto. destruct (schema_dep o k); reflexivity. Qed.

(** ** The tree model is exact: for documents without sharing and default values without
    maps ([b] true), and for any acyclic document when there are no default values *)
Section Sim.
Context (E : env) (R : string -> option hconstr) (RE : forall k, e_refs E k = option_map erase (R k)) (b : bool).

Definition okc (c : hconstr) : Prop := if b then forall d, HHas R c d -> mapless d else forall d, ~ HHas R c d.
Definition okf (fp : list nat) : Prop := if b then NoDup fp else True.
Definition kept (h h' : heap) (fp : list nat) : Prop :=
  List.length h' = List.length h /\ if b then forall a, ~ In a fp -> h_at h' a = h_at h a else h' = h.
Definition sim (v : hval) (h : heap) (fp : list nat) (o : hout) (t : out) : Prop :=
  let '(r, h', w) := o in let '(r', g', w') := t in r' = r /\ w' = w /\ rep h' v g' fp /\ kept h h' fp.
Definition good (hr : hrec) (tr : recT) : Prop :=
  forall c v h w g fp, okc c -> rep h v g fp -> okf fp -> sim v h fp (hr c v h w) (tr (erase c) g w).

Lemma okc_kid c k : okc c -> In k (hkids c) -> okc k.
Proof. unfold okc. destruct b; intros O I d H; [apply O|apply (O d)]; now apply (HH_kid R c k). Qed.
Lemma okc_ref name c : okc (KRef name) -> R name = Some c -> okc c.
Proof. unfold okc. destruct b; intros O I d H; [apply O|apply (O d)]; now apply (HH_ref R name c). Qed.
Lemma kept_refl h fp : kept h h fp.
Proof. split; auto. destruct b; auto. Qed.
Lemma kept_trans h1 h2 h3 fp : kept h1 h2 fp -> kept h2 h3 fp -> kept h1 h3 fp.
Proof. intros [A B] [C D]. split; [congruence|]. destruct b; [|congruence]. intros a N. now rewrite D, B. Qed.
Lemma kept_incl h h' f1 fp : incl f1 fp -> kept h h' f1 -> kept h h' fp.
Proof. intros I [A B]. split; auto. destruct b; [|exact B]. intros a N. apply B. intros X. apply N, I, X. Qed.
Lemma nodup_app_l {A} (l1 l2 : list A) : NoDup (l1 ++ l2) -> NoDup l1.
Proof. induction l1 as [|x l1 IH]; cbn; intros N; [constructor|]. inversion N; subst. constructor; auto. intros I. apply H1, in_or_app. auto. Qed.
Lemma nodup_app_r {A} (l1 l2 : list A) : NoDup (l1 ++ l2) -> NoDup l2.
Proof. induction l1 as [|x l1 IH]; cbn; intros N; auto. inversion N; auto. Qed.
Lemma nodup_app_not {A} (l1 l2 : list A) x : NoDup (l1 ++ l2) -> In x l1 -> ~ In x l2.
Proof. induction l1 as [|y l1 IH]; cbn; intros N I; [contradiction|]. inversion N; subst. destruct I as [<-|I]; auto. intros J. apply H1, in_or_app. auto. Qed.
Lemma okf_mid fa f1 fb : okf (fa ++ f1 ++ fb) -> okf f1.
Proof. unfold okf. destruct b; auto. intros N. now apply nodup_app_r, nodup_app_l in N. Qed.
Lemma kept_mid h h' fa f1 fb : okf (fa ++ f1 ++ fb) -> kept h h' f1 -> forall a, In a (fa ++ fb) -> h_at h' a = h_at h a.
Proof.
  unfold okf, kept. destruct b; intros N [_ K] a I; [|now rewrite K]. apply K. intros J. apply in_app_or in I as [I|I].
  - apply (nodup_app_not _ _ a N I). apply in_or_app. auto.
  - apply nodup_app_r in N. now apply (nodup_app_not _ _ a N J).
Qed.
Lemma incl_mid {A} (fa f1 fb : list A) : incl f1 (fa ++ f1 ++ fb).
Proof. intros x I. apply in_or_app. right. apply in_or_app. auto. Qed.

Lemma erase_nil c : erase c = CNil <-> c = KNil.
Proof. split; [destruct c; cbn; congruence|now intros ->]. Qed.

Lemma shell_rep h v g fp : rep h v g fp -> shell v = g \/ (exists l gl, v = HArr l /\ g = gslice gl) \/ exists a m, v = HMap a /\ g = gmap m.
Proof. intros X. inversion X; subst; eauto 6. Qed.
Lemma enum_shell l v g h fp : rep h v g fp -> enum_loop l (shell v) = enum_loop l g.
Proof.
  intros X. destruct (shell_rep _ _ _ _ X) as [->|[(x & gl & -> & ->)|(a & m & -> & ->)]]; auto; cbn [shell];
    induction l as [|e l IH]; auto; cbn [enum_loop]; rewrite IH.
  - assert (Q : ieq e (gslice []) = ieq e (gslice gl)) by (destruct e; reflexivity). now rewrite Q.
  - assert (Q : ieq e (gmap []) = ieq e (gmap m)) by (destruct e; reflexivity). now rewrite Q.
Qed.
Ltac shells := match goal with X : rep _ _ _ _ |- _ => destruct (shell_rep _ _ _ _ X) as [<-|[(?x & ?gl & -> & ->)|(?a & ?m & -> & ->)]]; reflexivity end.
Lemma null_shell v g h fp : rep h v g fp -> null_validate (shell v) = null_validate g. Proof. intros X. shells. Qed.
Lemma bool_shell v g h fp : rep h v g fp -> bool_validate (shell v) = bool_validate g. Proof. intros X. shells. Qed.
Lemma str_shell c v g h fp : rep h v g fp -> str_validate E c (shell v) = str_validate E c g. Proof. intros X. shells. Qed.
Lemma num_shell c v g h fp : rep h v g fp -> num_validate c (shell v) = num_validate c g. Proof. intros X. shells. Qed.
Lemma int_shell c v g h fp : rep h v g fp -> int_validate c (shell v) = int_validate c g. Proof. intros X. shells. Qed.

Section Loops.
Context (hr : hrec) (tr : recT) (G : good hr tr).
Ltac step c v h w g fp := let S := fresh "S" in assert (S : sim v h fp (hr c v h w) (tr (erase c) g w)) by (apply G; auto);
  destruct (hr c v h w) as [[?r ?h'] ?w']; destruct (tr (erase c) g w) as [[?r' ?g'] ?w'']; destruct S as (-> & -> & ?RP & ?KP).

Lemma hall_sim cs v fp : Forall okc cs -> okf fp -> forall h w g, rep h v g fp -> sim v h fp (hall hr cs v h w) (all_loop tr (map erase cs) g w).
Proof.
  intros O N. induction O as [|c cs O1 O2 IH]; intros h w g X; cbn [hall all_loop map]; [repeat split; auto; destruct b; auto|].
  step c v h w g fp. destruct r; try (repeat split; auto; apply KP).
  specialize (IH h' w' g' RP). destruct (hall hr cs v h' w') as [[r2 h2] w2]. destruct (all_loop tr (map erase cs) g' w') as [[r2' g2] w2'].
  destruct IH as (-> & -> & A & B). repeat split; auto; apply (kept_trans h h' h2 fp KP B).
Qed.
Lemma hany_sim cs v fp : Forall okc cs -> okf fp -> forall h w g, rep h v g fp -> sim v h fp (hany hr cs v h w) (any_loop tr (map erase cs) g w).
Proof.
  intros O N. induction O as [|c cs O1 O2 IH]; intros h w g X; cbn [hany any_loop map]; [repeat split; auto; destruct b; auto|].
  step c v h w g fp. destruct r; try (repeat split; auto; apply KP).
  specialize (IH h' w' g' RP). destruct (hany hr cs v h' w') as [[r2 h2] w2]. destruct (any_loop tr (map erase cs) g' w') as [[r2' g2] w2'].
  destruct IH as (-> & -> & A & B). repeat split; auto; apply (kept_trans h h' h2 fp KP B).
Qed.
Lemma honeof_sim cs v fp : Forall okc cs -> okf fp -> forall k h w g, rep h v g fp -> sim v h fp (honeof hr cs k v h w) (oneof_loop tr (map erase cs) k g w).
Proof.
  intros O N. induction O as [|c cs O1 O2 IH]; intros k h w g X; cbn [honeof oneof_loop map]; [repeat split; auto; destruct b; auto|].
  step c v h w g fp. destruct r; try (repeat split; auto; apply KP).
  - specialize (IH (S k) h' w' g' RP). destruct (honeof hr cs (S k) v h' w') as [[r2 h2] w2]. destruct (oneof_loop tr (map erase cs) (S k) g' w') as [[r2' g2] w2'].
    destruct IH as (-> & -> & A & B). repeat split; auto; apply (kept_trans h h' h2 fp KP B).
  - specialize (IH k h' w' g' RP). destruct (honeof hr cs k v h' w') as [[r2 h2] w2]. destruct (oneof_loop tr (map erase cs) k g' w') as [[r2' g2] w2'].
    destruct IH as (-> & -> & A & B). repeat split; auto; apply (kept_trans h h' h2 fp KP B).
Qed.
Lemma hnot_sim c v fp h w g : okc c -> okf fp -> rep h v g fp -> sim v h fp (hnot hr c v h w) (not_validate tr (erase c) g w).
Proof.
  intros O N X. assert (D : c = KNil \/ (hnot hr c v h w = match hr c v h w with (Pass, h', w') => (Fail "'not' validation failed", h', w') | (Fail _, h', w') => (Pass, h', w') | o => o end /\
    not_validate tr (erase c) g w = match tr (erase c) g w with (Pass, v', w') => (Fail "'not' validation failed", v', w') | (Fail _, v', w') => (Pass, v', w') | o => o end))
    by (destruct c; auto).
  destruct D as [->|[-> ->]]; [repeat split; auto; destruct b; auto|].
  step c v h w g fp. destruct r; repeat split; auto; apply KP.
Qed.

(** elements of a slice *)
Lemma hidx_sim l fp : okf fp -> forall jobs, Forall (fun j => (fst j < List.length l)%nat /\ okc (snd j)) jobs -> forall h w gl, repl h l gl fp ->
  let '(r, h', w') := hidx hr jobs l h w in
  let '(r', gl', w'') := idx_loop tr (map (fun j => (fst j, erase (snd j))) jobs) gl w in
  r' = r /\ w'' = w' /\ repl h' l gl' fp /\ kept h h' fp.
Proof.
  intros N jobs O. induction O as [|[i c] jobs [O0 O1] O2 IH]; intros h w gl X; cbn [hidx idx_loop map fst snd]; [repeat split; auto; destruct b; auto|].
  cbn [fst snd] in O0, O1.
  destruct (repl_at h l gl fp i X O0) as (g & f1 & fa & fb & -> & -> & XR & K).
  pose proof (okf_mid _ _ _ N) as N1.
  step c (nth i l HNil) h w g f1.
  assert (X' : repl h' l (set_nth i g' gl) (fa ++ f1 ++ fb)) by (apply K; [apply KP|exact RP|exact (kept_mid _ _ _ _ _ N KP)]).
  assert (KK : kept h h' (fa ++ f1 ++ fb)) by (exact (kept_incl _ _ _ _ (incl_mid fa f1 fb) KP)).
  destruct r; try (repeat split; auto; apply KK).
  specialize (IH h' w' _ X'). destruct (hidx hr jobs l h' w') as [[r2 h2] w2]. destruct (idx_loop tr _ _ w') as [[r2' g2] w2'].
  destruct IH as (-> & -> & A & B). repeat split; auto; apply (kept_trans h h' h2 _ KK B).
Qed.

Lemma okc_list (l : list hconstr) c : okc c -> incl l (hkids c) -> Forall okc l.
Proof. intros O I. apply Forall_forall. intros k K. apply (okc_kid c); auto. Qed.
Lemma combine_erase (ns : list nat) (cs : list hconstr) : combine ns (map erase cs) = map (fun j => (fst j, erase (snd j))) (combine ns cs).
Proof. revert cs. induction ns as [|n ns IH]; intros [|c cs]; cbn; auto. now rewrite IH. Qed.
Lemma map_erase (ns : list nat) c : map (fun i => (i, erase c)) ns = map (fun j => (fst j, erase (snd j))) (map (fun i => (i, c)) ns).
Proof. now rewrite map_map. Qed.

Lemma harr_sim a v fp h w g : okc (KArr a) -> okf fp -> rep h v g fp ->
  sim v h fp (harr E hr a v h w) (arr_validate tr E {| a_items := erase (a_items a); a_pos := map erase (a_pos a); a_add := erase (a_add a);
                      a_min := a_min a; a_max := a_max a; a_uniq := a_uniq a |} g w).
Proof.
  intros O N X. inversion X as [v0 S|l gl fp0 RL|a0 m fp0 LT RM]; subst.
  - destruct v; try contradiction; cbn; repeat split; auto; destruct b; auto.
  - rewrite harr_eq, arr_eq. cbn [a_items a_pos a_add a_min a_max a_uniq]. rewrite !is_nil_erase, map_length, (repl_length _ _ _ _ RL).
    destruct ((-1 <? a_min a) && _); [repeat split; auto; destruct b; auto|].
    destruct ((-1 <? a_max a) && _); [repeat split; auto; destruct b; auto|].
    unfold hunique. rewrite (repl_unfold _ _ _ _ RL). cbn [option_map].
    assert (U : (if a_uniq a then Some (uniq_loop E [] gl) else Some true) = Some (negb (a_uniq a && negb (uniq_loop E [] gl)))) by (destruct (a_uniq a), (uniq_loop E [] gl); reflexivity).
    rewrite U. destruct (a_uniq a && negb (uniq_loop E [] gl)); cbn [negb]; [repeat split; auto; destruct b; auto|].
    assert (B : forall i, In i (seq 0 (List.length l)) -> (i < List.length l)%nat) by (intros i I; apply in_seq in I; lia).
    destruct (is_knil (a_items a)) eqn:Q.
    + rewrite combine_erase.
      assert (J : Forall (fun j => (fst j < List.length l)%nat /\ okc (snd j)) (combine (seq 0 (List.length l)) (a_pos a))).
      { apply Forall_forall. intros [i c] I. cbn. split; [apply B; eapply in_combine_l; eauto|]. apply (okc_kid (KArr a)); auto. cbn. right. right. eapply in_combine_r; eauto. }
      pose proof (hidx_sim l fp N _ J h w gl RL) as S1.
      destruct (hidx hr _ l h w) as [[r1 h1] w1]. destruct (idx_loop tr _ gl w) as [[r1' gl1] w1']. destruct S1 as (-> & -> & RL1 & K1).
      destruct r1; try (repeat split; auto; [now constructor|apply K1|apply K1]).
      destruct (_ && _)%bool eqn:LP; [|repeat split; auto; [now constructor|apply K1|apply K1]].
      destruct (is_knil (a_add a)); [repeat split; auto; [now constructor|apply K1|apply K1]|].
      rewrite map_erase.
      assert (J2 : Forall (fun j => (fst j < List.length l)%nat /\ okc (snd j)) (map (fun i => (i, a_add a)) (seq (List.length (a_pos a) - 1) (List.length l - (List.length (a_pos a) - 1))))).
      { apply Forall_forall. intros [i c] I. apply in_map_iff in I as (z & [= <- <-] & I). apply in_seq in I. cbn. split; [lia|]. apply (okc_kid (KArr a)); auto. cbn. auto. }
      pose proof (hidx_sim l fp N _ J2 h1 w1 gl1 RL1) as S2.
      destruct (hidx hr _ l h1 w1) as [[r2 h2] w2]. destruct (idx_loop tr _ gl1 w1) as [[r2' gl2] w2']. destruct S2 as (-> & -> & RL2 & K2).
      pose proof (kept_trans _ _ _ _ K1 K2) as K3. repeat split; auto; [now constructor|apply K3|apply K3].
    + rewrite map_erase.
      assert (J2 : Forall (fun j => (fst j < List.length l)%nat /\ okc (snd j)) (map (fun i => (i, a_items a)) (seq 0 (List.length l)))).
      { apply Forall_forall. intros [i c] I. apply in_map_iff in I as (z & [= <- <-] & I). cbn. split; [auto|]. apply (okc_kid (KArr a)); auto. cbn. auto. }
      pose proof (hidx_sim l fp N _ J2 h w gl RL) as S2.
      destruct (hidx hr _ l h w) as [[r2 h2] w2]. destruct (idx_loop tr _ gl w) as [[r2' gl2] w2']. destruct S2 as (-> & -> & RL2 & K2).
      repeat split; auto; [now constructor|apply K2|apply K2].
  - repeat split; auto; destruct b; auto.
Qed.

(** ** Objects *)
Context (hgd : hconstr -> hdres) (tgd : constr -> dres).
Definition dsim (hd : hdres) (td : dres) : Prop :=
  match hd, td with
  | HDNone, DNone | HDPanic, DPanic | HDOOF, DOOF => True
  | HDSome d, DSome d' => d' = tree_of d /\ mapless d /\ b = true
  | _, _ => False
  end.
Context (GD : forall c, okc c -> dsim (hgd c) (tgd (erase c))).
Definition osim (a : nat) (h : heap) (fp : list nat) (o : res * hstate * orc) (t : res * ostate * orc) : Prop :=
  let '(r, (h', pm, ps), w) := o in let '(r', (g', pm', ps'), w') := t in
  r' = r /\ w' = w /\ pm' = pm /\ ps' = ps /\ rep h' (HMap a) g' fp /\ kept h h' fp.
Definition erase_e {A} (e : A * hconstr) : A * constr := (fst e, erase (snd e)).

Lemma member a h g fp k x : okf fp -> rep h (HMap a) g fp -> sget k (h_at h a) = Some x ->
  exists m gx f1, g = gmap m /\ sget k m = Some gx /\ rep h x gx f1 /\ okf f1 /\
    forall h' g', rep h' x g' f1 -> kept h h' f1 -> rep h' (HMap a) (gmap (supd k g' m)) fp /\ kept h h' fp.
Proof.
  intros N X S. inversion X as [v0 SC|l gl fp0 RL|a0 m fp0 LT RM]; subst; [contradiction|].
  destruct (repm_at _ _ _ _ _ _ RM S) as (gx & f1 & fa & fb & -> & SG & RX & K).
  assert (N2 : okf (fa ++ f1 ++ fb)) by (unfold okf in *; destruct b; auto; now inversion N).
  exists m, gx, f1. repeat split; auto; [now apply okf_mid in N2| |apply H0|].
  - constructor; [destruct H0; lia|].
    assert (Q : h_at h' a = h_at h a).
    { destruct H0 as [_ H0]. unfold okf in N. destruct b; [|now rewrite H0]. apply H0. intros I. inversion N; subst. apply H3. now apply incl_mid. }
    rewrite Q. apply K; auto; [apply H0|]. exact (kept_mid _ _ _ _ _ N2 H0).
  - apply (kept_incl h h' f1 (a :: fa ++ f1 ++ fb)) in H0; [apply H0|]. intros z I. right. now apply incl_mid.
Qed.

Lemma map_rep a h g fp : rep h (HMap a) g fp -> exists m fps, g = gmap m /\ fp = a :: fps /\ (a < List.length h)%nat /\ repm h (h_at h a) m fps.
Proof. intros X. inversion X as [v0 SC|l gl fp0 RL|a0 m fp0 LT RM]; subst; [contradiction|]. eauto 7. Qed.
Lemma h_at_set h a m : (a < List.length h)%nat -> h_at (h_set h a m) a = m.
Proof. unfold h_at, h_set. revert h. induction a as [|a IH]; intros [|y h] L; cbn in *; try lia; auto. apply IH. lia. Qed.
Lemma h_at_other h a m a' : a' <> a -> h_at (h_set h a m) a' = h_at h a'.
Proof. unfold h_at, h_set. revert h a'. induction a as [|a IH]; intros [|y h] [|a'] N; cbn; auto; try congruence. Qed.
Lemma h_set_length h a m : List.length (h_set h a m) = List.length h.
Proof. unfold h_set. revert a. induction h as [|y h IH]; intros [|a]; cbn; auto. Qed.

Lemma hprops_sim o ps a fp : let oe := {| o_add := erase (o_add o); o_pats := map erase_e (o_pats o); o_props := map erase_e (o_props o);
       o_propdeps := o_propdeps o; o_req := o_req o; o_min := o_min o; o_max := o_max o; o_sdeps := map erase_e (o_sdeps o) |} in
  okf fp -> Forall (fun e => okc (snd e)) ps -> forall h pm sn w g, rep h (HMap a) g fp ->
  osim a h fp (hprops hr hgd o a ps (h, pm, sn) w) (props_loop tr tgd E oe (map erase_e ps) (g, pm, sn) w).
Proof.
  intros oe N O. induction O as [|[k c] ps O1 O2 IH]; intros h pm sn w g X; cbn [hprops props_loop map erase_e fst snd].
  { repeat split; auto; destruct b; auto. }
  cbn [snd] in O1. destruct (sget k (h_at h a)) as [x|] eqn:SG.
  - destruct (member a h g fp k x N X SG) as (m & gx & f1 & -> & SM & RX & N1 & K).
    change (get_prop (deref1 (gmap m)) k) with (match sget k m with None => Some RZero | Some x => Some (RV true x) end). rewrite SM. cbn [look_prop is_maybe].
    step c x h w gx f1. destruct (K h' g' RP KP) as [X' KK].
    change (put_prop (gmap m) k g') with (gmap (supd k g' m)).
    destruct r; try (repeat split; auto; apply KK).
    specialize (IH h' (remove_s k pm) (k :: sn) w' _ X').
    destruct (hprops hr hgd o a ps _ w') as [[r2 [[h2 pm2] sn2]] w2]. destruct (props_loop tr tgd E oe _ _ w') as [[r2' [[g2 pm2'] sn2']] w2'].
    destruct IH as (-> & -> & -> & -> & A & B). repeat split; auto; apply (kept_trans h h' h2 _ KK B).
  - destruct (map_rep _ _ _ _ X) as (m & fps & -> & -> & LT & RM). pose proof (repm_none _ _ _ _ k RM SG) as SM.
    change (get_prop (deref1 (gmap m)) k) with (match sget k m with None => Some RZero | Some x => Some (RV true x) end). rewrite SM. cbn [look_prop].
    change (is_required oe k) with (hrequired o k). destruct (hrequired o k); [repeat split; auto; destruct b; auto|].
    pose proof (GD c O1) as D. destruct (hgd c) as [|d| |]; destruct (tgd (erase c)) as [|d'| |]; try contradiction; cbn [dsim] in D.
    + apply IH. exact X.
    + destruct D as (-> & ML & BT).
      assert (Q : set_prop E (gmap m) k (tree_of d) = GOk (gmap (match d with HNil => m | _ => sset k (tree_of d) m end))).
      { destruct d; try contradiction; cbn; rewrite ?(sdel_absent k m SM); reflexivity. }
      rewrite Q. clear Q.
      assert (Q : match d with HNil => sdel k (h_at h a) | _ => sset k d (h_at h a) end = match d with HNil => h_at h a | _ => sset k d (h_at h a) end).
      { destruct d; auto. now apply sdel_absent. }
      rewrite Q. clear Q. set (m2 := match d with HNil => h_at h a | _ => sset k d (h_at h a) end).
      assert (X2 : rep (h_set h a m2) (HMap a) (gmap (match d with HNil => m | _ => sset k (tree_of d) m end)) (a :: fps)).
      { constructor; [now rewrite h_set_length|]. rewrite h_at_set by auto.
        assert (Y : repm h m2 (match d with HNil => m | _ => sset k (tree_of d) m end) fps).
        { unfold m2. pose proof (mapless_rep h d ML) as RD. destruct d; auto; apply repm_set; auto. }
        apply (proj2 (proj2 (rep_frame h (h_set h a m2) (h_set_length _ _ _))) _ _ _ Y).
        intros z I. apply h_at_other. intros ->. unfold okf in N. rewrite BT in N. inversion N; auto. }
      assert (K2 : kept h (h_set h a m2) (a :: fps)).
      { split; [apply h_set_length|]. rewrite BT. intros z I. apply h_at_other. intros ->. apply I. now left. }
      specialize (IH (h_set h a m2) pm sn w _ X2).
      destruct (hprops hr hgd o a ps _ w) as [[r2 [[h2 pm2] sn2]] w2]. destruct (props_loop tr tgd E oe _ _ w) as [[r2' [[g2 pm2'] sn2']] w2'].
      destruct IH as (-> & -> & -> & -> & A & B). repeat split; auto; apply (kept_trans _ _ _ _ K2 B).
    + repeat split; auto; destruct b; auto.
    + repeat split; auto; destruct b; auto.
Qed.

Lemma hpat1_sim src c a fp ns : okf fp -> okc c -> forall h pm sn w g, rep h (HMap a) g fp ->
  osim a h fp (hpat1 E hr src c a ns (h, pm, sn) w) (pat_inner tr E src (erase c) ns (g, pm, sn) w).
Proof.
  intros N O. induction ns as [|k ns IH]; intros h pm sn w g X; cbn [hpat1 pat_inner]; [repeat split; auto; destruct b; auto|].
  destruct (negb (e_rx E src k)); [now apply IH|]. destruct (sget k (h_at h a)) as [x|] eqn:SG.
  - destruct (member a h g fp k x N X SG) as (m & gx & f1 & -> & SM & RX & N1 & K).
    change (get_prop (deref1 (gmap m)) k) with (match sget k m with None => Some RZero | Some x => Some (RV true x) end). rewrite SM. cbn [interface].
    step c x h w gx f1. destruct (K h' g' RP KP) as [X' KK].
    change (put_prop (gmap m) k g') with (gmap (supd k g' m)).
    destruct r; try (repeat split; auto; apply KK).
    specialize (IH h' (remove_s k pm) (k :: sn) w' _ X').
    destruct (hpat1 E hr src c a ns _ w') as [[r2 [[h2 pm2] sn2]] w2]. destruct (pat_inner tr E src (erase c) ns _ w') as [[r2' [[g2 pm2'] sn2']] w2'].
    destruct IH as (-> & -> & -> & -> & A & B). repeat split; auto; apply (kept_trans h h' h2 _ KK B).
  - destruct (map_rep _ _ _ _ X) as (m & fps & -> & -> & LT & RM). pose proof (repm_none _ _ _ _ k RM SG) as SM.
    change (get_prop (deref1 (gmap m)) k) with (match sget k m with None => Some RZero | Some x => Some (RV true x) end). rewrite SM. cbn [interface].
    repeat split; auto; destruct b; auto.
Qed.
Lemma hpats_sim a fp ps : okf fp -> Forall (fun e => okc (snd e)) ps -> forall h pm sn w g, rep h (HMap a) g fp ->
  osim a h fp (hpats E hr a ps (h, pm, sn) w) (pats_loop tr E (map erase_e ps) (g, pm, sn) w).
Proof.
  intros N O. induction O as [|[[id src] c] ps O1 O2 IH]; intros h pm sn w g X; cbn [hpats pats_loop map erase_e fst snd]; [repeat split; auto; destruct b; auto|].
  destruct (shuffle w pm) as [ns w1]. pose proof (hpat1_sim src c a fp ns N O1 h pm sn w1 g X) as S1.
  destruct (hpat1 E hr src c a ns _ w1) as [[r1 [[h1 pm1] sn1]] w2]. destruct (pat_inner tr E src (erase c) ns _ w1) as [[r1' [[g1 pm1'] sn1']] w2'].
  destruct S1 as (-> & -> & -> & -> & A & B). destruct r1; try (repeat split; auto; apply B).
  specialize (IH h1 pm1 sn1 w2 _ A).
  destruct (hpats E hr a ps _ w2) as [[r2 [[h2 pm2] sn2]] w3]. destruct (pats_loop tr E _ _ w2) as [[r2' [[g2 pm2'] sn2']] w3'].
  destruct IH as (-> & -> & -> & -> & A2 & B2). repeat split; auto; apply (kept_trans h h1 h2 _ B B2).
Qed.
Lemma hadd_sim c a fp ns : okf fp -> okc c -> forall h w g, rep h (HMap a) g fp -> sim (HMap a) h fp (hadd hr c a ns h w) (add_loop tr (erase c) ns g w).
Proof.
  intros N O. induction ns as [|k ns IH]; intros h w g X; cbn [hadd add_loop]; [repeat split; auto; destruct b; auto|].
  destruct (sget k (h_at h a)) as [x|] eqn:SG.
  - destruct (member a h g fp k x N X SG) as (m & gx & f1 & -> & SM & RX & N1 & K).
    change (get_prop (deref1 (gmap m)) k) with (match sget k m with None => Some RZero | Some x => Some (RV true x) end). rewrite SM. cbn [interface].
    step c x h w gx f1. destruct (K h' g' RP KP) as [X' KK].
    change (put_prop (gmap m) k g') with (gmap (supd k g' m)).
    destruct r; try (repeat split; auto; apply KK).
    specialize (IH h' w' _ X').
    destruct (hadd hr c a ns _ w') as [[r2 h2] w2]. destruct (add_loop tr (erase c) ns _ w') as [[r2' g2] w2'].
    destruct IH as (-> & -> & A & B). repeat split; auto; apply (kept_trans h h' h2 _ KK B).
  - destruct (map_rep _ _ _ _ X) as (m & fps & -> & -> & LT & RM). pose proof (repm_none _ _ _ _ k RM SG) as SM.
    change (get_prop (deref1 (gmap m)) k) with (match sget k m with None => Some RZero | Some x => Some (RV true x) end). rewrite SM. cbn [interface].
    repeat split; auto; destruct b; auto.
Qed.
Lemma sget_erase (l : list (string * hconstr)) k : sget k (map erase_e l) = option_map erase (sget k l).
Proof. induction l as [|[k' c] l IH]; auto. cbn. destruct (String.eqb k k'); auto. Qed.
Lemma hdeps_sim o v fp sn : let oe := {| o_add := erase (o_add o); o_pats := map erase_e (o_pats o); o_props := map erase_e (o_props o);
       o_propdeps := o_propdeps o; o_req := o_req o; o_min := o_min o; o_max := o_max o; o_sdeps := map erase_e (o_sdeps o) |} in
  okf fp -> Forall (fun e => okc (snd e)) (o_sdeps o) -> forall ns h w g, rep h v g fp ->
  sim v h fp (hdeps hr o sn ns v h w) (deps_loop tr oe sn ns g w).
Proof.
  intros oe N O. induction ns as [|k ns IH]; intros h w g X; [repeat split; auto; destruct b; auto|]. rewrite hdeps_eq, deps_eq.
  change (prop_deps oe k) with (hprop_deps o k). destruct (hprop_deps o k) as [|d ds].
  - assert (Q : schema_dep oe k = erase (hschema_dep o k)) by (unfold schema_dep, hschema_dep; cbn [o_sdeps oe]; rewrite sget_erase; destruct (sget k (o_sdeps o)); reflexivity).
    rewrite Q, is_nil_erase. destruct (is_knil (hschema_dep o k)); [now apply IH|].
    assert (OD : okc (hschema_dep o k)).
    { unfold hschema_dep. destruct (sget k (o_sdeps o)) as [c|] eqn:SG.
      - rewrite Forall_forall in O. exact (O _ (sget_in _ _ _ SG)).
      - unfold okc. destruct b; intros d H; inversion H; subst; try discriminate; contradiction. }
    step (hschema_dep o k) v h w g fp. destruct r; try (repeat split; auto; apply KP).
    specialize (IH h' w' _ RP). destruct (hdeps hr o sn ns v h' w') as [[r2 h2] w2]. destruct (deps_loop tr oe sn ns g' w') as [[r2' g2] w2'].
    destruct IH as (-> & -> & A & B). repeat split; auto; apply (kept_trans h h' h2 _ KP B).
  - destruct (missing_dep sn (d :: ds)); [repeat split; auto; destruct b; auto|now apply IH].
Qed.

Lemma hobj_sim o v fp h w g : okc (KObj o) -> okf fp -> rep h v g fp ->
  sim v h fp (hobj E hr hgd o v h w) (obj_validate tr tgd E {| o_add := erase (o_add o); o_pats := map erase_e (o_pats o); o_props := map erase_e (o_props o);
       o_propdeps := o_propdeps o; o_req := o_req o; o_min := o_min o; o_max := o_max o; o_sdeps := map erase_e (o_sdeps o) |} g w).
Proof.
  intros O N X. assert (SHELL : (forall a, v <> HMap a) -> sim v h fp (hobj E hr hgd o v h w) (obj_validate tr tgd E {| o_add := erase (o_add o); o_pats := map erase_e (o_pats o); o_props := map erase_e (o_props o);
       o_propdeps := o_propdeps o; o_req := o_req o; o_min := o_min o; o_max := o_max o; o_sdeps := map erase_e (o_sdeps o) |} g w)).
  { intros NM. inversion X as [v0 S|l gl fp0 RL|a0 m fp0 LT RM]; subst; [| |now destruct (NM a0)].
    - destruct v; try contradiction; repeat split; auto; destruct b; auto.
    - repeat split; auto; destruct b; auto. }
  destruct v as [| | | | |a]; try (apply SHELL; congruence). clear SHELL.
  destruct (map_rep _ _ _ _ X) as (m & fps & -> & FP & LT & RM).
  rewrite hobj_eq, obj_eq. cbn [o_min o_max o_props o_pats o_add]. rewrite (repm_keys _ _ _ _ RM), is_nil_erase.
  destruct ((-1 <? o_min o) && _); [repeat split; auto; destruct b; auto|].
  destruct ((-1 <? o_max o) && _); [repeat split; auto; destruct b; auto|].
  set (oe := {| o_add := erase (o_add o) |}).
  rewrite shuffle_map. destruct (shuffle w (o_props o)) as [ps w1] eqn:SH1.
  assert (OP : Forall (fun e => okc (snd e)) ps).
  { apply Forall_forall. intros e I. apply (okc_kid (KObj o)); auto. cbn. right. apply in_or_app. right. apply in_or_app. left. apply in_map.
    apply shuffle_perm in SH1. exact (Permutation_in e (Permutation_sym SH1) I). }
  pose proof (hprops_sim o ps a fp N OP h (keys (h_at h a)) [] w1 _ X) as S1. fold oe in S1.
  destruct (hprops hr hgd o a ps _ w1) as [[r2 [[h2 pm2] sn2]] w2]. destruct (props_loop tr tgd E oe _ _ w1) as [[r2' [[g2 pm2'] sn2']] w2'].
  destruct S1 as (-> & -> & -> & -> & A & B). destruct r2; try (repeat split; auto; apply B).
  rewrite shuffle_map. destruct (shuffle w2 (o_pats o)) as [pats w3] eqn:SH2.
  assert (OQ : Forall (fun e => okc (snd e)) pats).
  { apply Forall_forall. intros e I. apply (okc_kid (KObj o)); auto. cbn. right. apply in_or_app. left. apply in_map.
    apply shuffle_perm in SH2. exact (Permutation_in e (Permutation_sym SH2) I). }
  pose proof (hpats_sim a fp pats N OQ h2 pm2 sn2 w3 _ A) as S2.
  destruct (hpats E hr a pats _ w3) as [[r4 [[h4 pm4] sn4]] w4]. destruct (pats_loop tr E _ _ w3) as [[r4' [[g4 pm4'] sn4']] w4'].
  destruct S2 as (-> & -> & -> & -> & A4 & B4). pose proof (kept_trans _ _ _ _ B B4) as K4. destruct r4; try (repeat split; auto; apply K4).
  assert (OS : Forall (fun e => okc (snd e)) (o_sdeps o)).
  { apply Forall_forall. intros e I. apply (okc_kid (KObj o)); auto. cbn. right. apply in_or_app. right. apply in_or_app. right. now apply in_map. }
  assert (T : forall o6 t6, sim (HMap a) h4 fp o6 t6 ->
    sim (HMap a) h fp (match o6 with (Pass, h6, w6) => let '(ns, w7) := shuffle w6 sn4 in hdeps hr o sn4 ns (HMap a) h6 w7 | (Fail m0, h6, w6) => (Fail m0, h6, w6) | (Panic m0, h6, w6) => (Panic m0, h6, w6) | (OOF, h6, w6) => (OOF, h6, w6) end)
      (match t6 with (Pass, v6, w6) => let '(ns, w7) := shuffle w6 sn4 in deps_loop tr oe sn4 ns v6 w7 | (Fail m0, v6, w6) => (Fail m0, v6, w6) | (Panic m0, v6, w6) => (Panic m0, v6, w6) | (OOF, v6, w6) => (OOF, v6, w6) end)).
  { intros [[r6 h6] w6] [[r6' g6] w6'] (-> & -> & A6 & B6). pose proof (kept_trans _ _ _ _ K4 B6) as K6. destruct r6; try (repeat split; auto; apply K6).
    destruct (shuffle w6 sn4) as [ns w7]. pose proof (hdeps_sim o (HMap a) fp sn4 N OS ns h6 w7 _ A6) as S7. fold oe in S7.
    destruct (hdeps hr o sn4 ns (HMap a) h6 w7) as [[r8 h8] w8]. destruct (deps_loop tr oe sn4 ns g6 w7) as [[r8' g8] w8'].
    destruct S7 as (-> & -> & A8 & B8). repeat split; auto; apply (kept_trans _ _ _ _ K6 B8). }
  assert (S3 : sim (HMap a) h4 fp (match pm4 with [] => (Pass, h4, w4) | _ => if is_knil (o_add o) then (Fail "additional properties are not allowed", h4, w4)
        else let '(ns, w5) := shuffle w4 pm4 in hadd hr (o_add o) a ns h4 w5 end)
     (match pm4 with [] => (Pass, g4, w4) | _ => if is_knil (o_add o) then (Fail "additional properties are not allowed", g4, w4)
        else let '(ns, w5) := shuffle w4 pm4 in add_loop tr (erase (o_add o)) ns g4 w5 end)).
  { destruct pm4 as [|k pm4]; [repeat split; auto; destruct b; auto|]. destruct (is_knil (o_add o)); [repeat split; auto; destruct b; auto|].
    destruct (shuffle w4 (k :: pm4)) as [ns w5]. apply hadd_sim; auto. apply (okc_kid (KObj o)); auto. now left. }
  apply (T _ _ S3).
Qed.
End Loops.

Lemma default_sim n : forall c, okc c -> dsim (hdefault R n c) (get_default n E (erase c)).
Proof.
  induction n as [|n IH]; intros c O; [exact I|].
  assert (D : forall d, own_default c = Some d -> mapless d /\ b = true).
  { intros d Q. pose proof (HH_own R c d Q) as H. unfold okc in O. destruct b; [split; auto|destruct (O d H)]. }
  destruct c; try exact I; cbn [hdefault get_default erase];
    try (destruct d as [d|]; [cbn; destruct (D d eq_refl); auto|exact I]).
  rewrite RE. destruct (R name) as [c|] eqn:Q; [|exact I]. apply IH. now apply (okc_ref name).
Qed.

Theorem heap_sim n : good (hvalidate E R n) (validate n E).
Proof.
  induction n as [|n IH]; intros c v h w g fp O X N; [repeat split; auto; destruct b; auto|].
  destruct c; cbn [hvalidate validate erase]; try (repeat split; auto; [..|destruct b; auto];
    first [now rewrite (null_shell v g h fp X)|now rewrite (bool_shell v g h fp X)|now rewrite (str_shell c v g h fp X)|now rewrite (num_shell c v g h fp X)
          |now rewrite (int_shell c v g h fp X)|now rewrite (enum_shell l v g h fp X)]).
  - now apply harr_sim.
  - apply hobj_sim; auto. intros c O'. now apply default_sim.
  - apply hany_sim; auto. now apply (okc_list l (KAny l)).
  - apply hall_sim; auto. now apply (okc_list l (KAll l)).
  - apply honeof_sim; auto. now apply (okc_list l (KOneOf l)).
  - apply hnot_sim; auto. apply (okc_kid (KNot c)); auto. now left.
  - rewrite RE. destruct (R name) as [c|] eqn:Q; cbn [option_map]; [|repeat split; auto; destruct b; auto]. apply IH; auto. now apply (okc_ref name).
Qed.
End Sim.

(** ** Documents without sharing, default values without maps *)
Theorem heap_unshared E R n c v h w g fp : (forall k, e_refs E k = option_map erase (R k)) ->
  (forall d, HHas R c d -> mapless d) -> rep h v g fp -> NoDup fp ->
  let '(r, h', w') := hvalidate E R n c v h w in
  exists g', validate n E (erase c) g w = (r, g', w') /\ rep h' v g' fp /\ List.length h' = List.length h /\ forall a, ~ In a fp -> h_at h' a = h_at h a.
Proof.
  intros RE D X N. pose proof (heap_sim E R RE true n c v h w g fp D X N) as S.
  destruct (hvalidate E R n c v h w) as [[r h'] w']. destruct (validate n E (erase c) g w) as [[r' g'] w'']. destruct S as (-> & -> & A & B & C). eauto 6.
Qed.
(** ** Any acyclic document, no default values *)
Theorem heap_readonly E R n c v h w g fp : (forall k, e_refs E k = option_map erase (R k)) ->
  (forall d, ~ HHas R c d) -> rep h v g fp ->
  exists r w', hvalidate E R n c v h w = (r, h, w') /\ validate n E (erase c) g w = (r, g, w').
Proof.
  intros RE D X. pose proof (heap_sim E R RE false n c v h w g fp D X I) as S.
  destruct (hvalidate E R n c v h w) as [[r h'] w']. destruct (validate n E (erase c) g w) as [[r' g'] w'']. destruct S as (-> & -> & A & B & ->).
  exists r, w'. split; auto. destruct (proj1 (rep_det h) _ _ _ X _ _ A) as [-> _]. reflexivity.
Qed.

(** ** Validating several documents one after the other *)
Fixpoint hruns (E : env) (R : string -> option hconstr) (n : nat) (c : hconstr) (ds : list (hval * orc)) (h : heap) : list res * heap :=
  match ds with
  | [] => ([], h)
  | (v, w) :: r => let '(x, h', _) := hvalidate E R n c v h w in let '(xs, h2) := hruns E R n c r h' in (x :: xs, h2)
  end.
Theorem hruns_alone E R n c ds : (forall k, e_refs E k = option_map erase (R k)) -> (forall d, HHas R c d -> mapless d) ->
  forall gs h fp, repl h (map fst ds) gs fp -> NoDup fp ->
  fst (hruns E R n c ds h) = map (fun p => fst (fst (validate n E (erase c) (fst p) (snd p)))) (combine gs (map snd ds)).
Proof.
  intros RE D. induction ds as [|[v w] ds IH]; intros gs h fp X N; cbn [map fst] in X; inversion X as [|v0 l0 g gl f1 f2 X1 X2]; subst; [reflexivity|].
  cbn [hruns map combine fst snd]. pose proof (heap_unshared E R n c v h w g f1 RE D X1 (nodup_app_l _ _ N)) as S.
  destruct (hvalidate E R n c v h w) as [[r h'] w']. destruct S as (g' & V & Y & L & K).
  assert (X2' : repl h' (map fst ds) gl f2).
  { apply (proj1 (proj2 (rep_frame h h' L)) _ _ _ X2). intros a I. apply K. intros J. exact (nodup_app_not _ _ a N J I). }
  specialize (IH gl h' f2 X2' (nodup_app_r _ _ N)). destruct (hruns E R n c ds h') as [xs h2]. cbn [fst] in *. rewrite V, IH. reflexivity.
Qed.

(** ** What validation may change, with no condition on sharing *)
Fixpoint within (S : nat -> Prop) (v : hval) : Prop :=
  match v with
  | HArr l => (fix go l := match l with [] => True | x :: r => within S x /\ go r end) l
  | HMap a => S a
  | _ => True
  end.
Definition closed (S : nat -> Prop) (h : heap) : Prop := forall a, S a -> forall k x, In (k, x) (h_at h a) -> within S x.

Section Frame.
Context (E : env) (R : string -> option hconstr) (S : nat -> Prop).
Definition inside (c : hconstr) : Prop := forall d, HHas R c d -> within S d.
Definition same_out (h h' : heap) : Prop := (forall a, ~ S a -> h_at h' a = h_at h a) /\ closed S h'.
Definition stays (hr : hrec) : Prop := forall c v h w, inside c -> within S v -> closed S h -> same_out h (snd (fst (hr c v h w))).
Lemma within_nth l i : within S (HArr l) -> within S (nth i l HNil).
Proof. revert i. induction l as [|x l IH]; intros [|i] W; cbn; try exact I; destruct W as [W1 W2]; auto. Qed.
Lemma inside_kid c k : inside c -> In k (hkids c) -> inside k.
Proof. intros O I d H. apply O. now apply (HH_kid R c k). Qed.
Lemma same_refl h : closed S h -> same_out h h.
Proof. split; auto. Qed.
Lemma same_trans h1 h2 h3 : same_out h1 h2 -> same_out h2 h3 -> same_out h1 h3.
Proof. intros [A B] [C D]. split; auto. intros a N. now rewrite C, A. Qed.
Section FLoops.
Context (hr : hrec) (G : stays hr).
Ltac fstep c v h w := let F := fresh "F" in assert (F : same_out h (snd (fst (hr c v h w)))) by (apply G; auto); destruct (hr c v h w) as [[?r ?h'] ?w']; cbn [fst snd] in F.
Lemma hall_stays cs v : Forall inside cs -> within S v -> forall h w, closed S h -> same_out h (snd (fst (hall hr cs v h w))).
Proof.
  intros O W. induction O as [|c cs O1 O2 IH]; intros h w C; cbn [hall]; [now apply same_refl|]. fstep c v h w. destruct r; auto.
  apply (same_trans h h'); auto. apply IH, F.
Qed.
Lemma hany_stays cs v : Forall inside cs -> within S v -> forall h w, closed S h -> same_out h (snd (fst (hany hr cs v h w))).
Proof.
  intros O W. induction O as [|c cs O1 O2 IH]; intros h w C; cbn [hany]; [now apply same_refl|]. fstep c v h w. destruct r; auto.
  apply (same_trans h h'); auto. apply IH, F.
Qed.
Lemma honeof_stays cs v : Forall inside cs -> within S v -> forall k h w, closed S h -> same_out h (snd (fst (honeof hr cs k v h w))).
Proof.
  intros O W. induction O as [|c cs O1 O2 IH]; intros k h w C; cbn [honeof]; [now apply same_refl|]. fstep c v h w. destruct r; auto;
  apply (same_trans h h'); auto; apply IH, F.
Qed.
Lemma hnot_stays c v h w : inside c -> within S v -> closed S h -> same_out h (snd (fst (hnot hr c v h w))).
Proof.
  intros O W C. unfold hnot. assert (F : same_out h (snd (fst (hr c v h w)))) by (apply G; auto).
  destruct c; try (now apply same_refl); destruct (hr _ v h w) as [[[]]]; exact F.
Qed.
Lemma hidx_stays l jobs : within S (HArr l) -> Forall (fun j => inside (snd j)) jobs -> forall h w, closed S h -> same_out h (snd (fst (hidx hr jobs l h w))).
Proof.
  intros W O. induction O as [|[i c] cs O1 O2 IH]; intros h w C; cbn [hidx]; [now apply same_refl|]. cbn [snd] in O1.
  pose proof (within_nth l i W) as W'. fstep c (nth i l HNil) h w. destruct r; auto. apply (same_trans h h'); auto. apply IH, F.
Qed.
Lemma harr_stays a v h w : inside (KArr a) -> within S v -> closed S h -> same_out h (snd (fst (harr E hr a v h w))).
Proof.
  intros O W C. destruct v as [| | | |l|]; try (now apply same_refl). rewrite harr_eq.
  destruct (_ && _); [now apply same_refl|]. destruct (_ && _); [now apply same_refl|].
  destruct (if a_uniq a then _ else _) as [[]|]; try (now apply same_refl). destruct (is_knil (a_items a)).
  - assert (J : Forall (fun j => inside (snd j)) (combine (seq 0 (List.length l)) (a_pos a))).
    { apply Forall_forall. intros [i c] I. apply (inside_kid (KArr a)); auto. cbn. right. right. eapply in_combine_r; eauto. }
    pose proof (hidx_stays l _ W J h w C) as F. destruct (hidx hr _ l h w) as [[r h'] w']. cbn [fst snd] in F. destruct r; auto.
    destruct (_ && _); auto. destruct (is_knil (a_add a)); auto. apply (same_trans h h'); auto. apply hidx_stays; [auto| |apply F].
    apply Forall_forall. intros [i c] I. apply in_map_iff in I as (z & [= <- <-] & I). apply (inside_kid (KArr a)); auto. cbn. auto.
  - apply hidx_stays; auto. apply Forall_forall. intros [i c] I. apply in_map_iff in I as (z & [= <- <-] & I). apply (inside_kid (KArr a)); auto. cbn. auto.
Qed.
Context (hgd : hconstr -> hdres) (GD : forall c d, inside c -> hgd c = HDSome d -> within S d).
Lemma set_stays h a m : S a -> closed S h -> (forall k x, In (k, x) m -> within S x) -> same_out h (h_set h a m).
Proof.
  intros A C M. split.
  - intros a' N. apply h_at_other. intros ->. contradiction.
  - intros a' A' k x I. destruct (Nat.eq_dec a' a) as [->|N].
    + destruct (Nat.lt_ge_cases a (List.length h)) as [L|L]; [rewrite h_at_set in I by auto; eauto|].
      unfold h_at in I. rewrite nth_overflow in I by (rewrite h_set_length; lia). destruct I.
    + rewrite h_at_other in I by auto. eauto.
Qed.
Definition osnd (o : res * hstate * orc) : heap := fst (fst (snd (fst o))).
Lemma hprops_stays o a ps : S a -> Forall (fun e => inside (snd e)) ps -> forall h pm sn w, closed S h -> same_out h (osnd (hprops hr hgd o a ps (h, pm, sn) w)).
Proof.
  intros A O. induction O as [|[k c] ps O1 O2 IH]; intros h pm sn w C; cbn [hprops]; [now apply same_refl|]. cbn [snd] in O1.
  destruct (sget k (h_at h a)) as [x|] eqn:SG.
  - pose proof (C a A k x (sget_in _ _ _ SG)) as W. fstep c x h w. destruct r; auto. apply (same_trans h h'); auto. apply IH, F.
  - destruct (hrequired o k); [now apply same_refl|]. destruct (hgd c) as [|d| |] eqn:Q; auto; try (now apply same_refl).
    assert (F : same_out h (h_set h a (match d with HNil => sdel k (h_at h a) | _ => sset k d (h_at h a) end))).
    { apply set_stays; auto. intros k' x I. pose proof (GD c d O1 Q) as W.
      assert (J : x = d \/ In (k', x) (h_at h a)).
      { destruct d; try (now apply in_sset in I). apply filter_In in I. tauto. }
      destruct J as [->|J]; auto. exact (C a A k' x J). }
    apply (same_trans _ _ _ F). apply IH, F.
Qed.
Lemma hpat1_stays src c a ns : S a -> inside c -> forall h pm sn w, closed S h -> same_out h (osnd (hpat1 E hr src c a ns (h, pm, sn) w)).
Proof.
  intros A O. induction ns as [|k ns IH]; intros h pm sn w C; cbn [hpat1]; [now apply same_refl|]. destruct (negb _); [now apply IH|].
  destruct (sget k (h_at h a)) as [x|] eqn:SG; [|now apply same_refl].
  pose proof (C a A k x (sget_in _ _ _ SG)) as W. fstep c x h w. destruct r; auto. apply (same_trans h h'); auto. apply IH, F.
Qed.
Lemma hpats_stays a ps : S a -> Forall (fun e => inside (snd e)) ps -> forall h pm sn w, closed S h -> same_out h (osnd (hpats E hr a ps (h, pm, sn) w)).
Proof.
  intros A O. induction O as [|[[id src] c] ps O1 O2 IH]; intros h pm sn w C; cbn [hpats]; [now apply same_refl|].
  destruct (shuffle w pm) as [ns w1]. pose proof (hpat1_stays src c a ns A O1 h pm sn w1 C) as F.
  destruct (hpat1 E hr src c a ns _ w1) as [[r [[h' pm'] sn']] w2]. unfold osnd in F. cbn [fst snd] in F. destruct r; auto. apply (same_trans h h'); auto. apply IH, F.
Qed.
Lemma hadd_stays c a ns : S a -> inside c -> forall h w, closed S h -> same_out h (snd (fst (hadd hr c a ns h w))).
Proof.
  intros A O. induction ns as [|k ns IH]; intros h w C; cbn [hadd]; [now apply same_refl|].
  destruct (sget k (h_at h a)) as [x|] eqn:SG; [|now apply same_refl].
  pose proof (C a A k x (sget_in _ _ _ SG)) as W. fstep c x h w. destruct r; auto. apply (same_trans h h'); auto. apply IH, F.
Qed.
Lemma hdeps_stays o v sn ns : within S v -> Forall (fun e => inside (snd e)) (o_sdeps o) -> forall h w, closed S h -> same_out h (snd (fst (hdeps hr o sn ns v h w))).
Proof.
  intros W O. induction ns as [|k ns IH]; intros h w C; [now apply same_refl|]. rewrite hdeps_eq.
  destruct (hprop_deps o k); [|destruct (missing_dep _ _); [now apply same_refl|now apply IH]].
  destruct (is_knil (hschema_dep o k)) eqn:Q; [now apply IH|].
  assert (I : inside (hschema_dep o k)).
  { unfold hschema_dep in *. destruct (sget k (o_sdeps o)) as [c|] eqn:SG; [|discriminate]. rewrite Forall_forall in O. exact (O _ (sget_in _ _ _ SG)). }
  fstep (hschema_dep o k) v h w. destruct r; auto. apply (same_trans h h'); auto. apply IH, F.
Qed.
Lemma hobj_stays o v h w : inside (KObj o) -> within S v -> closed S h -> same_out h (snd (fst (hobj E hr hgd o v h w))).
Proof.
  intros O W C. destruct v as [| | | | |a]; try (now apply same_refl). rewrite hobj_eq.
  destruct (_ && _); [now apply same_refl|]. destruct (_ && _); [now apply same_refl|].
  destruct (shuffle w (o_props o)) as [ps w1] eqn:SH1.
  assert (OP : Forall (fun e => inside (snd e)) ps).
  { apply Forall_forall. intros e I. apply (inside_kid (KObj o)); auto. cbn. right. apply in_or_app. right. apply in_or_app. left. apply in_map.
    apply shuffle_perm in SH1. exact (Permutation_in e (Permutation_sym SH1) I). }
  pose proof (hprops_stays o a ps W OP h (keys (h_at h a)) [] w1 C) as F1.
  destruct (hprops hr hgd o a ps _ w1) as [[r2 [[h2 pm2] sn2]] w2]. unfold osnd in F1. cbn [fst snd] in F1. destruct r2; auto.
  destruct (shuffle w2 (o_pats o)) as [pats w3] eqn:SH2.
  assert (OQ : Forall (fun e => inside (snd e)) pats).
  { apply Forall_forall. intros e I. apply (inside_kid (KObj o)); auto. cbn. right. apply in_or_app. left. apply in_map.
    apply shuffle_perm in SH2. exact (Permutation_in e (Permutation_sym SH2) I). }
  pose proof (hpats_stays a pats W OQ h2 pm2 sn2 w3 (proj2 F1)) as F2.
  destruct (hpats E hr a pats _ w3) as [[r4 [[h4 pm4] sn4]] w4]. unfold osnd in F2. cbn [fst snd] in F2.
  pose proof (same_trans _ _ _ F1 F2) as F4. destruct r4; auto.
  assert (OS : Forall (fun e => inside (snd e)) (o_sdeps o)).
  { apply Forall_forall. intros e I. apply (inside_kid (KObj o)); auto. cbn. right. apply in_or_app. right. apply in_or_app. right. now apply in_map. }
  assert (T : forall o6, same_out h4 (snd (fst o6)) ->
    same_out h (snd (fst (match o6 with (Pass, h6, w6) => let '(ns, w7) := shuffle w6 sn4 in hdeps hr o sn4 ns (HMap a) h6 w7
      | (Fail m0, h6, w6) => (Fail m0, h6, w6) | (Panic m0, h6, w6) => (Panic m0, h6, w6) | (OOF, h6, w6) => (OOF, h6, w6) end)))).
  { intros [[r6 h6] w6] F6. cbn [fst snd] in F6. pose proof (same_trans _ _ _ F4 F6) as F7. destruct r6; auto.
    destruct (shuffle w6 sn4) as [ns w7]. apply (same_trans _ _ _ F7). apply hdeps_stays; auto. apply F6. }
  apply T. destruct pm4 as [|k pm4]; [apply same_refl, F4|]. destruct (is_knil (o_add o)); [apply same_refl, F4|].
  destruct (shuffle w4 (k :: pm4)) as [ns w5]. apply hadd_stays; auto; [apply (inside_kid (KObj o)); auto; now left|apply F4].
Qed.
End FLoops.
Lemma hdefault_inside n : forall c d, inside c -> hdefault R n c = HDSome d -> within S d.
Proof.
  induction n as [|n IH]; intros c d O H; [discriminate|].
  assert (D : own_default c = Some d -> within S d) by (intros Q; apply O; now constructor).
  destruct c; try discriminate; cbn [hdefault] in H; try (apply D; cbn; destruct d0; cbn in H; congruence).
  destruct (R name) as [c|] eqn:Q; [|discriminate]. apply (IH c); auto. intros x X. apply O. now apply (HH_ref R name c).
Qed.
Lemma hvalidate_stays n : stays (hvalidate E R n).
Proof.
  induction n as [|n IH]; intros c v h w O W C; [now apply same_refl|].
  destruct c; cbn [hvalidate]; try (now apply same_refl).
  - now apply harr_stays.
  - apply hobj_stays; auto. intros c d. apply hdefault_inside.
  - apply hany_stays; auto. apply Forall_forall. intros k I. now apply (inside_kid (KAny l)).
  - apply hall_stays; auto. apply Forall_forall. intros k I. now apply (inside_kid (KAll l)).
  - apply honeof_stays; auto. apply Forall_forall. intros k I. now apply (inside_kid (KOneOf l)).
  - apply hnot_stays; auto. apply (inside_kid (KNot c)); auto. now left.
  - destruct (R name) as [c|] eqn:Q; [|now apply same_refl]. apply IH; auto. intros x X. apply O. now apply (HH_ref R name c).
Qed.
End Frame.

Theorem heap_frame E R n c v h w S r h' w' : within S v -> (forall d, HHas R c d -> within S d) -> closed S h ->
  hvalidate E R n c v h w = (r, h', w') -> (forall a, ~ S a -> h_at h' a = h_at h a) /\ closed S h'.
Proof. intros W D C V. pose proof (hvalidate_stays E R S n c v h w D W C) as F. rewrite V in F. exact F. Qed.
