(** The parser's fuel is always enough: a parse found with any fuel is found with twice as
    much fuel as there are tokens.  So parsing is a relation with the expected rules. *)
From Verif Require Import Base GoFloat GoValue Formats GoText GoLang.

Open Scope nat_scope.
Local Ltac crack H := repeat (match type of H with context [match ?x with _ => _ end] => destruct x eqn:? end; try discriminate H).

Definition suff (n : nat) : Prop :=
  (forall ts e r, pexpr n ts = Some (e, r) -> List.length r < List.length ts /\ forall m, 2 * (List.length ts - List.length r) <= m -> pexpr m ts = Some (e, r)) /\
  (forall e0 ts e r, ppost n e0 ts = Some (e, r) -> List.length r <= List.length ts /\ forall m, 2 * (List.length ts - List.length r) + 1 <= m -> ppost m e0 ts = Some (e, r)) /\
  (forall cl ts l r, plist n cl ts = Some (l, r) -> List.length r < List.length ts /\ forall m, 2 * (List.length ts - List.length r) <= m -> plist m cl ts = Some (l, r)) /\
  (forall cl e ts l r, pmore n cl e ts = Some (l, r) -> List.length r < List.length ts /\ forall m, 2 * (List.length ts - List.length r) <= m -> pmore m cl e ts = Some (l, r)).

Local Ltac fuel m := destruct m as [|m]; [lia|].

Lemma suff_all n : suff n.
Proof.
  induction n as [|n (IX & IP & IL & IM)]; [repeat split; discriminate|].
  split; [|split; [|split]].
  - intros ts e r H. cbn [pexpr] in H. crack H.
    + apply IP in H as [L F]. cbn [List.length]. split; [lia|]. intros m M. fuel m. cbn [pexpr]. rewrite Heqb. apply F. lia.
    + apply IP in H as [L F]. cbn [List.length]. split; [lia|]. intros m M. fuel m. cbn [pexpr]. apply F. lia.
    + apply IP in H as [L F]. cbn [List.length]. split; [lia|]. intros m M. fuel m. cbn [pexpr]. apply F. lia.
    + match goal with X : plist n _ _ = _ |- _ => apply IL in X as [L F] end. apply IP in H as [L2 F2]. cbn [List.length] in *. split; [lia|].
      intros m M. fuel m. cbn [pexpr]. rewrite F by lia. apply F2. lia.
    + match goal with X : pexpr n _ = _ |- _ => apply IX in X as [L F] end. inversion H; subst. cbn [List.length]. split; [lia|].
      intros m M. fuel m. cbn [pexpr]. rewrite F; [reflexivity|lia].
    + inversion H; subst. cbn [List.length]. split; [lia|]. intros m M. fuel m. reflexivity.
  - intros e0 ts e r H. cbn [ppost] in H. crack H;
      try (inversion H; subst; cbn [List.length]; split; [lia|]; intros m M; fuel m; reflexivity).
    + apply IP in H as [L F]. cbn [List.length]. split; [lia|]. intros m M. fuel m. cbn [ppost]. match goal with X : keyword _ = false |- _ => rewrite X end. apply F. lia.
    + match goal with X : plist n _ _ = _ |- _ => apply IL in X as [L F] end. apply IP in H as [L2 F2]. cbn [List.length] in *. split; [lia|].
      intros m M. fuel m. cbn [ppost]. rewrite F by lia. apply F2. lia.
  - intros cl ts l r H. cbn [plist] in H.
    assert (K : (exists c r', ts = TP c :: r' /\ Ascii.eqb c cl = true /\ l = [] /\ r = r') \/
                (match ts with TP c :: _ => Ascii.eqb c cl = false | _ => True end /\
                 exists e r1, pexpr n ts = Some (e, r1) /\ pmore n cl e r1 = Some (l, r))).
    { destruct ts as [|[x|x|x|c|] ts]; try (right; split; [exact I|]; destruct (pexpr n _) as [[e r1]|]; [eauto|discriminate H]).
      destruct (Ascii.eqb c cl) eqn:E; [left; inversion H; subst; eauto 6|].
      right; split; [reflexivity|]. destruct (pexpr n _) as [[e r1]|]; [eauto|discriminate H]. }
    destruct K as [(c & r' & -> & E & -> & ->)|(N & e & r1 & X & Y)].
    + cbn [List.length]. split; [lia|]. intros m M. fuel m. cbn [plist]. now rewrite E.
    + apply IX in X as [L F]. apply IM in Y as [L2 F2]. split; [lia|]. intros m M. fuel m. cbn [plist].
      rewrite F by lia. rewrite F2 by lia. destruct ts as [|[x|x|x|c|] ts]; auto. now rewrite N.
  - intros cl e ts l r H. cbn [pmore] in H.
    assert (K : (exists r' l', ts = TP "," :: r' /\ plist n cl r' = Some (l', r) /\ l = e :: l') \/
                (exists c, ts = TP c :: r /\ c <> ","%char /\ Ascii.eqb c cl = true /\ l = [e])).
    { destruct ts as [|[x|x|x|c|] ts]; try discriminate H.
      destruct (Ascii.eqb_spec c ","%char) as [->|N].
      - left. destruct (plist n cl ts) as [[l' r']|] eqn:E; [|discriminate H]. inversion H; subst. eauto.
      - right. exists c. assert (G : (if Ascii.eqb c cl then Some ([e], ts) else None) = Some (l, r)).
        { rewrite <- H. destruct c as [[] [] [] [] [] [] [] []]; try reflexivity. congruence. }
        destruct (Ascii.eqb c cl); [|discriminate G]. inversion G; subst. auto. }
    destruct K as [(r' & l' & -> & X & ->)|(c & -> & N & E & ->)].
    + apply IL in X as [L F]. cbn [List.length]. split; [lia|]. intros m M. fuel m. cbn [pmore]. rewrite F; [reflexivity|lia].
    + cbn [List.length]. split; [lia|]. intros m M. fuel m. cbn [pmore].
      destruct c as [[] [] [] [] [] [] [] []]; try congruence; cbv iota; rewrite E; reflexivity.
Qed.

(** ** Parsing as relations *)
Definition Px ts e r := exists n, pexpr n ts = Some (e, r).
Definition Pp e0 ts e r := exists n, ppost n e0 ts = Some (e, r).
Definition Pl cl ts l r := exists n, plist n cl ts = Some (l, r).
Definition Pm cl e ts l r := exists n, pmore n cl e ts = Some (l, r).

Lemma px_fuel ts e r m : Px ts e r -> 2 * List.length ts <= m -> pexpr m ts = Some (e, r).
Proof. intros [n H] M. destruct (suff_all n) as (X & _). apply X in H as [_ F]. apply F. lia. Qed.
Lemma pp_fuel e0 ts e r m : Pp e0 ts e r -> 2 * List.length ts + 1 <= m -> ppost m e0 ts = Some (e, r).
Proof. intros [n H] M. destruct (suff_all n) as (_ & X & _). apply X in H as [_ F]. apply F. lia. Qed.
Lemma pl_fuel cl ts l r m : Pl cl ts l r -> 2 * List.length ts <= m -> plist m cl ts = Some (l, r).
Proof. intros [n H] M. destruct (suff_all n) as (_ & _ & X & _). apply X in H as [_ F]. apply F. lia. Qed.
Lemma pm_fuel cl e ts l r m : Pm cl e ts l r -> 2 * List.length ts <= m -> pmore m cl e ts = Some (l, r).
Proof. intros [n H] M. destruct (suff_all n) as (_ & _ & _ & X). apply X in H as [_ F]. apply F. lia. Qed.
Lemma px_shrinks ts e r : Px ts e r -> List.length r < List.length ts.
Proof. intros [n H]. destruct (suff_all n) as (X & _). now apply X in H as [L _]. Qed.

Lemma px_id x r e r' : keyword x = false -> Pp (EId x) r e r' -> Px (TId x :: r) e r'.
Proof. intros K [n H]. exists (S n). cbn [pexpr]. now rewrite K. Qed.
Lemma px_str x r e r' : Pp (EStr x) r e r' -> Px (TStr x :: r) e r'.
Proof. intros [n H]. now exists (S n). Qed.
Lemma px_num x r e r' : Pp (ENum x) r e r' -> Px (TNum x :: r) e r'.
Proof. intros [n H]. now exists (S n). Qed.
Lemma px_neg r e r' : Px r e r' -> Px (TP "-" :: r) (ENeg e) r'.
Proof. intros [n H]. exists (S n). cbn [pexpr]. now rewrite H. Qed.
Lemma px_slice p t r l r1 e r2 : Pl "}" r l r1 -> Pp (ESlice p t l) r1 e r2 ->
  Px (TP "[" :: TP "]" :: TId p :: TP "." :: TId t :: TP "{" :: r) e r2.
Proof.
  intros H1 H2. exists (S (2 * List.length r + 2 * List.length r1 + 1)). cbn [pexpr].
  rewrite (pl_fuel _ _ _ _ _ H1) by lia. apply (pp_fuel _ _ _ _ _ H2). lia.
Qed.
Lemma px_addr p t r : Px (TP "&" :: TId p :: TP "." :: TId t :: TP "{" :: TP "}" :: r) (EAddr p t) r.
Proof. now exists 1. Qed.

Definition nopost (ts : list tok) : Prop := match ts with TP c :: _ => c <> "."%char /\ c <> "("%char | _ => True end.
Lemma pp_stop e ts : nopost ts -> Pp e ts e ts.
Proof.
  exists 1. cbn [ppost]. destruct ts as [|[x|x|x|c|] ts]; auto. destruct H.
  destruct c as [[] [] [] [] [] [] [] []]; try reflexivity; congruence.
Qed.
Lemma pp_sel e0 x r e r' : keyword x = false -> Pp (ESel e0 x) r e r' -> Pp e0 (TP "." :: TId x :: r) e r'.
Proof. intros K [n H]. exists (S n). cbn [ppost]. now rewrite K. Qed.
Lemma pp_call e0 r l r1 e r2 : Pl ")" r l r1 -> Pp (ECall e0 l) r1 e r2 -> Pp e0 (TP "(" :: r) e r2.
Proof.
  intros H1 H2. exists (S (2 * List.length r + 2 * List.length r1 + 1)). cbn [ppost].
  rewrite (pl_fuel _ _ _ _ _ H1) by lia. apply (pp_fuel _ _ _ _ _ H2). lia.
Qed.
Lemma pl_nil cl r : Pl cl (TP cl :: r) [] r.
Proof. exists 1. cbn [plist]. now rewrite Ascii.eqb_refl. Qed.
Lemma pl_cons cl ts e r1 l r : match ts with TP c :: _ => c <> cl | _ => True end ->
  Px ts e r1 -> Pm cl e r1 l r -> Pl cl ts l r.
Proof.
  intros N H1 H2. exists (S (2 * List.length ts + 2 * List.length r1)). cbn [plist].
  rewrite (px_fuel _ _ _ _ H1) by lia. rewrite (pm_fuel _ _ _ _ _ _ H2) by lia.
  destruct ts as [|[x|x|x|c|] ts]; auto. apply Ascii.eqb_neq in N. now rewrite N.
Qed.
Lemma pm_comma cl e r l r' : Pl cl r l r' -> Pm cl e (TP "," :: r) (e :: l) r'.
Proof. intros [n H]. exists (S n). cbn [pmore]. now rewrite H. Qed.
Lemma pm_close cl e r : cl <> ","%char -> Pm cl e (TP cl :: r) [e] r.
Proof.
  intros N. exists 1. cbn [pmore]. rewrite Ascii.eqb_refl. destruct cl as [[] [] [] [] [] [] [] []]; try reflexivity. congruence.
Qed.

(** ** Token sequences that are an expression, a list of arguments, a chain of calls *)
Definition Parses (ts : list tok) (e : expr) : Prop := forall r, nopost r -> Px (ts ++ r) e r.
Definition first_ok (ts : list tok) : Prop := match ts with TP c :: _ => c <> ")"%char /\ c <> "}"%char | [] => False | _ => True end.
(** arguments, up to and including the closing token *)
Definition Args (cl : ascii) (ts : list tok) (l : list expr) : Prop := forall r, Pl cl (ts ++ r) l r.
Definition Posts (ts : list tok) (f : expr -> expr) : Prop := forall e0 r e r', Pp (f e0) r e r' -> Pp e0 (ts ++ r) e r'.

Lemma args_nil cl : Args cl [TP cl] [].
Proof. intros r. apply pl_nil. Qed.
Lemma first_app ts r : first_ok ts -> first_ok (ts ++ r).
Proof. destruct ts as [|[x|x|x|c|] ts]; cbn; tauto. Qed.
Lemma first_cl cl ts : cl = ")"%char \/ cl = "}"%char -> first_ok ts -> match ts with TP c :: _ => c <> cl | _ => True end.
Proof. intros H F. destruct ts as [|[x|x|x|c|] ts]; auto. destruct F. destruct H; subst; auto. Qed.
Lemma args_cons cl ts e us l : cl = ")"%char \/ cl = "}"%char -> first_ok ts -> Parses ts e -> Args cl us l ->
  Args cl (ts ++ TP "," :: us) (e :: l).
Proof.
  intros C F P A r. rewrite <- app_assoc. apply pl_cons with e ((TP "," :: us) ++ r).
  - apply (first_cl cl (ts ++ _)); auto. now apply first_app.
  - apply P. cbn. split; congruence.
  - cbn [app]. apply pm_comma. apply A.
Qed.
Lemma args_last cl ts e : cl = ")"%char \/ cl = "}"%char -> first_ok ts -> Parses ts e -> Args cl (ts ++ [TP cl]) [e].
Proof.
  intros C F P r. rewrite <- app_assoc. apply pl_cons with e ([TP cl] ++ r).
  - apply (first_cl cl (ts ++ _)); auto. now apply first_app.
  - apply P. cbn. destruct C; subst; split; congruence.
  - apply pm_close. destruct C; subst; congruence.
Qed.
Lemma posts_nil : Posts [] (fun e => e).
Proof. intros e0 r e r' H. exact H. Qed.
Lemma posts_call m us l : keyword m = false -> Args ")" us l ->
  Posts (TP "." :: TId m :: TP "(" :: us) (fun e => ECall (ESel e m) l).
Proof. intros K A e0 r e r' H. cbn [app]. apply pp_sel; auto. eapply pp_call; eauto. Qed.
Lemma posts_app a f b g : Posts a f -> Posts b g -> Posts (a ++ b) (fun e => g (f e)).
Proof. intros A B e0 r e r' H. rewrite <- app_assoc. apply A, B, H. Qed.
Lemma parses_posts x ts f : keyword x = false -> Posts ts f -> Parses (TId x :: ts) (f (EId x)).
Proof. intros K P r N. cbn [app]. apply px_id; auto. apply P. now apply pp_stop. Qed.
Lemma parses_str s : Parses [TStr s] (EStr s).
Proof. intros r N. apply px_str. now apply pp_stop. Qed.
Lemma parses_id x : keyword x = false -> Parses [TId x] (EId x).
Proof. intros K r N. apply px_id; auto. now apply pp_stop. Qed.
Lemma parses_num s : Parses [TNum s] (ENum s).
Proof. intros r N. apply px_num. now apply pp_stop. Qed.
Lemma parses_neg ts e : Parses ts e -> Parses (TP "-" :: ts) (ENeg e).
Proof. intros P r N. cbn [app]. apply px_neg. now apply P. Qed.
Lemma parses_slice p t us l : Args "}" us l -> Parses (TP "[" :: TP "]" :: TId p :: TP "." :: TId t :: TP "{" :: us) (ESlice p t l).
Proof. intros A r N. cbn [app]. eapply px_slice; [apply A|]. now apply pp_stop. Qed.
