(** Arrays whose AdditionalItems was never set (C57). *)
From Verif Require Import Base GoFloat GoValue Maybe Formats Constraint StructInfo Validate Fuel Spec SpecSound SpecMain Structure Composite Refuted.
Open Scope Z_scope.
Open Scope string_scope.
Open Scope list_scope.

(** array.go:123-124: "If unspecified, no extra items are allowed" *)
Definition extra_items_full : Prop := forall E cs T i l w v' w',
  cs <> [] -> Runs E (CArr (arr_positional cs new_arr)) (GSlice T i (Some l)) w (Pass, v', w') ->
  (List.length l <= List.length cs)%nat.
Theorem extra_items_refuted : ~ extra_items_full.
Proof.
  intros H. assert (R : exists v' w', Runs (env0 no_refs) (CArr (arr_positional [str] new_arr)) (jarr [gstr "a"; num 1]) [] (Pass, v', w')) by (do 2 eexists; run 5%nat).
  destruct R as (v' & w' & R). assert (N : [str] <> []) by discriminate. specialize (H _ _ _ _ _ _ _ _ N R). cbn in H. lia.
Qed.
(** exact: left unset it allows every extra item, whatever it is *)
Theorem extra_items_free E cs T i l w m v' w' :
  (forall j c x, nth_error cs j = Some c -> nth_error l j = Some x -> ~ Fails E c x) ->
  ~ Runs E (CArr (arr_positional cs new_arr)) (GSlice T i (Some l)) w (Fail m, v', w').
Proof.
  intros H R. apply array_positional_fail in R; [|reflexivity]. cbn in R.
  assert (NE : forall y, ~ Fails E CEmpty y).
  { intros y (w1 & m1 & v1 & w2 & n & V & _). destruct n as [|n]; cbn in V; discriminate. }
  destruct R as [R|[[R _]|[[_ R]|(j & x & Hx & [(c & Hc & F)|(_ & _ & y & _ & F)])]]]; try discriminate.
  - apply R. split; intros; lia.
  - eapply H; eauto.
  - eapply NE; eauto.
Qed.
(** set to nil it allows none *)
Theorem extra_items_nil E cs T i l w v' w' : cs <> [] ->
  Runs E (CArr (arr_additional CNil (arr_positional cs new_arr))) (GSlice T i (Some l)) w (Pass, v', w') ->
  (List.length l <= List.length cs)%nat.
Proof.
  intros N R. pose proof (array_positional E (arr_additional CNil (arr_positional cs new_arr)) T i (Some l) w Pass v' w' eq_refl R eq_refl) as [H _]. cbn in H.
  destruct (le_lt_dec (List.length l) (List.length cs)) as [L|L]; auto. exfalso. apply H; auto. destruct cs; [congruence|]. cbn in *. lia.
Qed.
(** both hypotheses are met: a pair with an extra item *)
Example extra_items_case : (forall j c x, nth_error [str] j = Some c -> nth_error [gstr "a"; num 1] j = Some x -> ~ Fails (env0 no_refs) c x) /\
  exists m v' w', Runs (env0 no_refs) (CArr (arr_additional CNil (arr_positional [str] new_arr))) (jarr [gstr "a"; num 1]) [] (Fail m, v', w').
Proof.
  split; [|do 3 eexists; run 5%nat]. intros [|[|j]] c x Hc Hx; try discriminate.
  injection Hc as <-. injection Hx as <-. intros (w1 & m1 & v1 & w2 & n & V & _). destruct n as [|n]; cbn in V; discriminate.
Qed.
