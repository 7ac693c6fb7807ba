(** StructInfoRegistry used by any number of goroutines (structinfo.go:22-110).  The lock is
    a sync.RWMutex: any number of readers, or one writer; a writer that has called Lock
    keeps new readers out while it waits for the present ones to leave. *)
From Verif Require Import Base Linear.
Local Open Scope nat_scope.
Local Ltac splits := repeat match goal with |- _ /\ _ => split end.

Section Registry.
(** struct types are numbered; [ext t] is what extract (structinfo.go:114-168) computes for
    type t, None if it panics *)
Context {info : Type}.
Variable ext : nat -> option info.

Inductive call := CLookup (t : nat) | CRegister (t : nat).
(** Lookup: found or not; Register: the info, or the goroutine panicked *)
Inductive result := RFound (o : option info) | RPanic.

Inductive pc :=
| Idle
(* Lookup, structinfo.go:61-72 *)
| LkWait (t : nat)                       (* RLock *)
| LkIn (t : nat)                         (* si, ok := r.registry[t] *)
| LkOut (t : nat) (o : option info)      (* RUnlock *)
| LkRet (t : nat) (o : option info)
(* Register, structinfo.go:74-110 *)
| RgWait (t : nat)                       (* RLock *)
| RgIn (t : nat)                         (* si, ok := r.registry[t] *)
| RgOut (t : nat) (o : option info)      (* RUnlock *)
| RgTest (t : nat) (o : option info)     (* if ok return; props := extract(t) *)
| RgLock (t : nat) (i : info)            (* Lock: become the writer *)
| RgDrain (t : nat) (i : info)           (* Lock: wait for the readers *)
| RgWrite (t : nat) (i : info)           (* r.registry[t] = si *)
| RgUnlock (t : nat) (i : info)          (* Unlock *)
| RgRet (t : nat) (x : result).

Record state := {
  readers : list nat;
  writer : option nat;
  reg : nat -> option info;
  pcs : nat -> pc;
  todo : nat -> list call;
  log : list (event call result)
}.

Definition mk (s : state) rd w rg t p lg : state :=
  {| readers := rd; writer := w; reg := rg; pcs := upd (pcs s) t p; todo := todo s; log := lg |}.

Definition entry (c : call) : pc := match c with CLookup t => LkWait t | CRegister t => RgWait t end.

Inductive step (g : nat) (s : state) : state -> Prop :=
| st_call c l : pcs s g = Idle -> todo s g = c :: l ->
    step g s {| readers := readers s; writer := writer s; reg := reg s; pcs := upd (pcs s) g (entry c);
                todo := upd (todo s) g l; log := EInv g c :: log s |}
| st_lk_lock t : pcs s g = LkWait t -> writer s = None ->
    step g s (mk s (g :: readers s) (writer s) (reg s) g (LkIn t) (log s))
| st_lk_read t : pcs s g = LkIn t ->
    step g s (mk s (readers s) (writer s) (reg s) g (LkOut t (reg s t)) (ELin g (CLookup t) (RFound (reg s t)) :: log s))
| st_lk_unlock t o : pcs s g = LkOut t o ->
    step g s (mk s (remove Nat.eq_dec g (readers s)) (writer s) (reg s) g (LkRet t o) (log s))
| st_lk_ret t o : pcs s g = LkRet t o ->
    step g s (mk s (readers s) (writer s) (reg s) g Idle (ERet g (CLookup t) (RFound o) :: log s))
| st_rg_lock t : pcs s g = RgWait t -> writer s = None ->
    step g s (mk s (g :: readers s) (writer s) (reg s) g (RgIn t) (log s))
| st_rg_hit t i : pcs s g = RgIn t -> reg s t = Some i ->
    step g s (mk s (readers s) (writer s) (reg s) g (RgOut t (Some i)) (ELin g (CRegister t) (RFound (Some i)) :: log s))
| st_rg_miss t : pcs s g = RgIn t -> reg s t = None ->
    step g s (mk s (readers s) (writer s) (reg s) g (RgOut t None) (log s))
| st_rg_unlock t o : pcs s g = RgOut t o ->
    step g s (mk s (remove Nat.eq_dec g (readers s)) (writer s) (reg s) g (RgTest t o) (log s))
| st_rg_found t i : pcs s g = RgTest t (Some i) ->
    step g s (mk s (readers s) (writer s) (reg s) g (RgRet t (RFound (Some i))) (log s))
| st_rg_extract t i : pcs s g = RgTest t None -> ext t = Some i ->
    step g s (mk s (readers s) (writer s) (reg s) g (RgLock t i) (log s))
| st_rg_panic t : pcs s g = RgTest t None -> ext t = None ->
    step g s (mk s (readers s) (writer s) (reg s) g (RgRet t RPanic) (ELin g (CRegister t) RPanic :: log s))
| st_rg_wlock t i : pcs s g = RgLock t i -> writer s = None ->
    step g s (mk s (readers s) (Some g) (reg s) g (RgDrain t i) (log s))
| st_rg_drained t i : pcs s g = RgDrain t i -> readers s = [] ->
    step g s (mk s (readers s) (writer s) (reg s) g (RgWrite t i) (log s))
| st_rg_write t i : pcs s g = RgWrite t i ->
    step g s (mk s (readers s) (writer s) (upd (reg s) t (Some i)) g (RgUnlock t i) (ELin g (CRegister t) (RFound (Some i)) :: log s))
| st_rg_wunlock t i : pcs s g = RgUnlock t i ->
    step g s (mk s (readers s) None (reg s) g (RgRet t (RFound (Some i))) (log s))
| st_rg_ret t x : pcs s g = RgRet t x ->
    step g s (mk s (readers s) (writer s) (reg s) g Idle (ERet g (CRegister t) x :: log s)).

Definition init (prog : nat -> list call) : state :=
  {| readers := []; writer := None; reg := fun _ => None; pcs := fun _ => Idle; todo := prog; log := [] |}.

Inductive reachable (prog : nat -> list call) : state -> Prop :=
| re_init : reachable prog (init prog)
| re_step s t s' : reachable prog s -> step t s s' -> reachable prog s'.

(** ** Specification: a set of registered types; Register computes the info of its type *)
Definition a_call (c : call) (a : nat -> bool) : result * (nat -> bool) :=
  match c with
  | CLookup t => (RFound (if a t then ext t else None), a)
  | CRegister t => match ext t with Some i => (RFound (Some i), upd a t true) | None => (RPanic, a) end
  end.
Notation serial := (serial a_call (fun _ => false)).

(** ** Invariant *)
Definition reading (p : pc) : bool := match p with LkIn _ | LkOut _ _ | RgIn _ | RgOut _ _ => true | _ => false end.
Definition writing (p : pc) : bool := match p with RgDrain _ _ | RgWrite _ _ | RgUnlock _ _ => true | _ => false end.
Definition exclusive (p : pc) : bool := match p with RgWrite _ _ | RgUnlock _ _ => true | _ => false end.
(** facts about the values a goroutine carries *)
Definition carries (p : pc) : Prop :=
  match p with
  | RgOut t (Some i) | RgTest t (Some i) | RgLock t i | RgDrain t i | RgWrite t i | RgUnlock t i => ext t = Some i
  | _ => True
  end.
Definition phase_of (p : pc) : phase call result :=
  match p with
  | Idle => Between
  | LkWait t | LkIn t => Begun (CLookup t)
  | LkOut t o | LkRet t o => Done (CLookup t) (RFound o)
  | RgWait t | RgIn t | RgOut t None | RgTest t None | RgLock t _ | RgDrain t _ | RgWrite t _ => Begun (CRegister t)
  | RgOut t (Some i) | RgTest t (Some i) | RgUnlock t i => Done (CRegister t) (RFound (Some i))
  | RgRet t x => Done (CRegister t) x
  end.

Record inv (prog : nat -> list call) (s : state) : Prop := {
  i_rd : forall g, In g (readers s) <-> reading (pcs s g) = true;
  i_wr : forall g, writer s = Some g <-> writing (pcs s g) = true;
  i_ex : forall g, exclusive (pcs s g) = true -> readers s = [];
  i_carry : forall g, carries (pcs s g);
  i_serial : exists a, serial (effects (log s)) a /\ forall t, reg s t = if a t then ext t else None;
  i_phase : forall t, orderly t (log s) (phase_of (pcs s t));
  i_prog : forall t, prog t = rev (begun t (log s)) ++ todo s t
}.

Ltac upds t0 t := destruct (Nat.eq_dec t0 t) as [->|]; [rewrite ?upd_same in *|rewrite ?upd_other in * by auto].
Ltac sel := cbn [readers writer reg pcs todo log mk].

Lemma step_rd g s s' : step g s s' -> (forall g, In g (readers s) <-> reading (pcs s g) = true) ->
  forall g, In g (readers s') <-> reading (pcs s' g) = true.
Proof.
  assert (RM : forall l x g, In x (remove Nat.eq_dec g l) <-> In x l /\ x <> g).
  { intros l x g0. split; [apply in_remove|intros (A & B); now apply in_in_remove]. }
  intros H I g0. destruct H; sel; rewrite ?RM; cbn [In]; upds g0 g; specialize (I g0) as I0 || specialize (I g) as I0;
    rewrite ?H in I0; cbn [reading] in *; try tauto; try (intuition congruence).
  destruct c; cbn; intuition congruence.
Qed.

Lemma step_wr g s s' : step g s s' -> (forall g, writer s = Some g <-> writing (pcs s g) = true) ->
  forall g, writer s' = Some g <-> writing (pcs s' g) = true.
Proof.
  intros H I g0. pose proof (I g) as Ig. pose proof (I g0) as I0. destruct H; sel; rewrite ?H in Ig; upds g0 g; cbn [writing] in *; try tauto.
  - destruct c; cbn; tauto.
  - rewrite H0 in I0. intuition congruence.
  - intuition congruence.
  - intuition congruence.
Qed.

Lemma step_ex g s s' : step g s s' ->
  (forall g, writer s = Some g <-> writing (pcs s g) = true) ->
  (forall g, exclusive (pcs s g) = true -> readers s = []) ->
  forall g, exclusive (pcs s' g) = true -> readers s' = [].
Proof.
  intros H W I g0.
  assert (N : forall g1, exclusive (pcs s g1) = true -> writer s <> None).
  { intros g1 E. assert (writer s = Some g1) by (apply W; destruct (pcs s g1); try discriminate E; reflexivity). congruence. }
  pose proof (I g) as Ig. pose proof (I g0) as I0. pose proof (N g0) as N0.
  destruct H; sel; rewrite ?H in Ig; upds g0 g; cbn [exclusive] in *; try tauto; try discriminate.
  all: try (destruct c; discriminate).
  all: intros E; specialize (I0 E); try (rewrite I0; reflexivity); try assumption.
  all: exfalso; now apply N0.
Qed.

Lemma step_serial g s s' : step g s s' ->
  (forall g, carries (pcs s g)) ->
  (exists a, serial (effects (log s)) a /\ forall t, reg s t = if a t then ext t else None) ->
  (forall g, carries (pcs s' g)) /\
  exists a, serial (effects (log s')) a /\ forall t, reg s' t = if a t then ext t else None.
Proof.
  intros H C (a & S & E). split.
  - intros g0. pose proof (C g0) as C0. pose proof (C g) as Cg. destruct H; sel; rewrite ?H in Cg; upds g0 g; try assumption; try exact Logic.I.
    + destruct c; exact Logic.I.
    + cbn. rewrite E in H0. destruct (a t); [assumption|discriminate].
  - pose proof (C g) as Cg. destruct H; sel; rewrite ?H in Cg; cbn [effects Linear.serial carries] in *; try (exists a; split; assumption).
    + exists a. split; [|assumption]. exists a. split; [assumption|]. cbn [a_call]. now rewrite E.
    + exists (upd a t true). rewrite E in H0. destruct (a t) eqn:A; [|discriminate]. split.
      * exists a. split; [assumption|]. cbn [a_call]. now rewrite H0.
      * intros t0. upds t0 t; [|apply E]. now rewrite E, A.
    + exists a. split; [|assumption]. exists a. split; [assumption|]. cbn [a_call]. now rewrite H0.
    + exists (upd a t true). split.
      * exists a. split; [assumption|]. cbn [a_call]. now rewrite Cg.
      * intros t0. upds t0 t; [|apply E]. now symmetry.
Qed.

Lemma step_phase t s s' : step t s s' -> (forall t, orderly t (log s) (phase_of (pcs s t))) ->
  forall t, orderly t (log s') (phase_of (pcs s' t)).
Proof.
  intros H I t0. specialize (I t0). destruct H; sel; upds t0 t; try assumption;
    try (apply or_other; [congruence|assumption]); rewrite ?H in I; cbn [phase_of] in *; auto.
  all: try (constructor; assumption).
  destruct c; constructor; assumption.
Qed.

Lemma step_prog prog t s s' : step t s s' -> (forall t, prog t = rev (begun t (log s)) ++ todo s t) ->
  forall t, prog t = rev (begun t (log s')) ++ todo s' t.
Proof.
  intros H I t0. specialize (I t0). destruct H; sel; cbn [begun]; try assumption.
  destruct (Nat.eqb_spec t t0) as [->|N].
  - rewrite upd_same. cbn [rev]. rewrite <- app_assoc. cbn [app]. congruence.
  - rewrite upd_other by auto. assumption.
Qed.

Lemma reachable_inv prog s : reachable prog s -> inv prog s.
Proof.
  induction 1 as [|s t s' R I H].
  - constructor; cbn [init readers writer reg pcs todo log reading writing exclusive carries phase_of effects begun]; auto.
    + intros g. split; [intros []|discriminate].
    + intros g. split; discriminate.
    + exists (fun _ => false). split; reflexivity.
    + constructor.
  - destruct I. destruct (step_serial _ _ _ H i_carry0 i_serial0). constructor; auto.
    + eapply step_rd; eauto.
    + eapply step_wr; eauto.
    + eapply step_ex; eauto.
    + eapply step_phase; eauto.
    + eapply step_prog; eauto.
Qed.

(** Linearizability with respect to the specification. *)
Theorem registry_linearizable prog s : reachable prog s ->
  (exists a, serial (effects (log s)) a) /\
  (forall t, exists p, orderly t (log s) p) /\
  (forall t, exists rest, prog t = rev (begun t (log s)) ++ rest).
Proof.
  intros R. apply reachable_inv in R. splits.
  - destruct (i_serial _ _ R) as (a & S & _). eauto.
  - intros t. eexists. apply (i_phase _ _ R).
  - intros t. eexists. apply (i_prog _ _ R).
Qed.

(** In particular Register always returns the info extracted from its type, and Lookup
    returns nothing else; and Lookup finds every type whose registration took effect before. *)
Theorem registry_results prog s l1 l2 g c x : reachable prog s ->
  effects (log s) = l1 ++ (g, c, x) :: l2 ->
  match c with
  | CRegister t => x = match ext t with Some i => RFound (Some i) | None => RPanic end
  | CLookup t => x = RFound None /\ (forall g' y, In (g', CRegister t, y) l2 -> y = RPanic) \/
                 exists i, ext t = Some i /\ x = RFound (Some i) /\ exists g', In (g', CRegister t, RFound (Some i)) l2
  end.
Proof.
  intros R E. destruct (proj1 (registry_linearizable _ _ R)) as (a & S). rewrite E in S. clear E. revert a S.
  assert (K : forall l a t, serial l a ->
    if a t then exists i g', ext t = Some i /\ In (g', CRegister t, RFound (Some i)) l else forall g' y, In (g', CRegister t, y) l -> y = RPanic).
  { clear. induction l as [|[[g c] x] l IH]; intros a t; cbn [Linear.serial].
    - intros ->. intros ? ? [].
    - intros (a0 & S & E). specialize (IH _ t S). destruct c as [t0|t0]; cbn [a_call] in E.
      + injection E as <- <-. destruct (a0 t).
        * destruct IH as (i & g' & A & B). exists i, g'. split; [assumption|now right].
        * intros g' y [Q|Q]; [discriminate|eauto].
      + destruct (ext t0) as [i|] eqn:X; injection E as <- <-.
        * upds t t0.
          -- exists i, g. split; [assumption|now left].
          -- destruct (a0 t); [destruct IH as (i1 & g' & A & B); exists i1, g'; split; [assumption|now right]|].
             intros g' y [Q|Q]; [congruence|eauto].
        * destruct (a0 t).
          -- destruct IH as (i & g' & A & B). exists i, g'. split; [assumption|now right].
          -- intros g' y [Q|Q]; [injection Q; auto|eauto]. }
  induction l1 as [|[[g' c'] x'] l1 IH]; cbn [app Linear.serial].
  - intros a (a0 & S & Q). destruct c as [t|t]; cbn [a_call] in Q.
    + injection Q as <- <-. specialize (K _ _ t S). destruct (a0 t); [|left; auto].
      right. destruct K as (i & g' & A & B). rewrite A. eauto 6.
    + destruct (ext t); injection Q as <- <-; reflexivity.
  - intros a (a0 & S & _). exact (IH _ S).
Qed.

(** No data race: while a goroutine is about to write the table, no other is about to
    read or write it. *)
Definition table_write (p : pc) : bool := match p with RgWrite _ _ => true | _ => false end.
Definition table_access (p : pc) : bool := match p with LkIn _ | RgIn _ | RgWrite _ _ => true | _ => false end.

Theorem registry_race_free prog s g1 g2 : reachable prog s -> g1 <> g2 ->
  ~ (table_write (pcs s g1) = true /\ table_access (pcs s g2) = true).
Proof.
  intros R N (A & B). apply reachable_inv in R.
  assert (E : readers s = []) by (apply (i_ex _ _ R g1); destruct (pcs s g1); try discriminate A; reflexivity).
  assert (W : writer s = Some g1) by (apply (i_wr _ _ R g1); destruct (pcs s g1); try discriminate A; reflexivity).
  pose proof (proj2 (i_rd _ _ R g2)) as P. pose proof (proj2 (i_wr _ _ R g2)) as Q.
  rewrite E, W in *. destruct (pcs s g2); try discriminate B.
  - destruct (P eq_refl).
  - destruct (P eq_refl).
  - specialize (Q eq_refl). congruence.
Qed.

(** No deadlock. *)
Definition finished (s : state) (t : nat) : Prop := pcs s t = Idle /\ todo s t = [].

Lemma reader_moves prog s : inv prog s -> readers s <> [] -> exists g s', step g s s'.
Proof.
  intros I N. destruct (readers s) as [|g l] eqn:E; [congruence|]. assert (G : In g (readers s)) by (rewrite E; now left).
  apply (i_rd _ _ I) in G. exists g. destruct (pcs s g) eqn:P; try discriminate G.
  - eexists. eapply st_lk_read; eassumption.
  - eexists. eapply st_lk_unlock; eassumption.
  - destruct (reg s t) eqn:Q; eexists; [eapply st_rg_hit|eapply st_rg_miss]; eassumption.
  - eexists. eapply st_rg_unlock; eassumption.
Qed.

Lemma writer_moves prog s g0 : inv prog s -> writer s = Some g0 -> exists g s', step g s s'.
Proof.
  intros I W. apply (i_wr _ _ I) in W. destruct (pcs s g0) eqn:P; try discriminate W.
  - destruct (readers s) eqn:R.
    + exists g0. eexists. eapply st_rg_drained; eassumption.
    + eapply reader_moves; [eassumption|congruence].
  - exists g0. eexists. eapply st_rg_write; eassumption.
  - exists g0. eexists. eapply st_rg_wunlock; eassumption.
Qed.

Theorem registry_no_deadlock prog s g : reachable prog s -> ~ finished s g -> exists g' s', step g' s s'.
Proof.
  intros R F. apply reachable_inv in R.
  assert (W : (writer s = None -> exists s', step g s s') -> exists g' s', step g' s s').
  { intros Q. destruct (writer s) eqn:E; [eapply writer_moves; eassumption|destruct (Q eq_refl); eauto]. }
  destruct (pcs s g) eqn:P.
  - destruct (todo s g) eqn:T; [exfalso; apply F; split; assumption|]. exists g. eexists. eapply st_call; eassumption.
  - apply W. intros Q. eexists. eapply st_lk_lock; eassumption.
  - exists g. eexists. eapply st_lk_read; eassumption.
  - exists g. eexists. eapply st_lk_unlock; eassumption.
  - exists g. eexists. eapply st_lk_ret; eassumption.
  - apply W. intros Q. eexists. eapply st_rg_lock; eassumption.
  - exists g. destruct (reg s t) eqn:Q; eexists; [eapply st_rg_hit|eapply st_rg_miss]; eassumption.
  - exists g. eexists. eapply st_rg_unlock; eassumption.
  - exists g. destruct o as [i|]; [eexists; eapply st_rg_found; eassumption|].
    destruct (ext t) eqn:X; eexists; [eapply st_rg_extract|eapply st_rg_panic]; eassumption.
  - apply W. intros Q. eexists. eapply st_rg_wlock; eassumption.
  - eapply writer_moves; [eassumption|]. apply (i_wr _ _ R g). now rewrite P.
  - exists g. eexists. eapply st_rg_write; eassumption.
  - exists g. eexists. eapply st_rg_wunlock; eassumption.
  - exists g. eexists. eapply st_rg_ret; eassumption.
Qed.

(** No livelock: every step uses up some of the goroutine's remaining work. *)
Definition pending (s : state) (g : nat) : nat :=
  10 * length (todo s g) +
  match pcs s g with
  | Idle => 0
  | LkWait _ => 4 | LkIn _ => 3 | LkOut _ _ => 2 | LkRet _ _ => 1
  | RgWait _ => 9 | RgIn _ => 8 | RgOut _ _ => 7 | RgTest _ _ => 6 | RgLock _ _ => 5 | RgDrain _ _ => 4 | RgWrite _ _ => 3 | RgUnlock _ _ => 2 | RgRet _ _ => 1
  end.

Theorem registry_work_shrinks t s s' : step t s s' -> pending s' t < pending s t /\ forall t', t' <> t -> pending s' t' = pending s t'.
Proof.
  intros H. split.
  - unfold pending. destruct H; sel; rewrite ?upd_same, H; try lia. rewrite H0. cbn [length]. destruct c; cbn [entry]; lia.
  - intros t' N. unfold pending. destruct H; sel; rewrite ?upd_other by auto; reflexivity.
Qed.
End Registry.

(** Two goroutines register the same type at once: both find it missing, both extract and
    both write, one after the other. *)
Local Ltac fire :=
  match goal with |- step _ ?g ?s _ =>
    let p := eval vm_compute in (pcs s g) in
    lazymatch p with
    | Idle => eapply st_call
    | RgWait _ => eapply st_rg_lock
    | RgIn _ => eapply st_rg_miss
    | RgOut _ _ => eapply st_rg_unlock
    | RgTest _ _ => eapply st_rg_extract
    | RgLock _ _ => eapply st_rg_wlock
    | RgDrain _ _ => eapply st_rg_drained
    | RgWrite _ _ => eapply st_rg_write
    | RgUnlock _ _ => eapply st_rg_wunlock
    | RgRet _ _ => eapply st_rg_ret
    end
  end; vm_compute; reflexivity.

Inductive runs {info} (ext : nat -> option info) : state -> state -> Prop :=
| runs_0 s : runs ext s s
| runs_S s t s1 s2 : step ext t s s1 -> runs ext s1 s2 -> runs ext s s2.

Lemma runs_reachable {info} (ext : nat -> option info) prog s0 s : runs ext s0 s -> reachable ext prog s0 -> reachable ext prog s.
Proof. intros H. induction H as [|s t s1 s2 H HR IH]; [auto|]. intros. apply IH. eapply re_step; eauto. Qed.

Local Ltac go g := eapply runs_S with (t := g); [fire|cbn [mk init readers writer reg pcs todo log entry remove Nat.eq_dec]].

Example register_twice :
  let ext := fun t => Some (t + 100) in
  let prog := fun g => match g with 0 | 1 => [CRegister 7] | _ => [] end in
  exists s, reachable ext prog s /\ finished s 0 /\ finished s 1 /\ reg s 7 = Some 107 /\
    effects (log s) = [(1, CRegister 7, RFound (Some 107)); (0, CRegister 7, RFound (Some 107))].
Proof.
  cbv zeta. eexists. split.
  - eapply runs_reachable; [|apply re_init].
    do 3 (go 0). do 5 (go 1). do 7 (go 0). do 5 (go 1).
    apply runs_0.
  - unfold finished. splits; reflexivity.
Qed.
