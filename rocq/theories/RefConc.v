(** ConstraintMap and ReferenceConstraint used by any number of goroutines
    (reference.go:18-102).  Each mutex operation and each access to shared data is one
    step; steps of different goroutines interleave arbitrarily. *)
From Verif Require Import Base GoFloat GoValue Constraint Linear.

Local Open Scope nat_scope.
Local Ltac splits := repeat match goal with |- _ /\ _ => split end.

(** ** The machine *)
(** calls of the API.  References are numbered; [rname] gives the name set with RefersTo
    (reference.go:105-108), which the calls below do not change. *)
Inductive call := CSet (n : string) (c : constr) | CGet (n : string) | CResolve (r : nat) | CLen.
Inductive result := RUnit | RConstr (c : constr) | RErr | RLen (n : nat).

(** program counters *)
Inductive pc :=
| Idle
(* SetReference, reference.go:36-42 *)
| SetWait (n : string) (c : constr)   (* cm.lock.Lock() *)
| SetIn (n : string) (c : constr)     (* refs[name] = c *)
| SetOut (n : string) (c : constr)    (* deferred Unlock, return *)
(* GetReference, reference.go:45-55 *)
| GetWait (n : string)
| GetIn (n : string)                  (* c, ok := refs[name] *)
| GetOut (n : string) (x : result)
(* Resolved, reference.go:75-102 *)
| ResWait (r : nat)                   (* r.lock.Lock() *)
| ResIn (r : nat)                     (* r.resolved != nil ? *)
| ResCmWait (r : nat)                 (* GetReference: cm.lock.Lock() *)
| ResCmIn (r : nat)                   (* GetReference: refs[name] *)
| ResCmOut (r : nat) (x : result)     (* GetReference: Unlock *)
| ResStore (r : nat) (x : result)     (* err check; r.resolved = c *)
| ResOut (r : nat) (x : result)       (* deferred Unlock, return *)
(* Len, reference.go:24-26: a value receiver, so cm is copied; no lock is taken.  The read of
   refs is taken to be atomic here, which Go only promises in the absence of races. *)
| LenIn                               (* len(cm.refs) *)
| LenOut (x : result).

Record state := {
  cm_owner : option nat;                 (* holder of ConstraintMap.lock *)
  refs : list (string * constr);         (* ConstraintMap.refs *)
  r_owner : nat -> option nat;           (* holder of ReferenceConstraint.lock *)
  resolved : nat -> constr;              (* ReferenceConstraint.resolved, CNil = nil *)
  pcs : nat -> pc;
  todo : nat -> list call;               (* what each goroutine still has to do *)
  log : list (event call result)                       (* newest first *)
}.

Definition set_pc (t : nat) (p : pc) (s : state) : state :=
  {| cm_owner := cm_owner s; refs := refs s; r_owner := r_owner s; resolved := resolved s; pcs := upd (pcs s) t p; todo := todo s; log := log s |}.
Definition set_cm (o : option nat) (s : state) : state :=
  {| cm_owner := o; refs := refs s; r_owner := r_owner s; resolved := resolved s; pcs := pcs s; todo := todo s; log := log s |}.
Definition set_refs (m : list (string * constr)) (s : state) : state :=
  {| cm_owner := cm_owner s; refs := m; r_owner := r_owner s; resolved := resolved s; pcs := pcs s; todo := todo s; log := log s |}.
Definition set_r (r : nat) (o : option nat) (s : state) : state :=
  {| cm_owner := cm_owner s; refs := refs s; r_owner := upd (r_owner s) r o; resolved := resolved s; pcs := pcs s; todo := todo s; log := log s |}.
Definition set_resolved (r : nat) (c : constr) (s : state) : state :=
  {| cm_owner := cm_owner s; refs := refs s; r_owner := r_owner s; resolved := upd (resolved s) r c; pcs := pcs s; todo := todo s; log := log s |}.
Definition set_todo (t : nat) (l : list call) (s : state) : state :=
  {| cm_owner := cm_owner s; refs := refs s; r_owner := r_owner s; resolved := resolved s; pcs := pcs s; todo := upd (todo s) t l; log := log s |}.
Definition emit (e : event call result) (s : state) : state :=
  {| cm_owner := cm_owner s; refs := refs s; r_owner := r_owner s; resolved := resolved s; pcs := pcs s; todo := todo s; log := e :: log s |}.

Definition entry (c : call) : pc :=
  match c with CSet n x => SetWait n x | CGet n => GetWait n | CResolve r => ResWait r | CLen => LenIn end.

(** reference.go:49-54 *)
Definition look (m : list (string * constr)) (n : string) : result :=
  match sget n m with Some c => RConstr c | None => RErr end.

Section Machine.
Variable rname : nat -> string.

(** goroutine t makes one step *)
Inductive step (t : nat) (s : state) : state -> Prop :=
| st_call c l : pcs s t = Idle -> todo s t = c :: l ->
    step t s (emit (EInv t c) (set_todo t l (set_pc t (entry c) s)))
| st_set_lock n c : pcs s t = SetWait n c -> cm_owner s = None ->
    step t s (set_cm (Some t) (set_pc t (SetIn n c) s))
| st_set_write n c : pcs s t = SetIn n c ->
    step t s (emit (ELin t (CSet n c) RUnit) (set_refs (sset n c (refs s)) (set_pc t (SetOut n c) s)))
| st_set_ret n c : pcs s t = SetOut n c ->
    step t s (emit (ERet t (CSet n c) RUnit) (set_cm None (set_pc t Idle s)))
| st_get_lock n : pcs s t = GetWait n -> cm_owner s = None ->
    step t s (set_cm (Some t) (set_pc t (GetIn n) s))
| st_get_read n : pcs s t = GetIn n ->
    step t s (emit (ELin t (CGet n) (look (refs s) n)) (set_pc t (GetOut n (look (refs s) n)) s))
| st_get_ret n x : pcs s t = GetOut n x ->
    step t s (emit (ERet t (CGet n) x) (set_cm None (set_pc t Idle s)))
| st_res_lock r : pcs s t = ResWait r -> r_owner s r = None ->
    step t s (set_r r (Some t) (set_pc t (ResIn r) s))
| st_res_hit r : pcs s t = ResIn r -> resolved s r <> CNil ->
    step t s (emit (ELin t (CResolve r) (RConstr (resolved s r))) (set_pc t (ResOut r (RConstr (resolved s r))) s))
| st_res_miss r : pcs s t = ResIn r -> resolved s r = CNil ->
    step t s (set_pc t (ResCmWait r) s)
| st_res_cmlock r : pcs s t = ResCmWait r -> cm_owner s = None ->
    step t s (set_cm (Some t) (set_pc t (ResCmIn r) s))
| st_res_read r : pcs s t = ResCmIn r ->
    step t s (emit (ELin t (CResolve r) (look (refs s) (rname r))) (set_pc t (ResCmOut r (look (refs s) (rname r))) s))
| st_res_cmunlock r x : pcs s t = ResCmOut r x ->
    step t s (set_cm None (set_pc t (ResStore r x) s))
| st_res_store r c : pcs s t = ResStore r (RConstr c) ->
    step t s (set_resolved r c (set_pc t (ResOut r (RConstr c)) s))
| st_res_err r : pcs s t = ResStore r RErr ->
    step t s (set_pc t (ResOut r RErr) s)
| st_res_ret r x : pcs s t = ResOut r x ->
    step t s (emit (ERet t (CResolve r) x) (set_r r None (set_pc t Idle s)))
| st_len_read : pcs s t = LenIn ->
    step t s (emit (ELin t CLen (RLen (length (refs s)))) (set_pc t (LenOut (RLen (length (refs s)))) s))
| st_len_ret x : pcs s t = LenOut x ->
    step t s (emit (ERet t CLen x) (set_pc t Idle s)).

(** a new ConstraintMap and new references; goroutine t will make the calls [prog t] *)
Definition init (prog : nat -> list call) : state :=
  {| cm_owner := None; refs := []; r_owner := fun _ => None; resolved := fun _ => CNil;
     pcs := fun _ => Idle; todo := prog; log := [] |}.

Inductive reachable (prog : nat -> list call) : state -> Prop :=
| re_init : reachable prog (init prog)
| re_step s t s' : reachable prog s -> step t s s' -> reachable prog s'.

(** ** Specification: the same API executed atomically *)
Record astate := { a_refs : list (string * constr); a_resolved : nat -> constr }.
Definition a_init : astate := {| a_refs := []; a_resolved := fun _ => CNil |}.

Definition a_call (c : call) (a : astate) : result * astate :=
  match c with
  | CSet n x => (RUnit, {| a_refs := sset n x (a_refs a); a_resolved := a_resolved a |})
  | CGet n => (match sget n (a_refs a) with Some x => RConstr x | None => RErr end, a)
  | CResolve r =>
      match a_resolved a r with
      | CNil =>
          match sget (rname r) (a_refs a) with
          | Some x => (RConstr x, {| a_refs := a_refs a; a_resolved := upd (a_resolved a) r x |})
          | None => (RErr, a)
          end
      | x => (RConstr x, a)
      end
  | CLen => (RLen (length (a_refs a)), a)
  end.

Notation serial := (serial a_call a_init).

(** ** Invariant *)
Definition holds_cm (p : pc) : bool :=
  match p with SetIn _ _ | SetOut _ _ | GetIn _ | GetOut _ _ | ResCmIn _ | ResCmOut _ _ => true | _ => false end.
Definition holds_r (p : pc) : option nat :=
  match p with ResIn r | ResCmWait r | ResCmIn r | ResCmOut r _ | ResStore r _ | ResOut r _ => Some r | _ => None end.
(** the goroutine has read the map but not stored yet *)
Definition fetched (p : pc) : option (nat * result) :=
  match p with ResCmOut r x | ResStore r x => Some (r, x) | _ => None end.
Definition missing (p : pc) : option nat :=
  match p with ResCmWait r | ResCmIn r | ResCmOut r _ | ResStore r _ => Some r | _ => None end.
Definition phase_of (p : pc) : phase call result :=
  match p with
  | Idle => Between
  | SetWait n c | SetIn n c => Begun (CSet n c)
  | SetOut n c => Done (CSet n c) RUnit
  | GetWait n | GetIn n => Begun (CGet n)
  | GetOut n x => Done (CGet n) x
  | ResWait r | ResIn r | ResCmWait r | ResCmIn r => Begun (CResolve r)
  | ResCmOut r x | ResStore r x | ResOut r x => Done (CResolve r) x
  | LenIn => Begun CLen
  | LenOut x => Done CLen x
  end.

(** the value r will have once a fetched result is stored *)
Definition eff (s : state) (r : nat) : constr :=
  match r_owner s r with
  | Some t => match fetched (pcs s t) with Some (_, RConstr c) => c | _ => resolved s r end
  | None => resolved s r
  end.

Record inv (prog : nat -> list call) (s : state) : Prop := {
  i_cm : forall t, cm_owner s = Some t <-> holds_cm (pcs s t) = true;
  i_r : forall r t, r_owner s r = Some t <-> holds_r (pcs s t) = Some r;
  i_miss : forall r t, missing (pcs s t) = Some r -> resolved s r = CNil;
  i_fetch : forall r t x, fetched (pcs s t) = Some (r, x) -> x = RErr \/ exists c, x = RConstr c;
  i_serial : exists a, serial (effects (log s)) a /\ a_refs a = refs s /\ forall r, a_resolved a r = eff s r;
  i_phase : forall t, orderly t (log s) (phase_of (pcs s t));
  i_prog : forall t, prog t = rev (begun t (log s)) ++ todo s t
}.

Ltac upds t0 t := destruct (Nat.eq_dec t0 t) as [->|]; [rewrite ?upd_same in *|rewrite ?upd_other in * by auto].

(** *** Locks *)
Lemma step_cm t s s' : step t s s' -> (forall t, cm_owner s = Some t <-> holds_cm (pcs s t) = true) ->
  forall t, cm_owner s' = Some t <-> holds_cm (pcs s' t) = true.
Proof.
  intros H I t0. destruct H; cbn [cm_owner pcs emit set_todo set_pc set_cm set_refs set_r set_resolved]; upds t0 t;
    try apply I; cbn [holds_cm entry];
    try (specialize (I t) as It; rewrite ?H, ?H0 in It; cbn [holds_cm] in It).
  all: try (rewrite It; tauto).
  all: try (destruct c; cbn [holds_cm]; rewrite It; tauto).
  all: try tauto.
  all: try (split; [intros [= ->]; congruence|intros Ht; apply I in Ht; congruence]).
  all: try (split; [discriminate|intros Ht; apply I in Ht; destruct It as [_ It]; rewrite (It eq_refl) in Ht; congruence]).
  all: split; intros Q; discriminate Q.
Qed.

Lemma step_r t s s' : step t s s' -> (forall r t, r_owner s r = Some t <-> holds_r (pcs s t) = Some r) ->
  forall r t, r_owner s' r = Some t <-> holds_r (pcs s' t) = Some r.
Proof.
  intros H I r0 t0. destruct H; cbn [r_owner pcs emit set_todo set_pc set_cm set_refs set_r set_resolved]; upds t0 t;
    try apply I; cbn [holds_r entry]; try (specialize (I r0 t) as It; rewrite ?H, ?H0 in It; cbn [holds_r] in It).
  all: try (rewrite It; tauto).
  all: try (destruct c; cbn [holds_r]; rewrite It; tauto).
  all: try rewrite (upd_other (pcs s)) by auto.
  all: upds r0 r; try tauto.
  all: try (split; intros Q; congruence).
  all: try (rewrite It; split; intros Q; congruence).
  - split; [intros [= ->]; congruence|]. intros Q. apply I in Q. congruence.
  - apply I.
  - split; [discriminate|]. intros Q. apply I in Q. pose proof (proj2 It eq_refl). congruence.
  - apply I.
Qed.

Lemma step_miss t s s' : step t s s' -> (forall r t, r_owner s r = Some t <-> holds_r (pcs s t) = Some r) ->
  (forall r t, missing (pcs s t) = Some r -> resolved s r = CNil) ->
  forall r t, missing (pcs s' t) = Some r -> resolved s' r = CNil.
Proof.
  intros H R I r0 t0. destruct H; cbn [resolved pcs emit set_todo set_pc set_cm set_refs set_r set_resolved]; upds t0 t;
    try apply I; cbn [missing entry]; try discriminate; try (specialize (I r0 t) as It; rewrite ?H, ?H0 in It; cbn [missing] in It); auto.
  - destruct c; discriminate.
  - intros [= <-]. assumption.
  - intros Q. upds r0 r; [|eapply I; eauto].
    exfalso. assert (r_owner s r = Some t) by (apply R; now rewrite H).
    assert (r_owner s r = Some t0) by (apply R; destruct (pcs s t0); cbn in *; try discriminate; congruence).
    congruence.
Qed.

Lemma step_fetch t s s' : step t s s' ->
  (forall r t x, fetched (pcs s t) = Some (r, x) -> x = RErr \/ exists c, x = RConstr c) ->
  forall r t x, fetched (pcs s' t) = Some (r, x) -> x = RErr \/ exists c, x = RConstr c.
Proof.
  intros H I r0 t0 x0. destruct H; cbn [pcs emit set_todo set_pc set_cm set_refs set_r set_resolved]; upds t0 t;
    try apply I; cbn [fetched entry]; try discriminate; try (specialize (I r0 t x0) as It; rewrite ?H, ?H0 in It; cbn [fetched] in It); auto.
  - destruct c; discriminate.
  - intros [= <- <-]. unfold look. destruct (sget _ _); eauto.
Qed.

Lemma step_phase t s s' : step t s s' -> (forall t, orderly t (log s) (phase_of (pcs s t))) ->
  forall t, orderly t (log s') (phase_of (pcs s' t)).
Proof.
  intros H I t0. destruct H; cbn [log pcs emit set_todo set_pc set_cm set_refs set_r set_resolved]; upds t0 t;
    try apply I; cbn [phase_of entry]; try (apply or_other; [congruence|apply I]);
    try (specialize (I t) as It; rewrite ?H, ?H0 in It; cbn [phase_of] in It); auto.
  all: try (constructor; assumption).
  destruct c; cbn [phase_of entry]; constructor; assumption.
Qed.

Lemma step_prog prog t s s' : step t s s' -> (forall t, prog t = rev (begun t (log s)) ++ todo s t) ->
  forall t, prog t = rev (begun t (log s')) ++ todo s' t.
Proof.
  intros H I t0. specialize (I t0).
  destruct H; cbn [log todo begun emit set_todo set_pc set_cm set_refs set_r set_resolved]; try assumption.
  destruct (Nat.eqb_spec t t0) as [->|N].
  - rewrite upd_same. cbn [rev]. rewrite <- app_assoc. cbn [app]. congruence.
  - rewrite upd_other by auto. assumption.
Qed.

(** *** Every execution is equivalent to a serial one *)
Lemma eff_step t s s' : step t s s' -> (forall r t, r_owner s r = Some t <-> holds_r (pcs s t) = Some r) ->
  (forall r t, missing (pcs s t) = Some r -> resolved s r = CNil) ->
  forall r, eff s' r =
    match pcs s t with
    | ResCmIn r' => if Nat.eqb r r' then match look (refs s) (rname r') with RConstr c => c | _ => eff s r end else eff s r
    | _ => eff s r
    end.
Proof.
  intros H R M r0. unfold eff.
  assert (A : forall r1 t1, r_owner s r1 = Some t1 -> holds_r (pcs s t1) = Some r1) by (intros; now apply R).
  destruct H; rewrite H; cbn [r_owner resolved pcs emit set_todo set_pc set_cm set_refs set_r set_resolved].
  all: try (destruct (r_owner s r0) as [t1|] eqn:O; [|reflexivity]; upds t1 t; [|reflexivity];
            specialize (A _ _ O); rewrite H in A; cbn in A |- *; rewrite ?H; cbn [fetched]; try discriminate A; try (injection A as <-); try reflexivity).
  - upds r0 r.
    + rewrite H0, ?upd_same. reflexivity.
    + destruct (r_owner s r0) as [t1|] eqn:O; [|reflexivity]. upds t1 t; [|reflexivity].
      specialize (A _ _ O). rewrite H in A. discriminate A.
  - destruct (Nat.eqb_spec r0 r) as [->|N].
    + pose proof (proj2 (R r t)) as Q. rewrite H in Q. specialize (Q eq_refl).
      rewrite Q, upd_same, H. cbn [fetched]. destruct (look _ _); reflexivity.
    + destruct (r_owner s r0) as [t1|] eqn:O; [|reflexivity]. upds t1 t; [|reflexivity].
      specialize (A _ _ O). rewrite H in A. cbn in A. congruence.
  - destruct (Nat.eq_dec r0 r) as [->|N].
    + pose proof (proj2 (R r t)) as Q. rewrite H in Q. specialize (Q eq_refl). rewrite Q, !upd_same, H. reflexivity.
    + rewrite (upd_other (resolved s)) by auto. destruct (r_owner s r0) as [t1|] eqn:O; [|reflexivity].
      upds t1 t; [|reflexivity]. specialize (A _ _ O). rewrite H in A. cbn in A. congruence.
  - destruct (Nat.eq_dec r0 r) as [->|N].
    + pose proof (proj2 (R r t)) as Q. rewrite H in Q. specialize (Q eq_refl). rewrite Q, !upd_same, H. reflexivity.
    + rewrite (upd_other (r_owner s)) by auto. destruct (r_owner s r0) as [t1|] eqn:O; [|reflexivity].
      upds t1 t; [|reflexivity]. specialize (A _ _ O). rewrite H in A. cbn in A. congruence.
Qed.

Lemma step_serial t s s' prog : step t s s' -> inv prog s ->
  exists a, serial (effects (log s')) a /\ a_refs a = refs s' /\ forall r, a_resolved a r = eff s' r.
Proof.
  intros H I. destruct (i_serial _ _ I) as (a & S & AR & AE).
  pose proof (eff_step _ _ _ H (i_r _ _ I) (i_miss _ _ I)) as E.
  destruct H; rewrite H in E; cbn [log refs effects emit set_todo set_pc set_cm set_refs set_r set_resolved] in *;
    try (exists a; splits; [assumption|assumption|intros; rewrite E; apply AE]).
  - eexists. splits; [exists a; split; [exact S|reflexivity]| |]; cbn [a_refs a_resolved].
    + now rewrite AR.
    + intros. rewrite E. apply AE.
  - exists a. splits; [|assumption|intros; rewrite E; apply AE].
    exists a. split; [assumption|]. cbn [a_call]. unfold look. now rewrite AR.
  - exists a. splits; [|assumption|intros; rewrite E; apply AE].
    exists a. split; [assumption|]. cbn [a_call]. rewrite AE.
    assert (Q : eff s r = resolved s r).
    { unfold eff. pose proof (proj2 (i_r _ _ I r t)) as Q. rewrite H in Q. rewrite (Q eq_refl), H. reflexivity. }
    rewrite Q. destruct (resolved s r); congruence.
  - assert (Q : eff s r = CNil).
    { unfold eff. pose proof (proj2 (i_r _ _ I r t)) as Q. rewrite H in Q. rewrite (Q eq_refl), H. cbn [fetched].
      apply (i_miss _ _ I r t). now rewrite H. }
    unfold look in *. destruct (sget (rname r) (refs s)) as [c|] eqn:G.
    + eexists. splits; [exists a; split; [exact S|]| |].
      * cbn [a_call]. rewrite AE, Q, AR, G; reflexivity.
      * reflexivity.
      * intros r0. rewrite E. cbn [a_resolved]. unfold upd. destruct (Nat.eqb r0 r); [reflexivity|apply AE].
    + exists a. splits; [|assumption|].
      * exists a. split; [assumption|]. cbn [a_call]. now rewrite AE, Q, AR, G.
      * intros r0. rewrite E. destruct (Nat.eqb r0 r); apply AE.
  - exists a. splits; [|assumption|intros; rewrite E; apply AE].
    exists a. split; [assumption|]. cbn [a_call]. now rewrite AR.
Qed.

Lemma inv_init prog : inv prog (init prog).
Proof.
  constructor; cbn; try discriminate; try (intros; split; discriminate).
  - exists a_init. splits; reflexivity.
  - constructor.
Qed.

Lemma inv_step prog t s s' : inv prog s -> step t s s' -> inv prog s'.
Proof.
  intros I H. pose proof (step_serial _ _ _ _ H I). destruct I. constructor.
  - eapply step_cm; eauto.
  - eapply step_r; eauto.
  - eapply step_miss; eauto.
  - eapply step_fetch; eauto.
  - assumption.
  - eapply step_phase; eauto.
  - eapply step_prog; eauto.
Qed.

Lemma reachable_inv prog s : reachable prog s -> inv prog s.
Proof. induction 1; [apply inv_init|eapply inv_step; eauto]. Qed.

(** Linearizability: the calls take effect in some serial order consistent with their
    results; each takes effect once, between its start and its return, and returns the
    result of that point; and each goroutine makes its calls in program order. *)
Theorem linearizable prog s : reachable prog s ->
  (exists a, serial (effects (log s)) a) /\
  (forall t, exists p, orderly t (log s) p) /\
  (forall t, exists rest, prog t = rev (begun t (log s)) ++ rest).
Proof.
  intros R. apply reachable_inv in R. splits.
  - destruct (i_serial _ _ R) as (a & S & _). eauto.
  - intros t. eexists. apply (i_phase _ _ R).
  - intros t. eexists. apply (i_prog _ _ R).
Qed.

(** ** Consequences for the specification *)
(** name n was registered with c in the serial history l *)
Definition registered (l : list (nat * call * result)) (n : string) (c : constr) : Prop :=
  exists t x, In (t, CSet n c, x) l.

(** the last registration of n *)
Fixpoint latest (l : list (nat * call * result)) (n : string) : option constr :=
  match l with
  | (_, CSet m c, _) :: r => if String.eqb m n then Some c else latest r n
  | _ :: r => latest r n
  | [] => None
  end.

Lemma serial_refs l a n : serial l a -> sget n (a_refs a) = latest l n.
Proof.
  revert a. induction l as [|[[t c] x] l IH]; intros a; cbn [serial latest].
  - intros ->. reflexivity.
  - intros (a0 & S & E). specialize (IH _ S). destruct c as [m c|m|r|]; cbn [a_call] in E.
    + injection E as <- <-. cbn [a_refs]. destruct (String.eqb_spec m n) as [->|N].
      * apply sget_sset_same.
      * rewrite sget_sset_other by auto. assumption.
    + injection E as <- <-. assumption.
    + destruct (a_resolved a0 r); [destruct (sget (rname r) _)|..]; injection E as <- <-; assumption.
    + injection E as <- <-. assumption.
Qed.

(** GetReference returns what the last SetReference of that name stored, and fails if
    there was none. *)
Theorem get_latest prog s l1 l2 t n x : reachable prog s ->
  effects (log s) = l1 ++ (t, CGet n, x) :: l2 ->
  x = match latest l2 n with Some c => RConstr c | None => RErr end.
Proof.
  intros R E. destruct (proj1 (linearizable _ _ R)) as (a & S). rewrite E in S. clear E. revert a S.
  induction l1 as [|[[t' c'] x'] l1 IH]; cbn [app serial].
  - intros a (a0 & S & Q). cbn [a_call] in Q. injection Q as <- <-. now rewrite (serial_refs _ _ _ S).
  - intros a (a0 & S & _). eauto.
Qed.

(** Resolved: once it has returned a constraint, it returns that same constraint forever,
    no matter what is registered later. *)
Lemma latest_registered l n c : latest l n = Some c -> registered l n c.
Proof.
  unfold registered. induction l as [|[[t c1] x] l IH]; cbn [latest]; [discriminate|].
  destruct c1 as [m c1|m|r|]; [destruct (String.eqb_spec m n) as [->|]|..]; intros G.
  - injection G as ->. exists t, x. now left.
  - destruct (IH G) as (t1 & y & H). exists t1, y. now right.
  - destruct (IH G) as (t1 & y & H). exists t1, y. now right.
  - destruct (IH G) as (t1 & y & H). exists t1, y. now right.
  - destruct (IH G) as (t1 & y & H). exists t1, y. now right.
Qed.

Lemma serial_resolved l a r : serial l a ->
  (forall t x, In (t, CResolve r, x) l -> x = RErr \/ x = RConstr CNil \/ x = RConstr (a_resolved a r)) /\
  (a_resolved a r = CNil \/ registered l (rname r) (a_resolved a r)).
Proof.
  revert a. induction l as [|[[t c] x] l IH]; intros a; cbn [serial].
  - intros ->. split; [intros ? ? []|]. left. reflexivity.
  - intros (a0 & S & E). destruct (IH _ S) as (A & B).
    assert (W : forall c1, registered l (rname r) c1 -> registered ((t, c, x) :: l) (rname r) c1).
    { intros c1 (t1 & y & H). exists t1, y. now right. }
    assert (B' : a_resolved a0 r = CNil \/ registered ((t, c, x) :: l) (rname r) (a_resolved a0 r)).
    { destruct B as [B|B]; [now left|right; now apply W]. }
    destruct c as [m c|m|r1|]; cbn [a_call] in E.
    + injection E as <- <-. cbn [a_resolved]. split; [|assumption].
      intros t1 x1 [Q|Q]; [discriminate|eauto].
    + injection E as <- <-. split; [|assumption]. intros t1 x1 [Q|Q]; [discriminate|eauto].
    + assert (D : (a_resolved a0 r1 = CNil /\
                  ((exists c, sget (rname r1) (a_refs a0) = Some c /\ x = RConstr c /\
                     a = {| a_refs := a_refs a0; a_resolved := upd (a_resolved a0) r1 c |}) \/ (x = RErr /\ a = a0))) \/
                  (x = RConstr (a_resolved a0 r1) /\ a = a0)).
      { destruct (a_resolved a0 r1); [|injection E as <- <-; auto ..].
        left. split; [reflexivity|]. destruct (sget _ _) as [c|]; injection E as <- <-; eauto 6. }
      clear E. destruct D as [(N & [(c & G & -> & ->)|(-> & ->)])|(-> & ->)].
      * cbn [a_resolved]. destruct (Nat.eq_dec r1 r) as [->|NE].
        -- rewrite upd_same. split.
           ++ intros t1 x1 [Q|Q]; [injection Q as _ <-; auto|]. destruct (A _ _ Q) as [->|[->| ->]]; auto.
              rewrite N. auto.
           ++ right. apply W. rewrite (serial_refs _ _ _ S) in G. now apply latest_registered.
        -- rewrite upd_other by auto. split; [|assumption].
           intros t1 x1 [Q|Q]; [congruence|eauto].
      * split; [|assumption]. intros t1 x1 [Q|Q]; [injection Q; auto|eauto].
      * split; [|assumption]. intros t1 x1 [Q|Q]; [injection Q as _ -> <-; auto|eauto].
    + injection E as <- <-. split; [|assumption]. intros t1 x1 [Q|Q]; [discriminate|eauto].
Qed.

(** Any two calls of Resolved on the same reference that return a (non-nil) constraint
    return the same one, and it was registered under the reference's name. *)
Theorem resolved_stable prog s r t1 t2 c1 c2 : reachable prog s ->
  In (ERet t1 (CResolve r) (RConstr c1)) (log s) -> In (ERet t2 (CResolve r) (RConstr c2)) (log s) ->
  c1 <> CNil -> c2 <> CNil ->
  c1 = c2 /\ registered (effects (log s)) (rname r) c1.
Proof.
  intros R I1 I2 N1 N2. apply reachable_inv in R. destruct (i_serial _ _ R) as (a & S & _).
  apply (returned_effect _ _ _ _ _ (i_phase _ _ R t1)) in I1. apply (returned_effect _ _ _ _ _ (i_phase _ _ R t2)) in I2.
  destruct (serial_resolved _ _ r S) as (A & B).
  destruct (A _ _ I1) as [?|[?|E1]]; try congruence. destruct (A _ _ I2) as [?|[?|E2]]; try congruence.
  split; [congruence|]. injection E1 as ->. destruct B as [B|B]; [congruence|assumption].
Qed.

(** Len returns the number of different names registered so far. *)
Fixpoint names (l : list (nat * call * result)) : list string :=
  match l with
  | (_, CSet n _, _) :: r => n :: names r
  | _ :: r => names r
  | [] => []
  end.

Lemma serial_names l a : serial l a -> ssorted (a_refs a) /\ forall n, In n (keys (a_refs a)) <-> In n (names l).
Proof.
  revert a. induction l as [|[[t c] x] l IH]; intros a; cbn [serial names].
  - intros ->. cbn. split; [constructor|tauto].
  - intros (a0 & S & E). destruct (IH _ S) as (A & B). destruct c as [m c|m|r|]; cbn [a_call] in E.
    + injection E as <- <-. cbn [a_refs].
      assert (K : forall n, In n (keys (sset m c (a_refs a0))) <-> m = n \/ In n (names l)).
      { intros n. rewrite <- B, <- !sget_some_keys. destruct (String.eqb_spec n m) as [->|N].
        - rewrite sget_sset_same. split; eauto.
        - rewrite sget_sset_other by auto. split; [auto|]. intros [?|?]; [congruence|assumption]. }
      split; [now apply sset_sorted|exact K].
    + injection E as <- <-. auto.
    + destruct (a_resolved a0 r); [destruct (sget (rname r) _)|..]; injection E as <- <-; auto.
    + injection E as <- <-. auto.
Qed.
Theorem len_counts prog s l1 l2 t x : reachable prog s ->
  effects (log s) = l1 ++ (t, CLen, x) :: l2 ->
  x = RLen (length (nodup string_dec (names l2))).
Proof.
  intros R E. destruct (proj1 (linearizable _ _ R)) as (a & S). rewrite E in S. clear E. revert a S.
  induction l1 as [|[[t' c'] x'] l1 IH]; cbn [app serial].
  - intros a (a0 & S & Q). cbn [a_call] in Q. injection Q as <- <-. destruct (serial_names _ _ S) as (A & B).
    f_equal. unfold keys in *. rewrite <- (map_length fst (a_refs a0)).
    apply Permutation_length, NoDup_Permutation; [now apply ssorted_nodup|apply NoDup_nodup|].
    intros n. rewrite nodup_In. apply B.
  - intros a (a0 & S & _). eauto.
Qed.

(** ** Mutual exclusion *)
(** a goroutine about to write, or to access, the map *)
Definition map_write (p : pc) : bool := match p with SetIn _ _ => true | _ => false end.
Definition map_access (p : pc) : bool := match p with SetIn _ _ | GetIn _ | ResCmIn _ | LenIn => true | _ => false end.
(** a goroutine about to access the resolved field of r *)
Definition ref_access (p : pc) : option nat := match p with ResIn r | ResStore r _ => Some r | _ => None end.

(** No data race, as long as nobody calls Len: two goroutines are never both about to
    access the map (or the same reference's field). *)
Theorem no_data_race prog s t1 t2 : reachable prog s -> t1 <> t2 ->
  (forall t, ~ In CLen (prog t)) ->
  ~ (map_access (pcs s t1) = true /\ map_access (pcs s t2) = true) /\
  forall r, ~ (ref_access (pcs s t1) = Some r /\ ref_access (pcs s t2) = Some r).
Proof.
  intros R N NL. apply reachable_inv in R.
  assert (L : forall t, pcs s t <> LenIn).
  { intros t P. pose proof (i_phase _ _ R t) as O. rewrite P in O. cbn [phase_of] in O.
    apply (NL t). rewrite (i_prog _ _ R t). apply in_or_app. left. apply -> in_rev.
    eapply orderly_begun; [eassumption|reflexivity]. }
  split.
  - intros (A & B).
    assert (cm_owner s = Some t1) by (apply (i_cm _ _ R); destruct (pcs s t1) eqn:P; try discriminate A; try reflexivity; destruct (L _ P)).
    assert (cm_owner s = Some t2) by (apply (i_cm _ _ R); destruct (pcs s t2) eqn:P; try discriminate B; try reflexivity; destruct (L _ P)).
    congruence.
  - intros r (A & B).
    assert (r_owner s r = Some t1) by (apply (i_r _ _ R); destruct (pcs s t1); try discriminate A; exact A).
    assert (r_owner s r = Some t2) by (apply (i_r _ _ R); destruct (pcs s t2); try discriminate B; exact B).
    congruence.
Qed.

(** ** Progress *)
Definition finished (s : state) (t : nat) : Prop := pcs s t = Idle /\ todo s t = [].

Ltac mv := solve [eapply st_set_write; eassumption|eapply st_set_ret; eassumption|eapply st_get_read; eassumption|
  eapply st_get_ret; eassumption|eapply st_res_read; eassumption|eapply st_res_cmunlock; eassumption|eapply st_res_ret; eassumption|
  eapply st_len_read; eassumption|eapply st_len_ret; eassumption].

Lemma cm_owner_moves prog s t : inv prog s -> cm_owner s = Some t -> exists s', step t s s'.
Proof.
  intros I H. apply (i_cm _ _ I) in H. destruct (pcs s t) eqn:P; try discriminate H; eexists; mv.
Qed.

Lemma cm_wait_moves prog s t : inv prog s ->
  (cm_owner s = None -> exists s', step t s s') -> exists t' s', step t' s s'.
Proof.
  intros I H. destruct (cm_owner s) as [t'|] eqn:O; [|destruct (H eq_refl); eauto].
  destruct (cm_owner_moves _ _ _ I O); eauto.
Qed.

Lemma past_wait_moves prog s t : inv prog s -> holds_r (pcs s t) <> None -> exists t' s', step t' s s'.
Proof.
  intros I H. destruct (pcs s t) eqn:P; cbn in H; try congruence.
  - destruct (resolved s r) eqn:Q; [exists t; eexists; eapply st_res_miss; eassumption|
      exists t; eexists; eapply st_res_hit; [eassumption|congruence] ..].
  - apply (cm_wait_moves prog s t I). intros O. eexists. eapply st_res_cmlock; eassumption.
  - exists t; eexists; mv.
  - exists t; eexists; mv.
  - pose proof (i_fetch _ _ I r t x) as Q. rewrite P in Q. destruct (Q eq_refl) as [->|(c & ->)].
    + exists t; eexists; eapply st_res_err; eassumption.
    + exists t; eexists; eapply st_res_store; eassumption.
  - exists t; eexists; mv.
Qed.

(** No deadlock: while some goroutine has not finished, some goroutine can move. *)
Theorem no_deadlock prog s t : reachable prog s -> ~ finished s t -> exists t' s', step t' s s'.
Proof.
  intros R F. apply reachable_inv in R. destruct (pcs s t) eqn:P.
  all: try (apply (past_wait_moves prog s t R); rewrite P; discriminate).
  - destruct (todo s t) eqn:T; [exfalso; apply F; split; assumption|]. exists t; eexists; eapply st_call; eassumption.
  - apply (cm_wait_moves prog s t R). intros O. eexists. eapply st_set_lock; eassumption.
  - exists t; eexists; mv.
  - exists t; eexists; mv.
  - apply (cm_wait_moves prog s t R). intros O. eexists. eapply st_get_lock; eassumption.
  - exists t; eexists; mv.
  - exists t; eexists; mv.
  - destruct (r_owner s r) as [t'|] eqn:O.
    + apply (past_wait_moves prog s t' R). apply (i_r _ _ R) in O. rewrite O. discriminate.
    + exists t; eexists; eapply st_res_lock; eassumption.
  - exists t; eexists; mv.
  - exists t; eexists; mv.
Qed.

(** No livelock: the work left for a goroutine only shrinks, by at least one with each of
    its steps, and other goroutines' steps do not change it. *)
Definition pending (s : state) (t : nat) : nat :=
  8 * length (todo s t) +
  match pcs s t with
  | Idle => 0
  | SetWait _ _ | GetWait _ => 3 | SetIn _ _ | GetIn _ => 2 | SetOut _ _ | GetOut _ _ => 1
  | ResWait _ => 7 | ResIn _ => 6 | ResCmWait _ => 5 | ResCmIn _ => 4 | ResCmOut _ _ => 3 | ResStore _ _ => 2 | ResOut _ _ => 1
  | LenIn => 2 | LenOut _ => 1
  end.

Theorem work_shrinks t s s' : step t s s' -> pending s' t < pending s t /\ forall t', t' <> t -> pending s' t' = pending s t'.
Proof.
  intros H. split.
  - unfold pending. destruct H; cbn [pcs todo emit set_todo set_pc set_cm set_refs set_r set_resolved]; rewrite ?upd_same, H; try lia.
    rewrite H0. cbn [length]. destruct c; cbn [entry]; lia.
  - intros t' N. unfold pending. destruct H; cbn [pcs todo emit set_todo set_pc set_cm set_refs set_r set_resolved]; rewrite ?upd_other by auto; reflexivity.
Qed.

(** Hence with finitely many goroutines every execution is finite and can only stop when
    all calls have returned. *)
Fixpoint total (s : state) (n : nat) : nat := match n with 0 => 0 | S k => pending s k + total s k end.

Inductive runs : nat -> state -> state -> Prop :=   (* k steps *)
| runs_0 s : runs 0 s s
| runs_S k s t s1 s2 : step t s s1 -> runs k s1 s2 -> runs (S k) s s2.

Lemma runs_reachable prog k s0 s : runs k s0 s -> reachable prog s0 -> reachable prog s.
Proof. intros H. induction H as [|k s t s1 s2 H HR IH]; [auto|]. intros. apply IH. eapply re_step; eauto. Qed.

Lemma total_step n t s s' : (forall u, n <= u -> todo s u = [] /\ pcs s u = Idle) -> step t s s' ->
  total s' n < total s n /\ (forall u, n <= u -> todo s' u = [] /\ pcs s' u = Idle).
Proof.
  intros F H. assert (T : t < n).
  { destruct (Nat.lt_ge_cases t n) as [|G]; [assumption|]. destruct (F _ G) as (A & B). exfalso. destruct H; congruence. }
  destruct (work_shrinks _ _ _ H) as (D & E). split.
  - clear F H. induction n as [|n IH]; [lia|]. cbn [total]. destruct (Nat.eq_dec n t) as [->|N].
    + assert (Q : forall m, m <= t -> total s' m = total s m).
      { induction m as [|m IHm]; [reflexivity|]. intros. cbn [total]. rewrite IHm, E by lia. reflexivity. }
      rewrite (Q t) by lia. lia.
    + rewrite (E n) by auto. assert (t < n) by lia. specialize (IH H). lia.
  - intros u U. specialize (F u U). assert (u <> t) by lia.
    destruct H; cbn [pcs todo emit set_todo set_pc set_cm set_refs set_r set_resolved]; rewrite ?upd_other by auto; assumption.
Qed.

Theorem all_calls_return n prog s k : (forall u, n <= u -> prog u = []) -> runs k (init prog) s ->
  k <= 8 * list_sum (map (fun u => length (prog u)) (seq 0 n)) /\
  ((forall t s', ~ step t s s') -> forall t, finished s t).
Proof.
  intros F H.
  assert (G : forall k s0 s, runs k s0 s -> (forall u, n <= u -> todo s0 u = [] /\ pcs s0 u = Idle) -> k + total s n <= total s0 n).
  { clear. intros k s0 s H. induction H as [|k s t s1 s2 H HR IH]; [lia|]. intros F. destruct (total_step _ _ _ _ F H) as (A & B).
    specialize (IH B). lia. }
  assert (R : reachable prog s).
  { eapply runs_reachable; [eassumption|constructor]. }
  split.
  - specialize (G _ _ _ H). cbn [init todo pcs] in G. specialize (G (fun u U => conj (F u U) eq_refl)).
    assert (Q : forall m, total (init prog) m = 8 * list_sum (map (fun u => length (prog u)) (seq 0 m))).
    { induction m as [|m IH]; [reflexivity|]. cbn [total]. rewrite IH. unfold pending. cbn [init todo pcs].
      rewrite seq_S, map_app, list_sum_app. cbn [map list_sum fold_right Nat.add]. lia. }
    rewrite Q in G. lia.
  - intros D t. destruct (pcs s t) eqn:P; try (exfalso; destruct (no_deadlock prog s t R) as (t' & s' & X); [|apply (D _ _ X)];
      intros (A & B); congruence).
    split; [assumption|]. destruct (todo s t) eqn:T; [reflexivity|].
    exfalso. eapply D. eapply st_call; eassumption.
Qed.
End Machine.

(** Len races with SetReference: the map can be written and read at the same time. *)
Definition race_free_full : Prop :=
  forall rname prog s t1 t2, reachable rname prog s -> t1 <> t2 ->
    ~ (map_write (pcs s t1) = true /\ map_access (pcs s t2) = true).

Theorem race_free_refuted : ~ race_free_full.
Proof.
  intros F.
  set (prog := fun t => match t with 0 => [CSet "a" CEmpty] | 1 => [CLen] | _ => [] end).
  assert (R : exists s, reachable (fun _ => "a"%string) prog s /\ pcs s 0 = SetIn "a" CEmpty /\ pcs s 1 = LenIn).
  { eexists. split.
    - eapply re_step with (t := 0); [eapply re_step with (t := 1); [eapply re_step with (t := 0); [apply re_init|]|]|].
      + eapply st_call; reflexivity.
      + eapply st_call; reflexivity.
      + eapply st_set_lock; reflexivity.
    - split; reflexivity. }
  destruct R as (s & R & P0 & P1). apply (F _ _ _ 0 1 R); [discriminate|]. now rewrite P0, P1.
Qed.

Local Ltac fire := first [eapply st_call; reflexivity|eapply st_set_lock; reflexivity|eapply st_set_write; reflexivity|eapply st_set_ret; reflexivity|
  eapply st_res_lock; reflexivity|eapply st_res_hit; [reflexivity|discriminate]|eapply st_res_miss; reflexivity|eapply st_res_cmlock; reflexivity|
  eapply st_res_read; reflexivity|eapply st_res_cmunlock; reflexivity|eapply st_res_store; reflexivity|eapply st_res_ret; reflexivity].

(** A run: goroutine 1 resolves reference 0 while goroutine 0 registers "a" twice; the
    first constraint stays. *)
Example resolve_run :
  let prog := fun t => match t with 0 => [CSet "a" CEmpty; CSet "a" CNull] | 1 => [CResolve 0; CResolve 0] | _ => [] end in
  exists s, reachable (fun _ => "a"%string) prog s /\ sget "a" (refs s) = Some CNull /\
    In (ERet 1 (CResolve 0) (RConstr CEmpty)) (log s) /\ finished s 0 /\ finished s 1.
Proof.
  cbv zeta. eexists. split.
  - eapply runs_reachable; [|apply re_init].
    do 4 (eapply runs_S with (t := 0); [fire|]).
    do 8 (eapply runs_S with (t := 1); [fire|]).
    do 4 (eapply runs_S with (t := 0); [fire|]).
    do 4 (eapply runs_S with (t := 1); [fire|]).
    apply runs_0.
  - unfold finished. splits; try reflexivity. cbn. auto 20.
Qed.
