(** Vocabulary for goroutines calling an API concurrently: the events of an execution, and
    when such a sequence of events is linearizable.  Nothing here models /repo code. *)
From Verif Require Import Base.
Local Open Scope nat_scope.

(** functions from goroutine (or object) numbers *)
Definition upd {A} (f : nat -> A) (i : nat) (x : A) : nat -> A := fun j => if Nat.eqb j i then x else f j.

Lemma upd_same {A} (f : nat -> A) i x : upd f i x i = x.
Proof. unfold upd. now rewrite Nat.eqb_refl. Qed.
Lemma upd_other {A} (f : nat -> A) i x j : j <> i -> upd f i x j = f j.
Proof. intros N. unfold upd. destruct (Nat.eqb_spec j i); congruence. Qed.

Section Lin.
Context {call result : Type}.

(** a call begins, takes effect, returns *)
Inductive event := EInv (t : nat) (c : call) | ELin (t : nat) (c : call) (x : result) | ERet (t : nat) (c : call) (x : result).

(** the calls that have taken effect, with their results; newest first like the events *)
Fixpoint effects (l : list event) : list (nat * call * result) :=
  match l with
  | ELin t c x :: r => (t, c, x) :: effects r
  | _ :: r => effects r
  | [] => []
  end.

(** what goroutine t is doing according to the events: nothing, a call that has not taken
    effect, or one that has *)
Inductive phase := Between | Begun (c : call) | Done (c : call) (x : result).
Inductive orderly (t : nat) : list event -> phase -> Prop :=
| or_nil : orderly t [] Between
| or_inv l c : orderly t l Between -> orderly t (EInv t c :: l) (Begun c)
| or_lin l c x : orderly t l (Begun c) -> orderly t (ELin t c x :: l) (Done c x)
| or_ret l c x : orderly t l (Done c x) -> orderly t (ERet t c x :: l) Between
| or_other e l p : match e with EInv t' _ | ELin t' _ _ | ERet t' _ _ => t' <> t end ->
    orderly t l p -> orderly t (e :: l) p.

Fixpoint begun (t : nat) (l : list event) : list call :=   (* newest first *)
  match l with
  | EInv t' c :: r => if Nat.eqb t' t then c :: begun t r else begun t r
  | _ :: r => begun t r
  | [] => []
  end.

(** l (newest first) is a sequence of calls with the results of executing them one by one *)
Section Serial.
Context {A : Type}.
Variable a_call : call -> A -> result * A.
Variable a_init : A.
Fixpoint serial (l : list (nat * call * result)) (a : A) : Prop :=
  match l with
  | [] => a = a_init
  | (_, c, x) :: r => exists a0, serial r a0 /\ a_call c a0 = (x, a)
  end.
End Serial.

Lemma orderly_begun t l p c : orderly t l p -> p = Begun c -> In c (begun t l).
Proof.
  intros O. induction O; intros E; try discriminate.
  - injection E as ->. cbn [begun]. rewrite Nat.eqb_refl. now left.
  - specialize (IHO E). destruct e; cbn [begun]; auto. destruct (Nat.eqb_spec t0 t); [now right|assumption].
Qed.

Lemma returned_effect t c x l p : orderly t l p -> In (ERet t c x) l -> In (t, c, x) (effects l).
Proof.
  intros O. induction O; cbn [In effects]; intros Q.
  - destruct Q.
  - destruct Q as [Q|Q]; [discriminate|auto].
  - destruct Q as [Q|Q]; [discriminate|right; auto].
  - destruct Q as [Q|Q]; [|auto]. injection Q as <- <-. clear IHO.
    remember (Done c0 x0) as p eqn:P. revert P. induction O; intros P; try discriminate.
    + injection P as -> ->. now left.
    + specialize (IHO P). destruct e; cbn [effects]; [assumption|now right|assumption].
  - destruct Q as [->|Q]; [congruence|]. specialize (IHO Q). destruct e; cbn [effects]; auto. now right.
Qed.
End Lin.
Arguments event : clear implicits.
Arguments phase : clear implicits.
