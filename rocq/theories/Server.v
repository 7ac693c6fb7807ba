(** The playground server (server/server.go:86-207): routing, the generate endpoint, and the
    template cache shared by concurrent requests. *)
From Verif Require Import Base Linear.
Local Open Scope nat_scope.
Local Open Scope string_scope.
Local Ltac splits := repeat match goal with |- _ /\ _ => split end.

(** ** Requests and responses *)
(** what a called component did *)
Inductive outcome (A : Type) := Done_ (x : A) | Failed (msg : string) | Panicked.
Arguments Done_ {A}. Arguments Failed {A}. Arguments Panicked {A}.

Inductive body :=
| Html (text : string)                 (* the page *)
| Text (msg : string)                  (* err.Error() *)
| Json (success : bool) (key content : string)  (* {"success": .., key: content} *)
| NotFound.                            (* http.NotFound *)

Record response := { status : nat; ctype : option string; payload : body }.

Section Handler.
(** the components the handlers call *)
Context {schema ctx validator tmpl : Type}.
Variable read : string -> outcome schema.                  (* schema.Read *)
Variable decode : string -> outcome ctx.                   (* json Decode into map *)
Variable build : schema -> ctx -> outcome validator.       (* Builder.BuildWithCtx *)
Variable process : validator -> outcome string.            (* Generator.Process *)
Variable get_templates : outcome tmpl.                     (* getTemplates *)
Variable execute : tmpl -> outcome string.                 (* ExecuteTemplate *)

Definition json_failure (msg : string) : response :=
  {| status := 200; ctype := None; payload := Json false "message" msg |}.

(** httpGenerateValidator, server.go:162-207; None: the handler panicked *)
Definition generate (input : string) : option response :=
  match read input with
  | Panicked => None
  | Failed m => Some (json_failure m)
  | Done_ sc =>
      match decode input with
      | Panicked => None
      | Failed m => Some (json_failure m)
      | Done_ c =>
          match build sc c with
          | Panicked => None
          | Failed m => Some (json_failure m)
          | Done_ v =>
              match process v with
              | Panicked => None
              | Failed m => Some (json_failure m)
              | Done_ code => Some {| status := 200; ctype := Some "application/json; charset=utf-8";
                                      payload := Json true "code" code |}
              end
          end
      end
  end.

(** httpIndex, server.go:141-160 *)
Definition index : option response :=
  match get_templates with
  | Panicked => None
  | Failed m => Some {| status := 500; ctype := None; payload := Text m |}
  | Done_ t =>
      match execute t with
      | Panicked => None
      | Failed m => Some {| status := 500; ctype := None; payload := Text m |}
      | Done_ page => Some {| status := 200; ctype := Some "text/html; charset=utf-8"; payload := Html page |}
      end
  end.

(** ServeHTTP, server.go:129-139 *)
Definition serve (path input : string) : option response :=
  if String.eqb path "/" then index
  else if String.eqb path "/generate.json" then generate input
  else Some {| status := 404; ctype := None; payload := NotFound |}.

(** The endpoint answers success exactly when every stage succeeds, with the code produced. *)
Theorem generate_success input code :
  (exists r, serve "/generate.json" input = Some r /\ payload r = Json true "code" code) <->
  (exists sc c v, read input = Done_ sc /\ decode input = Done_ c /\ build sc c = Done_ v /\ process v = Done_ code).
Proof.
  unfold serve. cbn [String.eqb Ascii.eqb Bool.eqb]. unfold generate. split.
  - intros (r & H & P).
    destruct (read input) as [sc|m|]; [|injection H as <-; discriminate P|discriminate].
    destruct (decode input) as [c|m|]; [|injection H as <-; discriminate P|discriminate].
    destruct (build sc c) as [v|m|] eqn:B; [|injection H as <-; discriminate P|discriminate].
    destruct (process v) as [x|m|] eqn:G; [|injection H as <-; discriminate P|discriminate].
    injection H as <-. injection P as ->. exists sc, c, v. auto.
  - intros (sc & c & v & -> & -> & -> & ->). eexists. split; reflexivity.
Qed.

(** It answers failure with the message of the first stage that fails. *)
Theorem generate_failure input m :
  (exists r, serve "/generate.json" input = Some r /\ payload r = Json false "message" m) <->
  read input = Failed m \/
  (exists sc, read input = Done_ sc /\
    (decode input = Failed m \/
     exists c, decode input = Done_ c /\
       (build sc c = Failed m \/ exists v, build sc c = Done_ v /\ process v = Failed m))).
Proof.
  unfold serve. cbn [String.eqb Ascii.eqb Bool.eqb]. unfold generate. split.
  - intros (r & H & P).
    destruct (read input) as [sc|m1|]; [right; exists sc; split; [reflexivity|]|left; injection H as <-; now injection P as ->|discriminate].
    destruct (decode input) as [c|m1|]; [right; exists c; split; [reflexivity|]|left; injection H as <-; now injection P as ->|discriminate].
    destruct (build sc c) as [v|m1|] eqn:B; [right; exists v; split; [reflexivity|]|left; injection H as <-; now injection P as ->|discriminate].
    destruct (process v) as [x|m1|] eqn:G; [injection H as <-; discriminate P|injection H as <-; now injection P as ->|discriminate].
  - intros [->|(sc & -> & [->|(c & -> & [->|(v & -> & ->)])])]; eexists; split; reflexivity.
Qed.

(** Any answer of the endpoint has status 200 and is one of those two; a failure carries no
    content type. *)
Theorem generate_shape input r : serve "/generate.json" input = Some r ->
  status r = 200 /\
  ((exists code, payload r = Json true "code" code /\ ctype r = Some "application/json; charset=utf-8") \/
   (exists m, payload r = Json false "message" m /\ ctype r = None)).
Proof.
  unfold serve. cbn [String.eqb Ascii.eqb Bool.eqb]. unfold generate, json_failure.
  destruct (read input) as [sc|m|]; [|intros [= <-]; cbn; eauto 6|discriminate].
  destruct (decode input) as [c|m|]; [|intros [= <-]; cbn; eauto 6|discriminate].
  destruct (build sc c) as [v|m|]; [|intros [= <-]; cbn; eauto 6|discriminate].
  destruct (process v) as [x|m|]; [intros [= <-]; cbn; eauto 6|intros [= <-]; cbn; eauto 6|discriminate].
Qed.

(** Every other path: 404 except for the page itself. *)
Theorem other_paths path input : path <> "/generate.json" ->
  (path <> "/" -> exists r, serve path input = Some r /\ status r = 404) /\
  (path = "/" -> forall r, serve path input = Some r -> status r = 200 \/ status r = 500).
Proof.
  intros N. unfold serve. split.
  - intros N1. apply String.eqb_neq in N. apply String.eqb_neq in N1. rewrite N1, N. eexists. split; reflexivity.
  - intros -> r. cbn [String.eqb Ascii.eqb Bool.eqb]. unfold index.
    destruct get_templates as [t|m|]; [|intros [= <-]; auto|discriminate].
    destruct (execute t) as [p|m|]; [|intros [= <-]; auto|discriminate]. intros [= <-]; auto.
Qed.
End Handler.

(** A request that goes through, and one that fails while building. *)
Example handler_run :
  serve (fun s => Done_ s) (fun _ => Done_ tt) (fun _ _ => Done_ 5) (fun _ => Done_ "code") (Done_ tt) (fun _ => Done_ "page") "/generate.json" "{}"
    = Some {| status := 200; ctype := Some "application/json; charset=utf-8"; payload := Json true "code" "code" |} /\
  serve (fun s => Done_ s) (fun _ => Done_ tt) (fun _ _ => @Failed nat "nil schema") (fun _ => Done_ "code") (Done_ tt) (fun _ => Done_ "page") "/generate.json" "{}"
    = Some {| status := 200; ctype := None; payload := Json false "message" "nil schema" |}.
Proof. split; reflexivity. Qed.

(** ** The template cache under concurrent requests, server.go:86-123 *)
Inductive pc :=
| Idle
| Wait                          (* s.mutex.Lock() *)
| In_                           (* if t := s.templates; t != nil *)
| Parse                         (* build and parse the template *)
| Store (i : nat)               (* s.templates = root *)
| Out (x : option nat).         (* deferred Unlock, return; None: parse error *)

(** a template is named by the parse that produced it *)
Inductive tevent := TParsed (t i : nat) | TReturned (t : nat) (x : option nat).

Record state := { owner : option nat; cached : option nat; fresh : nat; pcs : nat -> pc; todo : nat -> nat; log : list tevent }.

Inductive step (t : nat) (s : state) : state -> Prop :=
| st_call n : pcs s t = Idle -> todo s t = S n ->
    step t s {| owner := owner s; cached := cached s; fresh := fresh s; pcs := upd (pcs s) t Wait; todo := upd (todo s) t n; log := log s |}
| st_lock : pcs s t = Wait -> owner s = None ->
    step t s {| owner := Some t; cached := cached s; fresh := fresh s; pcs := upd (pcs s) t In_; todo := todo s; log := log s |}
| st_hit i : pcs s t = In_ -> cached s = Some i ->
    step t s {| owner := owner s; cached := cached s; fresh := fresh s; pcs := upd (pcs s) t (Out (Some i)); todo := todo s; log := log s |}
| st_miss : pcs s t = In_ -> cached s = None ->
    step t s {| owner := owner s; cached := cached s; fresh := fresh s; pcs := upd (pcs s) t Parse; todo := todo s; log := log s |}
| st_parsed : pcs s t = Parse ->
    step t s {| owner := owner s; cached := cached s; fresh := S (fresh s); pcs := upd (pcs s) t (Store (fresh s)); todo := todo s; log := TParsed t (fresh s) :: log s |}
| st_bad : pcs s t = Parse ->
    step t s {| owner := owner s; cached := cached s; fresh := fresh s; pcs := upd (pcs s) t (Out None); todo := todo s; log := log s |}
| st_store i : pcs s t = Store i ->
    step t s {| owner := owner s; cached := Some i; fresh := fresh s; pcs := upd (pcs s) t (Out (Some i)); todo := todo s; log := log s |}
| st_ret x : pcs s t = Out x ->
    step t s {| owner := None; cached := cached s; fresh := fresh s; pcs := upd (pcs s) t Idle; todo := todo s; log := TReturned t x :: log s |}.

Definition init (reqs : nat -> nat) : state :=
  {| owner := None; cached := None; fresh := 0; pcs := fun _ => Idle; todo := reqs; log := [] |}.

Inductive reachable (reqs : nat -> nat) : state -> Prop :=
| re_init : reachable reqs (init reqs)
| re_step s t s' : reachable reqs s -> step t s s' -> reachable reqs s'.

Fixpoint parses (l : list tevent) : list nat :=
  match l with TParsed _ i :: r => i :: parses r | _ :: r => parses r | [] => [] end.

Definition inside (p : pc) : bool := match p with Idle | Wait => false | _ => true end.
Definition told (s : state) (i : nat) : Prop := cached s = Some i.

Record inv (s : state) : Prop := {
  i_owner : forall t, owner s = Some t <-> inside (pcs s t) = true;
  i_log : forall t i, In (TReturned t (Some i)) (log s) -> cached s = Some i;
  i_out : forall t i, pcs s t = Out (Some i) -> cached s = Some i;
  i_parse : forall t, pcs s t = Parse -> cached s = None;
  i_store : forall t i, pcs s t = Store i -> cached s = None /\ parses (log s) = [i];
  i_cached : forall i, cached s = Some i -> parses (log s) = [i];
  i_empty : cached s = None -> (forall t i, pcs s t <> Store i) -> parses (log s) = []
}.

Ltac upds t0 t := destruct (Nat.eq_dec t0 t) as [->|]; [rewrite ?upd_same in *|rewrite ?upd_other in * by auto].

Lemma inv_step t s s' : inv s -> step t s s' -> inv s'.
Proof.
  intros [O L U P T C E] H.
  assert (X : forall t1, inside (pcs s t) = true -> inside (pcs s t1) = true -> t1 = t).
  { intros t1 A B. apply O in A. apply O in B. congruence. }
  assert (Y : forall t1, inside (pcs s t) = true -> t1 <> t -> pcs s t1 = Idle \/ pcs s t1 = Wait).
  { intros t1 A B. destruct (pcs s t1) eqn:Q; auto; destruct B; apply (X t1 A); now rewrite Q. }
  destruct H; constructor; cbn [owner cached fresh pcs todo log parses In].
  all: try (intros t0; pose proof (O t0) as O0; pose proof (O t) as Ot; rewrite ?H in Ot; cbn [inside] in Ot; upds t0 t; cbn [inside]; intuition congruence).
  all: try (intros t0 i0; upds t0 t; [discriminate|apply U]).
  all: try (intros t0 i0; upds t0 t; [discriminate|apply T]).
  all: try (intros t0; upds t0 t; [discriminate|apply P]).
  all: try assumption.
  all: try (intros CN NS; apply E; [assumption|]; intros t1 i1 Q; destruct (Nat.eq_dec t1 t) as [->|D];
            [congruence|apply (NS t1 i1); rewrite upd_other by auto; assumption]).
  all: try rewrite H in Y; try specialize (fun t1 => Y t1 eq_refl).
  - intros t0 i0. upds t0 t; [intros [= ->]; assumption|apply U].
  - intros t0 i0 [Q|Q]; [discriminate|eauto].
  - intros t0 i0 Q. assert (N : cached s = None) by (eapply P; eassumption). split; [assumption|].
    assert (parses (log s) = []) as ->.
    { apply E; [assumption|]. intros t1 i1 Q1. destruct (Nat.eq_dec t1 t) as [->|D]; [congruence|].
      destruct (Y _ D); congruence. }
    upds t0 t; [now injection Q as ->|]. destruct (Y t0); congruence.
  - intros i0 Q. rewrite (P _ H) in Q. discriminate.
  - intros _ NS. exfalso. apply (NS t (fresh s)). apply upd_same.
  - intros t0 i0 Q. apply L in Q. destruct (T _ _ H). congruence.
  - intros t0 i0. upds t0 t; [intros [= ->]; reflexivity|]. destruct (Y t0); congruence.
  - intros t0. upds t0 t; [discriminate|]. destruct (Y t0); congruence.
  - intros t0 i0. upds t0 t; [discriminate|]. destruct (Y t0); congruence.
  - intros i0 [= <-]. now apply (T _ _ H).
  - discriminate.
  - intros t0 i0 [[= -> ->]|Q]; eauto.
Qed.

Lemma reachable_inv reqs s : reachable reqs s -> inv s.
Proof.
  induction 1; [|eapply inv_step; eauto]. constructor; cbn; try discriminate; auto.
  - intros t. split; discriminate.
  - intros t i [].
Qed.

(** In every interleaving the template is parsed successfully at most once, and all requests
    that get a template get that one. *)
Theorem template_once reqs s : reachable reqs s ->
  length (parses (log s)) <= 1 /\
  forall t i, In (TReturned t (Some i)) (log s) -> parses (log s) = [i].
Proof.
  intros R. apply reachable_inv in R. split.
  - destruct (cached s) as [i|] eqn:C; [rewrite (i_cached _ R _ C); cbn; lia|].
    destruct (owner s) as [t|] eqn:O.
    + destruct (pcs s t) eqn:P.
      5: rewrite (proj2 (i_store _ R _ _ P)); cbn; lia.
      all: rewrite (i_empty _ R C); [cbn; lia|].
      all: intros t1 i1 Q; assert (owner s = Some t1) as E by (apply (i_owner _ R); now rewrite Q); congruence.
    + rewrite (i_empty _ R C); [cbn; lia|].
      intros t1 i1 Q; assert (owner s = Some t1) as E by (apply (i_owner _ R); now rewrite Q); congruence.
  - intros t i Q. apply (i_cached _ R). eapply i_log; eassumption.
Qed.

(** The handlers never deadlock on the mutex. *)
Theorem template_no_deadlock reqs s t : reachable reqs s -> ~ (pcs s t = Idle /\ todo s t = 0) -> exists t' s', step t' s s'.
Proof.
  intros R F. apply reachable_inv in R.
  assert (M : forall t, inside (pcs s t) = true -> exists s', step t s s').
  { intros t1 I. destruct (pcs s t1) eqn:P; try discriminate I.
    - destruct (cached s) eqn:C; eexists; [eapply st_hit|eapply st_miss]; eassumption.
    - eexists. eapply st_bad; eassumption.
    - eexists. eapply st_store; eassumption.
    - eexists. eapply st_ret; eassumption. }
  destruct (inside (pcs s t)) eqn:I; [destruct (M _ I); eauto|]. destruct (pcs s t) eqn:P; try discriminate I.
  - destruct (todo s t) eqn:T; [exfalso; auto|]. exists t. eexists. eapply st_call; eassumption.
  - destruct (owner s) as [t1|] eqn:O.
    + apply (i_owner _ R) in O. destruct (M _ O); eauto.
    + exists t. eexists. eapply st_lock; eassumption.
Qed.

(** Two requests, the second waiting while the first parses; both get template 0. *)
Inductive runs : state -> state -> Prop :=
| runs_0 s : runs s s
| runs_S s t s1 s2 : step t s s1 -> runs s1 s2 -> runs s s2.

Lemma runs_reachable reqs s0 s : runs s0 s -> reachable reqs s0 -> reachable reqs s.
Proof. intros H. induction H as [|s t s1 s2 H HR IH]; [auto|]. intros. apply IH. eapply re_step; eauto. Qed.

Local Ltac go g c := eapply runs_S with (t := g); [eapply c; reflexivity|cbn [init owner cached fresh pcs todo log]].

Example template_run : exists s, reachable (fun t => if Nat.ltb t 2 then 1 else 0) s /\
  log s = [TReturned 1 (Some 0); TReturned 0 (Some 0); TParsed 0 0].
Proof.
  eexists. split.
  - eapply runs_reachable; [|apply re_init].
    go 0 st_call. go 0 st_lock. go 1 st_call. go 0 st_miss. go 0 st_parsed. go 0 st_store. go 0 st_ret.
    go 1 st_lock. go 1 st_hit. go 1 st_ret. apply runs_0.
  - reflexivity.
Qed.
