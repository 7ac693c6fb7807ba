(** Concurrency: reference map, registry, server

    Only statements: each theorem is proved in the file named above it. *)

From Coq Require Import List String ZArith Bool SpecFloat QArith.
From Verif Require Import Base GoFloat FloatSpec FloatProofs GoValue Formats Maybe HostSpec
  Constraint StructInfo Validate Fuel Reach ReadOnly Frame Preserve
  Spec SpecSound SpecObj SpecMain ConstrInd Terminate Scalars Structure
  Composite Refuted DocSpec Linear RefConc RegConc Server Fluent
  MaybeProofs Simulate StructProofs DefaultProofs StructCases NoPanic Repeat Cases
  DocDeviates Builder BuildSpec BuildProofs Local BuildRefs BuildErr Height
  SchemaSpec SchemaForm SchemaRegular SchemaMeans SchemaMain BuildCases Extras GoText
  GoLang GoEval Generator GenLex GenParse GenCode GenLike GenSpec
  GenFaith GenRound GenObj GenMain GenProcess GenTheorems GenLoss GenDet
  GenCases EndToEnd EndCases Cli CliProofs CliCases Heap HeapProofs
  HeapCases Custom CustomProofs CustomCases Witness WitnessBuild.
Import ListNotations.
Open Scope nat_scope.
Open Scope string_scope.
Open Scope list_scope.

(** ** C31. A reference resolves once

    In every history of SetReference/GetReference/Resolved calls by any number of goroutines, all successful Resolved calls on one reference constraint return the same constraint, which is one that was registered under its name; later SetReference calls do not change it.
    Status: proved.  *)

(* RefConc.v *)
Theorem C31_linearizable :
  forall (rname : nat -> string) (prog : nat -> list RefConc.call) (s : RefConc.state),
  RefConc.reachable rname prog s ->
  (exists a : astate, serial (RefConc.a_call rname) a_init (effects (RefConc.log s)) a) /\
  (forall t : nat, exists p : phase RefConc.call RefConc.result, orderly t (RefConc.log s) p) /\
  (forall t : nat,
   exists rest : list RefConc.call, prog t = rev (begun t (RefConc.log s)) ++ rest).
Proof. exact (@RefConc.linearizable). Qed.
Print Assumptions C31_linearizable.

(* RefConc.v *)
Theorem C31_resolved_stable :
  forall (rname : nat -> string) (prog : nat -> list RefConc.call) 
    (s : RefConc.state) (r t1 t2 : nat) (c1 c2 : constr),
  RefConc.reachable rname prog s ->
  In (ERet t1 (CResolve r) (RConstr c1)) (RefConc.log s) ->
  In (ERet t2 (CResolve r) (RConstr c2)) (RefConc.log s) ->
  c1 <> CNil -> c2 <> CNil -> c1 = c2 /\ registered (effects (RefConc.log s)) (rname r) c1.
Proof. exact (@RefConc.resolved_stable). Qed.
Print Assumptions C31_resolved_stable.

(* RefConc.v *)
Example C31_resolve_run :
  let prog :=
    fun t : nat =>
    match t with
    | 0 => [CSet "a" CEmpty; CSet "a" CNull]
    | 1 => [CResolve 0; CResolve 0]
    | S (S _) => []
    end in
  exists s : RefConc.state,
    RefConc.reachable (fun _ : nat => "a") prog s /\
    sget "a" (RefConc.refs s) = Some CNull /\
    In (ERet 1 (CResolve 0) (RConstr CEmpty)) (RefConc.log s) /\
    RefConc.finished s 0 /\ RefConc.finished s 1.
Proof. exact (@RefConc.resolve_run). Qed.

(** ** C32. ConstraintMap is a map

    GetReference returns the constraint most recently registered under that name and an error iff none was; Len is the number of distinct names registered.
    Status: proved.  *)

(* RefConc.v *)
Theorem C32_linearizable :
  forall (rname : nat -> string) (prog : nat -> list RefConc.call) (s : RefConc.state),
  RefConc.reachable rname prog s ->
  (exists a : astate, serial (RefConc.a_call rname) a_init (effects (RefConc.log s)) a) /\
  (forall t : nat, exists p : phase RefConc.call RefConc.result, orderly t (RefConc.log s) p) /\
  (forall t : nat,
   exists rest : list RefConc.call, prog t = rev (begun t (RefConc.log s)) ++ rest).
Proof. exact (@RefConc.linearizable). Qed.
Print Assumptions C32_linearizable.

(* RefConc.v *)
Theorem C32_get_latest :
  forall (rname : nat -> string) (prog : nat -> list RefConc.call) 
    (s : RefConc.state) (l1 l2 : list (nat * RefConc.call * RefConc.result)) 
    (t : nat) (n : string) (x : RefConc.result),
  RefConc.reachable rname prog s ->
  effects (RefConc.log s) = l1 ++ (t, CGet n, x) :: l2 ->
  x = match latest l2 n with
      | Some c => RConstr c
      | None => RErr
      end.
Proof. exact (@RefConc.get_latest). Qed.
Print Assumptions C32_get_latest.

(* RefConc.v *)
Theorem C32_len_counts :
  forall (rname : nat -> string) (prog : nat -> list RefConc.call) 
    (s : RefConc.state) (l1 l2 : list (nat * RefConc.call * RefConc.result)) 
    (t : nat) (x : RefConc.result),
  RefConc.reachable rname prog s ->
  effects (RefConc.log s) = l1 ++ (t, CLen, x) :: l2 ->
  x = RLen (Datatypes.length (nodup string_dec (RefConc.names l2))).
Proof. exact (@RefConc.len_counts). Qed.
Print Assumptions C32_len_counts.

(* RefConc.v *)
Example C32_resolve_run :
  let prog :=
    fun t : nat =>
    match t with
    | 0 => [CSet "a" CEmpty; CSet "a" CNull]
    | 1 => [CResolve 0; CResolve 0]
    | S (S _) => []
    end in
  exists s : RefConc.state,
    RefConc.reachable (fun _ : nat => "a") prog s /\
    sget "a" (RefConc.refs s) = Some CNull /\
    In (ERet 1 (CResolve 0) (RConstr CEmpty)) (RefConc.log s) /\
    RefConc.finished s 0 /\ RefConc.finished s 1.
Proof. exact (@RefConc.resolve_run). Qed.

(** ** C33. Resolving and registering never deadlock

    In every interleaving of Resolved, GetReference and SetReference calls there is always an enabled step until all calls have finished, and the two mutexes are each held by at most one thread.
    Status: proved.  *)

(* RefConc.v *)
Theorem C33_no_deadlock :
  forall (rname : nat -> string) (prog : nat -> list RefConc.call) 
    (s : RefConc.state) (t : nat),
  RefConc.reachable rname prog s ->
  ~ RefConc.finished s t -> exists (t' : nat) (s' : RefConc.state), RefConc.step rname t' s s'.
Proof. exact (@RefConc.no_deadlock). Qed.
Print Assumptions C33_no_deadlock.

(* RefConc.v *)
Theorem C33_work_shrinks :
  forall (rname : nat -> string) (t : nat) (s s' : RefConc.state),
  RefConc.step rname t s s' ->
  RefConc.pending s' t < RefConc.pending s t /\
  (forall t' : nat, t' <> t -> RefConc.pending s' t' = RefConc.pending s t').
Proof. exact (@RefConc.work_shrinks). Qed.
Print Assumptions C33_work_shrinks.

(* RefConc.v *)
Theorem C33_all_calls_return :
  forall (rname : nat -> string) (n : nat) (prog : nat -> list RefConc.call)
    (s : RefConc.state) (k : nat),
  (forall u : nat, n <= u -> prog u = []) ->
  RefConc.runs rname k (RefConc.init prog) s ->
  k <= 8 * list_sum (map (fun u : nat => Datatypes.length (prog u)) (seq 0 n)) /\
  ((forall (t : nat) (s' : RefConc.state), ~ RefConc.step rname t s s') ->
   forall t : nat, RefConc.finished s t).
Proof. exact (@RefConc.all_calls_return). Qed.
Print Assumptions C33_all_calls_return.

(* RefConc.v *)
Theorem C33_no_data_race :
  forall (rname : nat -> string) (prog : nat -> list RefConc.call) 
    (s : RefConc.state) (t1 t2 : nat),
  RefConc.reachable rname prog s ->
  t1 <> t2 ->
  (forall t : nat, ~ In CLen (prog t)) ->
  ~ (map_access (RefConc.pcs s t1) = true /\ map_access (RefConc.pcs s t2) = true) /\
  (forall r : nat,
   ~ (ref_access (RefConc.pcs s t1) = Some r /\ ref_access (RefConc.pcs s t2) = Some r)).
Proof. exact (@RefConc.no_data_race). Qed.
Print Assumptions C33_no_data_race.

(* RefConc.v *)
Example C33_resolve_run :
  let prog :=
    fun t : nat =>
    match t with
    | 0 => [CSet "a" CEmpty; CSet "a" CNull]
    | 1 => [CResolve 0; CResolve 0]
    | S (S _) => []
    end in
  exists s : RefConc.state,
    RefConc.reachable (fun _ : nat => "a") prog s /\
    sget "a" (RefConc.refs s) = Some CNull /\
    In (ERet 1 (CResolve 0) (RConstr CEmpty)) (RefConc.log s) /\
    RefConc.finished s 0 /\ RefConc.finished s 1.
Proof. exact (@RefConc.resolve_run). Qed.

(** ** C39. Struct info cache is transparent

    In every interleaving of Lookup/Register calls by any number of goroutines, whatever is returned for a type is what extracting it afresh gives, and the registry never holds anything else.
    Status: proved.  *)

(* RegConc.v *)
Theorem C39_registry_linearizable :
  forall (info : Type) (ext : nat -> option info) (prog : nat -> list RegConc.call)
    (s : RegConc.state),
  RegConc.reachable ext prog s ->
  (exists a : nat -> bool,
     serial (a_call ext) (fun _ : nat => false) (effects (RegConc.log s)) a) /\
  (forall t : nat, exists p : phase RegConc.call result, orderly t (RegConc.log s) p) /\
  (forall t : nat,
   exists rest : list RegConc.call, prog t = rev (begun t (RegConc.log s)) ++ rest).
Proof. exact (@RegConc.registry_linearizable). Qed.
Print Assumptions C39_registry_linearizable.

(* RegConc.v *)
Theorem C39_registry_results :
  forall (info : Type) (ext : nat -> option info) (prog : nat -> list RegConc.call)
    (s : RegConc.state) (l1 l2 : list (nat * RegConc.call * result)) 
    (g : nat) (c : RegConc.call) (x : result),
  RegConc.reachable ext prog s ->
  effects (RegConc.log s) = l1 ++ (g, c, x) :: l2 ->
  match c with
  | CLookup t =>
      x = RFound None /\
      (forall (g' : nat) (y : result), In (g', CRegister t, y) l2 -> y = RPanic) \/
      (exists i : info,
         ext t = Some i /\
         x = RFound (Some i) /\ (exists g' : nat, In (g', CRegister t, RFound (Some i)) l2))
  | CRegister t => x = match ext t with
                       | Some i => RFound (Some i)
                       | None => RPanic
                       end
  end.
Proof. exact (@RegConc.registry_results). Qed.
Print Assumptions C39_registry_results.

(* RegConc.v *)
Theorem C39_registry_race_free :
  forall (info : Type) (ext : nat -> option info) (prog : nat -> list RegConc.call)
    (s : RegConc.state) (g1 g2 : nat),
  RegConc.reachable ext prog s ->
  g1 <> g2 ->
  ~ (table_write (RegConc.pcs s g1) = true /\ table_access (RegConc.pcs s g2) = true).
Proof. exact (@RegConc.registry_race_free). Qed.
Print Assumptions C39_registry_race_free.

(* RegConc.v *)
Theorem C39_registry_no_deadlock :
  forall (info : Type) (ext : nat -> option info) (prog : nat -> list RegConc.call)
    (s : RegConc.state) (g : nat),
  RegConc.reachable ext prog s ->
  ~ finished s g -> exists (g' : nat) (s' : RegConc.state), RegConc.step ext g' s s'.
Proof. exact (@RegConc.registry_no_deadlock). Qed.
Print Assumptions C39_registry_no_deadlock.

(* RegConc.v *)
Theorem C39_registry_work_shrinks :
  forall (info : Type) (ext : nat -> option info) (t : nat) (s s' : RegConc.state),
  RegConc.step ext t s s' ->
  pending s' t < pending s t /\ (forall t' : nat, t' <> t -> pending s' t' = pending s t').
Proof. exact (@RegConc.registry_work_shrinks). Qed.
Print Assumptions C39_registry_work_shrinks.

(* RegConc.v *)
Example C39_register_twice :
  let ext := fun t : nat => Some (t + 100) in
  let prog := fun g : nat => match g with
                             | S (S _) => []
                             | _ => [CRegister 7]
                             end in
  exists s : RegConc.state,
    RegConc.reachable ext prog s /\
    finished s 0 /\
    finished s 1 /\
    RegConc.reg s 7 = Some 107 /\
    effects (RegConc.log s) =
    [(1, CRegister 7, RFound (Some 107)); (0, CRegister 7, RFound (Some 107))].
Proof. exact (@RegConc.register_twice). Qed.

(** ** C53. Playground endpoint

    The generate endpoint answers success=true with the generated code iff reading, decoding, building and generating all succeed, and success=false with the first failing stage's message otherwise; other paths than / and /generate.json get 404.
    Status: proved.  *)

(* Server.v *)
Theorem C53_generate_success :
  forall (schema ctx validator tmpl : Type) (read : string -> outcome schema)
    (decode : string -> outcome ctx) (build : schema -> ctx -> outcome validator)
    (process : validator -> outcome string) (get_templates : outcome tmpl)
    (execute : tmpl -> outcome string) (input code : string),
  (exists r : response,
     serve read decode build process get_templates execute "/generate.json" input = Some r /\
     payload r = Json true "code" code) <->
  (exists (sc : schema) (c : ctx) (v : validator),
     read input = Done_ sc /\
     decode input = Done_ c /\ build sc c = Done_ v /\ process v = Done_ code).
Proof. exact (@Server.generate_success). Qed.
Print Assumptions C53_generate_success.

(* Server.v *)
Theorem C53_generate_failure :
  forall (schema ctx validator tmpl : Type) (read : string -> outcome schema)
    (decode : string -> outcome ctx) (build : schema -> ctx -> outcome validator)
    (process : validator -> outcome string) (get_templates : outcome tmpl)
    (execute : tmpl -> outcome string) (input m : string),
  (exists r : response,
     serve read decode build process get_templates execute "/generate.json" input = Some r /\
     payload r = Json false "message" m) <->
  read input = Failed m \/
  (exists sc : schema,
     read input = Done_ sc /\
     (decode input = Failed m \/
      (exists c : ctx,
         decode input = Done_ c /\
         (build sc c = Failed m \/
          (exists v : validator, build sc c = Done_ v /\ process v = Failed m))))).
Proof. exact (@Server.generate_failure). Qed.
Print Assumptions C53_generate_failure.

(* Server.v *)
Theorem C53_generate_shape :
  forall (schema ctx validator tmpl : Type) (read : string -> outcome schema)
    (decode : string -> outcome ctx) (build : schema -> ctx -> outcome validator)
    (process : validator -> outcome string) (get_templates : outcome tmpl)
    (execute : tmpl -> outcome string) (input : string) (r : response),
  serve read decode build process get_templates execute "/generate.json" input = Some r ->
  status r = 200 /\
  ((exists code : string,
      payload r = Json true "code" code /\ ctype r = Some "application/json; charset=utf-8") \/
   (exists m : string, payload r = Json false "message" m /\ ctype r = None)).
Proof. exact (@Server.generate_shape). Qed.
Print Assumptions C53_generate_shape.

(* Server.v *)
Theorem C53_other_paths :
  forall (schema ctx validator tmpl : Type) (read : string -> outcome schema)
    (decode : string -> outcome ctx) (build : schema -> ctx -> outcome validator)
    (process : validator -> outcome string) (get_templates : outcome tmpl)
    (execute : tmpl -> outcome string) (path input : string),
  path <> "/generate.json" ->
  (path <> "/" ->
   exists r : response,
     serve read decode build process get_templates execute path input = Some r /\
     status r = 404) /\
  (path = "/" ->
   forall r : response,
   serve read decode build process get_templates execute path input = Some r ->
   status r = 200 \/ status r = 500).
Proof. exact (@Server.other_paths). Qed.
Print Assumptions C53_other_paths.

(* Server.v *)
Example C53_handler_run :
  serve (fun s : string => Done_ s) (fun _ : string => Done_ tt)
    (fun (_ : string) (_ : unit) => Done_ 5) (fun _ : nat => Done_ "code") 
    (Done_ tt) (fun _ : unit => Done_ "page") "/generate.json" "{}" =
  Some
    {|
      status := 200;
      ctype := Some "application/json; charset=utf-8";
      payload := Json true "code" "code"
    |} /\
  serve (fun s : string => Done_ s) (fun _ : string => Done_ tt)
    (fun (_ : string) (_ : unit) => Failed "nil schema") (fun _ : nat => Done_ "code")
    (Done_ tt) (fun _ : unit => Done_ "page") "/generate.json" "{}" =
  Some {| status := 200; ctype := None; payload := Json false "message" "nil schema" |}.
Proof. exact (@Server.handler_run). Qed.

(** ** C54. Page templates are parsed once

    In every sequence of concurrent requests the template is parsed at most once successfully and every request sees the same template.
    Status: proved.  *)

(* Server.v *)
Theorem C54_template_once :
  forall (reqs : nat -> nat) (s : state),
  reachable reqs s ->
  Datatypes.length (parses (log s)) <= 1 /\
  (forall t i : nat, In (TReturned t (Some i)) (log s) -> parses (log s) = [i]).
Proof. exact (@Server.template_once). Qed.
Print Assumptions C54_template_once.

(* Server.v *)
Theorem C54_template_no_deadlock :
  forall (reqs : nat -> nat) (s : state) (t : nat),
  reachable reqs s ->
  ~ (pcs s t = Idle /\ todo s t = 0) -> exists (t' : nat) (s' : state), Server.step t' s s'.
Proof. exact (@Server.template_no_deadlock). Qed.
Print Assumptions C54_template_no_deadlock.

(* Server.v *)
Example C54_template_run :
  exists s : state,
    reachable (fun t : nat => if (t <? 2)%nat then 1 else 0) s /\
    log s = [TReturned 1 (Some 0); TReturned 0 (Some 0); TParsed 0 0].
Proof. exact (@Server.template_run). Qed.

(** ** C58. ConstraintMap is free of data races

    No interleaving of SetReference, GetReference and Len writes the map while another access is in progress. (False of the code: Len takes no lock.) Holds for all programs without Len.
    Status: partial. REFUTED as stated; exact guard proved. *)

(* RefConc.v *)
Theorem C58_race_free_refuted :
  ~ (forall (rname : nat -> string) (prog : nat -> list RefConc.call) (s : RefConc.state) (t1 t2 : nat),
   RefConc.reachable rname prog s ->
   t1 <> t2 -> ~ (map_write (RefConc.pcs s t1) = true /\ map_access (RefConc.pcs s t2) = true)).
Proof. exact (@RefConc.race_free_refuted). Qed.
Print Assumptions C58_race_free_refuted.

(* RefConc.v *)
Theorem C58_no_data_race_partial :
  forall (rname : nat -> string) (prog : nat -> list RefConc.call) 
    (s : RefConc.state) (t1 t2 : nat),
  RefConc.reachable rname prog s ->
  t1 <> t2 ->
  (forall t : nat, ~ In CLen (prog t)) ->
  ~ (map_access (RefConc.pcs s t1) = true /\ map_access (RefConc.pcs s t2) = true) /\
  (forall r : nat,
   ~ (ref_access (RefConc.pcs s t1) = Some r /\ ref_access (RefConc.pcs s t2) = Some r)).
Proof. exact (@RefConc.no_data_race). Qed.
Print Assumptions C58_no_data_race_partial.

