(** Validation: meaning, order, documents, objects, arrays, combinators

    Only statements: each theorem is proved in the file named above it. *)

From Coq Require Import List String ZArith Bool SpecFloat QArith.
From Verif Require Import Base GoFloat FloatSpec FloatProofs GoValue Formats Maybe HostSpec
  Constraint StructInfo Validate Fuel Reach ReadOnly Frame Preserve
  Spec SpecSound SpecObj SpecMain ConstrInd Terminate Scalars Structure
  Composite Refuted DocSpec Linear RefConc RegConc Server Fluent
  MaybeProofs Simulate StructProofs DefaultProofs StructCases NoPanic Repeat Cases
  DocDeviates Builder BuildSpec BuildProofs Local BuildRefs BuildErr Height
  SchemaSpec SchemaForm SchemaRegular SchemaMeans SchemaMain BuildCases Extras GoText
  GoLang GoEval Generator GenLex GenParse GenCode GenLike GenSpec
  GenFaith GenRound GenObj GenMain GenProcess GenTheorems GenLoss GenDet
  GenCases EndToEnd EndCases Cli CliProofs CliCases Heap HeapProofs
  HeapCases Custom CustomProofs CustomCases Witness WitnessBuild.
Import ListNotations.
Open Scope nat_scope.
Open Scope string_scope.
Open Scope list_scope.

(** ** C01. Validate decides exactly the documented meaning of the constraint

    For a constraint built with the fluent API (references resolved through one ConstraintMap) and a decoded document, Validate returns nil exactly when the document satisfies the declarative meaning of the constraint (types, bounds, required/additional/pattern properties, dependencies, items, combinators) and returns an error exactly when it violates it.
    Status: partial. Proved for constraints meeting `regular`, which excludes the features where the code deviates from its documentation: documented_refuted refutes the unguarded statement, documented_lax and documented_strict give, for ten excluded constraints, a document on which the code and the documented meaning disagree. person_regular shows a recursive validator meeting it. *)

(* DocDeviates.v *)
Theorem C01_documented_refuted :
  ~ (forall (E : env) (c : constr) (v : gval) (w : orc) (r : res) (v' : gval) (w' : orc),
   c <> CNil ->
   doc v ->
   Runs E c v w (r, v', w') ->
   (r = Pass <-> Satisfies E c v) /\ ((exists m : string, r = Fail m) <-> Violates E c v)).
Proof. exact (@DocDeviates.documented_refuted). Qed.
Print Assumptions C01_documented_refuted.

(* DocDeviates.v *)
Theorem C01_documented_lax_partial :
  forall c : constr,
  In c [d_required; CObj o_c03; d_shadowed; d_dep_of; d_both] ->
  exists v : gval, doc v /\ too_lax DocDeviates.E0 c v.
Proof. exact (@DocDeviates.documented_lax). Qed.
Print Assumptions C01_documented_lax_partial.

(* DocDeviates.v *)
Theorem C01_documented_strict_partial :
  forall c : constr,
  In c [d_dep_on; d_pos; d_uniq; CStr None (fmt_only "ipv6"); CAny alts_c04] ->
  exists v : gval, doc v /\ too_strict DocDeviates.E0 c v.
Proof. exact (@DocDeviates.documented_strict). Qed.
Print Assumptions C01_documented_strict_partial.

(* DocSpec.v *)
Theorem C01_validate_documented_partial :
  forall (E : env) (n : nat) (c : constr) (v : gval) (w : orc) (r : res) 
    (v' : gval) (w' : orc),
  regular E c ->
  doc v ->
  validate n E c v w = (r, v', w') ->
  match r with
  | Pass => (Satisfies E c v /\ (pure E c -> v' = v)) /\ doc v'
  | Fail _ => Violates E c v
  | Panic _ => False
  | OOF => True
  end.
Proof. exact (@DocSpec.validate_documented). Qed.
Print Assumptions C01_validate_documented_partial.

(* DocSpec.v *)
Theorem C01_documented_run_partial :
  forall (E : env) (c : constr) (v : gval) (w : orc) (r : res) (v' : gval) (w' : orc),
  regular E c ->
  doc v ->
  Runs E c v w (r, v', w') ->
  r = Pass /\ Satisfies E c v /\ ~ Violates E c v \/
  (exists m : string, r = Fail m) /\ Violates E c v /\ ~ Satisfies E c v.
Proof. exact (@DocSpec.documented_run). Qed.
Print Assumptions C01_documented_run_partial.

(* DocSpec.v *)
Theorem C01_documented_exact_partial :
  forall (E : env) (c : constr) (v : gval) (w : orc),
  regular E c ->
  doc v ->
  finite_refs E ->
  guarded E ->
  small E c ->
  exists (r : res) (v' : gval) (w' : orc),
    Runs E c v w (r, v', w') /\
    (r = Pass /\ Satisfies E c v /\ ~ Violates E c v \/
     (exists m : string, r = Fail m) /\ Violates E c v /\ ~ Satisfies E c v).
Proof. exact (@DocSpec.documented_exact). Qed.
Print Assumptions C01_documented_exact_partial.

(* DocSpec.v *)
Theorem C01_Satisfies_not_Violates_partial :
  forall (E : env) (c : constr) (v : gval), Satisfies E c v -> Violates E c v -> False.
Proof. exact (@DocSpec.Satisfies_not_Violates). Qed.
Print Assumptions C01_Satisfies_not_Violates_partial.

(* Cases.v *)
Example C01_person_regular :
  regular env1 root.
Proof. exact (@Cases.person_regular). Qed.

(* Cases.v *)
Example C01_ann_satisfies :
  Satisfies env1 root ann /\ Violates env1 root dup.
Proof. exact (@Cases.ann_satisfies). Qed.

(** ** C02. The verdict does not depend on Go's map iteration order

    Two runs of Validate on equal inputs return the same verdict, and when they pass they leave the same value behind, whatever order Go iterates the property, pattern and dependency maps in, as long as no two patterns of one object match the same unlisted property and no default can be inserted below Any/OneOf/Not or a schema dependency.
    Status: proved. wf/single are the guards named in the statement plus no nil children and comparable enum values. *)

(* Repeat.v *)
Theorem C02_order_independent :
  forall (E : env) (c : constr) (v : gval) (w1 w2 : orc) (r1 r2 : res) 
    (v1 v2 : gval) (w1' w2' : orc),
  wf E c ->
  single E c ->
  jdoc v ->
  Runs E c v w1 (r1, v1, w1') ->
  Runs E c v w2 (r2, v2, w2') -> (r1 = Pass <-> r2 = Pass) /\ (r1 = Pass -> v1 = v2).
Proof. exact (@Repeat.order_independent). Qed.
Print Assumptions C02_order_independent.

(* Cases.v *)
Example C02_ann_all_orders :
  forall w : orc, exists w' : orc, Runs env1 root ann w (Pass, ann', w').
Proof. exact (@Cases.ann_all_orders). Qed.

(* Cases.v *)
Example C02_person_wf :
  wf env1 root /\ single env1 root /\ stable env1 root.
Proof. exact (@Cases.person_wf). Qed.

(** ** C03. Every pattern matching a property is enforced

    When a property name matches several PatternProperties, the value is accepted only if it satisfies all of their constraints, independently of iteration order. (False of the code: only one matching pattern is applied, and which one depends on map order.)
    Status: partial. REFUTED as stated; exact guard proved. matched_checked: a passing object satisfies some matching pattern for each unlisted matching name. *)

(* Refuted.v *)
Theorem C03_every_pattern_refuted :
  ~ (forall (E : env) (o : objcfg) (T ET : string) (m : list (string * gval)) 
     (w : orc) (v' : gval) (w' : orc) (k : string) (x : gval) (p : nat * string) 
     (c : constr),
   ssorted (o_props o) ->
   ssorted m ->
   Runs E (CObj o) ({{T, ET}} m) w (Pass, v', w') ->
   sget k m = Some x ->
   sget k (o_props o) = None -> In (p, c) (o_pats o) -> e_rx E (snd p) k = true -> ~ Fails E c x).
Proof. exact (@Refuted.every_pattern_refuted). Qed.
Print Assumptions C03_every_pattern_refuted.

(* Refuted.v *)
Theorem C03_pattern_order_matters_partial :
  exists (E : env) (c : constr) (v : gval) (w1 w2 : orc),
    (exists (v' : gval) (w' : orc), Runs E c v w1 (Pass, v', w')) /\
    (exists (m : string) (v' : gval) (w' : orc), Runs E c v w2 (Fail m, v', w')).
Proof. exact (@Refuted.pattern_order_matters). Qed.
Print Assumptions C03_pattern_order_matters_partial.

(* Composite.v *)
Theorem C03_matched_checked_partial :
  forall (E : env) (o : objcfg) (T ET : string) (m : list (string * gval)) 
    (w : orc) (v' : gval) (w' : orc) (k : string) (x : gval) (p : nat * string) 
    (c : constr),
  ssorted (o_props o) ->
  ssorted m ->
  Runs E (CObj o) ({{T, ET}} m) w (Pass, v', w') ->
  sget k m = Some x ->
  sget k (o_props o) = None ->
  In (p, c) (o_pats o) ->
  e_rx E (snd p) k = true ->
  exists (p' : nat * string) (c' : constr) (x' : gval),
    In (p', c') (o_pats o) /\ e_rx E (snd p') k = true /\ Passes E c' x x'.
Proof. exact (@Composite.matched_checked). Qed.
Print Assumptions C03_matched_checked_partial.

(* Witness.v *)
Example C03_full_run :
  ssorted (o_props o_full) /\
  ssorted m_full /\
  quiet_deps env1 o_full /\ Runs env1 (CObj o_full) (jobj m_full) [] (Pass, jobj m_full', []).
Proof. exact (@Witness.full_run). Qed.

(* Witness.v *)
Example C03_full_rejects :
  Forall (fun m : list (string * gval) => ssorted m /\ Fails env1 (CObj o_full) (jobj m))
    broken.
Proof. exact (@Witness.full_rejects). Qed.

(** ** C04. A failing alternative leaves no trace

    When Any, OneOf or Not tries a child constraint and that child rejects the value, the value is unchanged, so that later alternatives see the caller's input. (False of the code: defaults inserted by the failing child stay, and can flip the overall verdict depending on map order.)
    Status: partial. REFUTED as stated; exact guard proved. Without reachable defaults nothing is ever changed (validate_readonly). *)

(* Refuted.v *)
Theorem C04_failure_leaves_no_trace_refuted :
  ~ (forall (E : env) (c : constr) (v : gval) (w : orc) (m : string) (v' : gval) (w' : orc),
   Runs E c v w (Fail m, v', w') -> v' = v).
Proof. exact (@Refuted.failure_leaves_no_trace_refuted). Qed.
Print Assumptions C04_failure_leaves_no_trace_refuted.

(* Refuted.v *)
Theorem C04_any_complete_refuted :
  ~ (forall (E : env) (l : list constr) (c : constr) (v : gval) (w : orc) (r : res) 
     (v' : gval) (w' : orc),
   In c l -> Decides E c v true -> Runs E (CAny l) v w (r, v', w') -> r = Pass).
Proof. exact (@Refuted.any_complete_refuted). Qed.
Print Assumptions C04_any_complete_refuted.

(* Refuted.v *)
Theorem C04_any_order_matters_partial :
  exists (E : env) (c : constr) (v : gval) (w1 w2 : orc),
    (exists (v' : gval) (w' : orc), Runs E c v w1 (Pass, v', w')) /\
    (exists (m : string) (v' : gval) (w' : orc), Runs E c v w2 (Fail m, v', w')).
Proof. exact (@Refuted.any_order_matters). Qed.
Print Assumptions C04_any_order_matters_partial.

(* ReadOnly.v *)
Theorem C04_validate_readonly_partial :
  forall (E : env) (n : nat) (c : constr) (v : gval) (w : orc) (r : res) 
    (v' : gval) (w' : orc), pure E c -> validate n E c v w = (r, v', w') -> v' = v.
Proof. exact (@ReadOnly.validate_readonly). Qed.
Print Assumptions C04_validate_readonly_partial.

(* Witness.v *)
Example C04_tags_readonly :
  pure env1 p_tags /\
  (exists m : string,
     Runs env1 p_tags (jarr [gstr "a"; gstr "a"]) [] (Fail m, jarr [gstr "a"; gstr "a"], [])) /\
  Runs env1 p_tags (jarr [gstr "a"; gstr "b"]) [] (Pass, jarr [gstr "a"; gstr "b"], []).
Proof. exact (@Witness.tags_readonly). Qed.

(** ** C05. Validate never removes or overwrites data

    Whatever the verdict (pass, error or panic), every entry present in the document before Validate is still present afterwards with the same scalar content, and every added entry was absent before and holds the default declared by some property constraint.
    Status: partial. REFUTED as stated; exact guard proved. validate_ext: holds for every run when no nil default is declared. *)

(* Preserve.v *)
Theorem C05_validate_ext_partial :
  forall (E : env) (n : nat) (c : constr) (v : gval) (w : orc) (r : res) 
    (v' : gval) (w' : orc),
  noind v ->
  (forall d : gval, declared E c d -> Preserve.plain d) ->
  validate n E c v w = (r, v', w') -> ext (declared E c) v v'.
Proof. exact (@Preserve.validate_ext). Qed.
Print Assumptions C05_validate_ext_partial.

(* Refuted.v *)
Theorem C05_no_data_lost_refuted :
  ~ (forall (E : env) (c : constr) (v : gval) (w : orc) (r : res) (v' : gval) (w' : orc),
   Runs E c v w (r, v', w') -> ext (declared E c) v v').
Proof. exact (@Refuted.no_data_lost_refuted). Qed.
Print Assumptions C05_no_data_lost_refuted.

(* Refuted.v *)
Theorem C05_nil_default_removes_entry_partial :
  exists m : string,
    Runs (env0 no_refs) c_c05' (v_c05' [("a", GMaybe (MString false "old"))]) []
      (Fail m, v_c05' [], []).
Proof. exact (@Refuted.nil_default_removes_entry). Qed.
Print Assumptions C05_nil_default_removes_entry_partial.

(* Witness.v *)
Example C05_ann_ext :
  noind ann /\
  (forall d : gval, declared env1 root d -> Preserve.plain d) /\
  Runs env1 root ann [] (Pass, ann', []) /\ ext (declared env1 root) ann ann'.
Proof. exact (@Witness.ann_ext). Qed.

(** ** C06. Validation without defaults is read-only

    If no property constraint reachable from the validator declares a default, Validate leaves the value exactly as it was, whatever the outcome.
    Status: proved.  *)

(* ReadOnly.v *)
Theorem C06_validate_readonly :
  forall (E : env) (n : nat) (c : constr) (v : gval) (w : orc) (r : res) 
    (v' : gval) (w' : orc), pure E c -> validate n E c v w = (r, v', w') -> v' = v.
Proof. exact (@ReadOnly.validate_readonly). Qed.
Print Assumptions C06_validate_readonly.

(* Witness.v *)
Example C06_tags_readonly :
  pure env1 p_tags /\
  (exists m : string,
     Runs env1 p_tags (jarr [gstr "a"; gstr "a"]) [] (Fail m, jarr [gstr "a"; gstr "a"], [])) /\
  Runs env1 p_tags (jarr [gstr "a"; gstr "b"]) [] (Pass, jarr [gstr "a"; gstr "b"], []).
Proof. exact (@Witness.tags_readonly). Qed.

(** ** C07. A passing object has all its listed properties or their defaults

    If Validate of an Object constraint passes on a map, then every name added with AddProp that was absent before is not Required, and now holds its declared non-nil default if there is one; every name that was present is still there.
    Status: proved.  *)

(* Composite.v *)
Theorem C07_object_result :
  forall (E : env) (o : objcfg) (T ET : string) (m : list (string * gval)) 
    (w : orc) (v' : gval) (w' : orc),
  ssorted (o_props o) ->
  ssorted m ->
  quiet_deps E o ->
  Runs E (CObj o) ({{T, ET}} m) w (Pass, v', w') ->
  exists m' : list (string * gval),
    v' = {{T, ET}} m' /\
    (forall k : string, In k (keys m) -> In k (keys m')) /\
    (forall (k : string) (c : constr),
     sget k (o_props o) = Some c ->
     sget k m = None ->
     is_required o k = false /\
     (forall d : gval, Default E c d -> d <> GNil -> sget k m' = Some d) /\
     ((forall d : gval, Default E c d -> d = GNil) -> sget k m' = None)) /\
    (forall k : string, sget k (o_props o) = None -> sget k m = None -> sget k m' = None).
Proof. exact (@Composite.object_result). Qed.
Print Assumptions C07_object_result.

(* Witness.v *)
Example C07_full_run :
  ssorted (o_props o_full) /\
  ssorted m_full /\
  quiet_deps env1 o_full /\ Runs env1 (CObj o_full) (jobj m_full) [] (Pass, jobj m_full', []).
Proof. exact (@Witness.full_run). Qed.

(* Witness.v *)
Example C07_full_consequences :
  seen env1 o_full m_full "card" /\
  seen env1 o_full m_full "x-1" /\
  extra env1 o_full "extra" /\
  is_required o_full "age" = false /\
  sget "age" m_full' = Some (num 0) /\
  sget "mail" m_full' = None /\
  Passes env1 (schema_dep o_full "card") (jobj m_full') (jobj m_full').
Proof. exact (@Witness.full_consequences). Qed.

(** ** C08. Required is enforced for every required name

    Validate rejects any object that lacks a name passed to Required. (False of the code: a required name never given to AddProp is not checked.) It holds exactly for names that were also given to AddProp.
    Status: partial. REFUTED as stated; exact guard proved. *)

(* Refuted.v *)
Theorem C08_required_refuted :
  ~ (forall (E : env) (o : objcfg) (T ET : string) (m : list (string * gval)) 
     (w : orc) (r : res) (v' : gval) (w' : orc) (k : string),
   ssorted (o_props o) ->
   ssorted m ->
   Runs E (CObj o) ({{T, ET}} m) w (r, v', w') ->
   is_required o k = true -> sget k m = None -> r <> Pass).
Proof. exact (@Refuted.required_refuted). Qed.
Print Assumptions C08_required_refuted.

(* Composite.v *)
Theorem C08_required_enforced_partial :
  forall (E : env) (o : objcfg) (T ET : string) (m : list (string * gval)) 
    (w : orc) (r : res) (v' : gval) (w' : orc) (k : string),
  ssorted (o_props o) ->
  ssorted m ->
  Runs E (CObj o) ({{T, ET}} m) w (r, v', w') ->
  In k (keys (o_props o)) -> is_required o k = true -> sget k m = None -> r <> Pass.
Proof. exact (@Composite.required_enforced). Qed.
Print Assumptions C08_required_enforced_partial.

(* Composite.v *)
Theorem C08_required_unlisted_ignored_partial :
  forall (E : env) (o : objcfg) (k : string) (v : gval) (w : orc) (out : out),
  ~ In k (keys (o_props o)) ->
  Runs E (CObj (Constraint.obj_required [k] o)) v w out <-> Runs E (CObj o) v w out.
Proof. exact (@Composite.required_unlisted_ignored). Qed.
Print Assumptions C08_required_unlisted_ignored_partial.

(* Structure.v *)
Theorem C08_obj_run_partial :
  forall (E : env) (o : objcfg) (T ET : string) (m : list (string * gval)) (w : orc),
  ssorted (o_props o) ->
  ssorted m ->
  forall (r : res) (v' : gval) (w' : orc),
  Runs E (CObj o) ({{T, ET}} m) w (r, v', w') ->
  match r with
  | Pass =>
      exists (m1 : list (string * gval)) (ks : list string),
        props_sem (Passes E) E o m m1 /\
        ~ dep_missing E o m /\
        (forall k : string, In k ks <-> seen E o m k /\ active o k = true) /\
        Spec.Chain (Passes E) (map (schema_dep o) ks) ({{T, ET}} m1) v'
  | Fail _ =>
      obj_front_bad (Fails E) E o m \/
      dep_missing E o m \/
      (exists (m1 : list (string * gval)) (ks : list string) (k : string) 
       (v1 : gval),
         props_sem (Passes E) E o m m1 /\
         (forall j : string, In j (k :: ks) -> seen E o m j /\ active o j = true) /\
         Spec.Chain (Passes E) (map (schema_dep o) ks) ({{T, ET}} m1) v1 /\
         Fails E (schema_dep o k) v1)
  | _ => True
  end.
Proof. exact (@Structure.obj_run). Qed.
Print Assumptions C08_obj_run_partial.

(* Witness.v *)
Example C08_full_run :
  ssorted (o_props o_full) /\
  ssorted m_full /\
  quiet_deps env1 o_full /\ Runs env1 (CObj o_full) (jobj m_full) [] (Pass, jobj m_full', []).
Proof. exact (@Witness.full_run). Qed.

(* Witness.v *)
Example C08_full_rejects :
  Forall (fun m : list (string * gval) => ssorted m /\ Fails env1 (CObj o_full) (jobj m))
    broken.
Proof. exact (@Witness.full_rejects). Qed.

(* Witness.v *)
Example C08_unlisted_case :
  ~ In "zzz" (keys (o_props o_full)) /\
  Runs env1 (CObj (Constraint.obj_required ["zzz"] o_full)) (jobj m_full) []
    (Pass, jobj m_full', []) /\
  (forall k : string, In k (keys person_entries) -> ~ extra env1 o_person k) /\
  Runs env1 (CObj (obj_additional CNull o_person)) (jobj person_entries) [] (Pass, ann', []).
Proof. exact (@Witness.unlisted_case). Qed.

(** ** C09. Property dependencies

    If PropDependency(from, to...) was given and Validate passes, then whenever `from` is present each `to` is present. (False of the code when `from` is neither listed with AddProp nor matched by a pattern; and a present `to` that is only an additional property is reported missing.) Exactly: it is enforced among listed or pattern-matched names.
    Status: partial. REFUTED as stated; exact guard proved. *)

(* Refuted.v *)
Theorem C09_propdeps_refuted :
  ~ (forall (E : env) (o : objcfg) (T ET : string) (m : list (string * gval)) 
     (w : orc) (v' : gval) (w' : orc) (k d : string),
   ssorted (o_props o) ->
   ssorted m ->
   Runs E (CObj o) ({{T, ET}} m) w (Pass, v', w') ->
   In k (keys m) -> In d (prop_deps o k) -> In d (keys m)).
Proof. exact (@Refuted.propdeps_refuted). Qed.
Print Assumptions C09_propdeps_refuted.

(* Refuted.v *)
Theorem C09_propdeps_complete_refuted :
  ~ (forall (E : env) (o : objcfg) (T ET : string) (m : list (string * gval)) 
     (w : orc) (msg : string) (v' : gval) (w' : orc) (k d : string),
   ssorted (o_props o) ->
   ssorted m ->
   In d (prop_deps o k) ->
   In d (keys m) ->
   Runs E (CObj o) ({{T, ET}} m) w (Fail msg, v', w') ->
   msg <> "required dependency '" +++ d +++ "' is mising").
Proof. exact (@Refuted.propdeps_complete_refuted). Qed.
Print Assumptions C09_propdeps_complete_refuted.

(* Composite.v *)
Theorem C09_propdeps_enforced_partial :
  forall (E : env) (o : objcfg) (T ET : string) (m : list (string * gval)) 
    (w : orc) (v' : gval) (w' : orc) (k d : string),
  ssorted (o_props o) ->
  ssorted m ->
  Runs E (CObj o) ({{T, ET}} m) w (Pass, v', w') ->
  seen E o m k -> In d (prop_deps o k) -> seen E o m d.
Proof. exact (@Composite.propdeps_enforced). Qed.
Print Assumptions C09_propdeps_enforced_partial.

(* Structure.v *)
Theorem C09_obj_run_partial :
  forall (E : env) (o : objcfg) (T ET : string) (m : list (string * gval)) (w : orc),
  ssorted (o_props o) ->
  ssorted m ->
  forall (r : res) (v' : gval) (w' : orc),
  Runs E (CObj o) ({{T, ET}} m) w (r, v', w') ->
  match r with
  | Pass =>
      exists (m1 : list (string * gval)) (ks : list string),
        props_sem (Passes E) E o m m1 /\
        ~ dep_missing E o m /\
        (forall k : string, In k ks <-> seen E o m k /\ active o k = true) /\
        Spec.Chain (Passes E) (map (schema_dep o) ks) ({{T, ET}} m1) v'
  | Fail _ =>
      obj_front_bad (Fails E) E o m \/
      dep_missing E o m \/
      (exists (m1 : list (string * gval)) (ks : list string) (k : string) 
       (v1 : gval),
         props_sem (Passes E) E o m m1 /\
         (forall j : string, In j (k :: ks) -> seen E o m j /\ active o j = true) /\
         Spec.Chain (Passes E) (map (schema_dep o) ks) ({{T, ET}} m1) v1 /\
         Fails E (schema_dep o k) v1)
  | _ => True
  end.
Proof. exact (@Structure.obj_run). Qed.
Print Assumptions C09_obj_run_partial.

(* Witness.v *)
Example C09_dep_case :
  prop_deps o_dep "a" = ["b"] /\
  Runs env1 (CObj o_dep) (jobj [("a", num 1); ("b", num 2)]) [1]
    (Pass, jobj [("a", num 1); ("b", num 2)], []) /\
  Runs env1 (CObj o_dep) (jobj [("b", num 2)]) [] (Pass, jobj [("b", num 2)], []) /\
  Fails env1 (CObj o_dep) (jobj [("a", num 1)]).
Proof. exact (@Witness.dep_case). Qed.

(** ** C10. Schema dependencies

    If Validate passes, the whole object satisfies the constraint registered with SchemaDependency(from, c) for every listed or pattern-matched property `from` that is present and has no property dependency of its own.
    Status: proved.  *)

(* Composite.v *)
Theorem C10_schemadeps_enforced :
  forall (E : env) (o : objcfg) (T ET : string) (m : list (string * gval)) 
    (w : orc) (v' : gval) (w' : orc) (k : string),
  ssorted (o_props o) ->
  ssorted m ->
  quiet_deps E o ->
  Runs E (CObj o) ({{T, ET}} m) w (Pass, v', w') ->
  seen E o m k ->
  prop_deps o k = [] -> schema_dep o k <> CNil -> Passes E (schema_dep o k) v' v'.
Proof. exact (@Composite.schemadeps_enforced). Qed.
Print Assumptions C10_schemadeps_enforced.

(* Structure.v *)
Theorem C10_obj_run :
  forall (E : env) (o : objcfg) (T ET : string) (m : list (string * gval)) (w : orc),
  ssorted (o_props o) ->
  ssorted m ->
  forall (r : res) (v' : gval) (w' : orc),
  Runs E (CObj o) ({{T, ET}} m) w (r, v', w') ->
  match r with
  | Pass =>
      exists (m1 : list (string * gval)) (ks : list string),
        props_sem (Passes E) E o m m1 /\
        ~ dep_missing E o m /\
        (forall k : string, In k ks <-> seen E o m k /\ active o k = true) /\
        Spec.Chain (Passes E) (map (schema_dep o) ks) ({{T, ET}} m1) v'
  | Fail _ =>
      obj_front_bad (Fails E) E o m \/
      dep_missing E o m \/
      (exists (m1 : list (string * gval)) (ks : list string) (k : string) 
       (v1 : gval),
         props_sem (Passes E) E o m m1 /\
         (forall j : string, In j (k :: ks) -> seen E o m j /\ active o j = true) /\
         Spec.Chain (Passes E) (map (schema_dep o) ks) ({{T, ET}} m1) v1 /\
         Fails E (schema_dep o k) v1)
  | _ => True
  end.
Proof. exact (@Structure.obj_run). Qed.
Print Assumptions C10_obj_run.

(* Witness.v *)
Example C10_full_run :
  ssorted (o_props o_full) /\
  ssorted m_full /\
  quiet_deps env1 o_full /\ Runs env1 (CObj o_full) (jobj m_full) [] (Pass, jobj m_full', []).
Proof. exact (@Witness.full_run). Qed.

(* Witness.v *)
Example C10_full_rejects :
  Forall (fun m : list (string * gval) => ssorted m /\ Fails env1 (CObj o_full) (jobj m))
    broken.
Proof. exact (@Witness.full_rejects). Qed.

(* Witness.v *)
Example C10_full_consequences :
  seen env1 o_full m_full "card" /\
  seen env1 o_full m_full "x-1" /\
  extra env1 o_full "extra" /\
  is_required o_full "age" = false /\
  sget "age" m_full' = Some (num 0) /\
  sget "mail" m_full' = None /\
  Passes env1 (schema_dep o_full "card") (jobj m_full') (jobj m_full').
Proof. exact (@Witness.full_consequences). Qed.

(** ** C11. Additional properties

    A property that is neither listed nor matched by any pattern makes Validate fail when no AdditionalProperties constraint was given, and is validated against it otherwise; listed or matched properties are never checked against it.
    Status: proved.  *)

(* Composite.v *)
Theorem C11_additional_checked :
  forall (E : env) (o : objcfg) (T ET : string) (m : list (string * gval)) 
    (w : orc) (v' : gval) (w' : orc) (k : string) (x : gval),
  ssorted (o_props o) ->
  ssorted m ->
  Runs E (CObj o) ({{T, ET}} m) w (Pass, v', w') ->
  sget k m = Some x ->
  extra E o k -> o_add o <> CNil /\ (exists x' : gval, Passes E (o_add o) x x').
Proof. exact (@Composite.additional_checked). Qed.
Print Assumptions C11_additional_checked.

(* Composite.v *)
Theorem C11_listed_checked :
  forall (E : env) (o : objcfg) (T ET : string) (m : list (string * gval)) 
    (w : orc) (v' : gval) (w' : orc) (k : string) (x : gval) (c : constr),
  ssorted (o_props o) ->
  ssorted m ->
  Runs E (CObj o) ({{T, ET}} m) w (Pass, v', w') ->
  sget k m = Some x -> sget k (o_props o) = Some c -> exists x' : gval, Passes E c x x'.
Proof. exact (@Composite.listed_checked). Qed.
Print Assumptions C11_listed_checked.

(* Composite.v *)
Theorem C11_matched_checked :
  forall (E : env) (o : objcfg) (T ET : string) (m : list (string * gval)) 
    (w : orc) (v' : gval) (w' : orc) (k : string) (x : gval) (p : nat * string) 
    (c : constr),
  ssorted (o_props o) ->
  ssorted m ->
  Runs E (CObj o) ({{T, ET}} m) w (Pass, v', w') ->
  sget k m = Some x ->
  sget k (o_props o) = None ->
  In (p, c) (o_pats o) ->
  e_rx E (snd p) k = true ->
  exists (p' : nat * string) (c' : constr) (x' : gval),
    In (p', c') (o_pats o) /\ e_rx E (snd p') k = true /\ Passes E c' x x'.
Proof. exact (@Composite.matched_checked). Qed.
Print Assumptions C11_matched_checked.

(* Composite.v *)
Theorem C11_additional_irrelevant :
  forall (E : env) (o : objcfg) (c : constr) (T ET : string) (m : list (string * gval))
    (w : orc) (out : out),
  ssorted (o_props o) ->
  ssorted m ->
  (forall k : string, In k (keys m) -> ~ extra E o k) ->
  Runs E (CObj (obj_additional c o)) ({{T, ET}} m) w out <->
  Runs E (CObj o) ({{T, ET}} m) w out.
Proof. exact (@Composite.additional_irrelevant). Qed.
Print Assumptions C11_additional_irrelevant.

(* Structure.v *)
Theorem C11_obj_run :
  forall (E : env) (o : objcfg) (T ET : string) (m : list (string * gval)) (w : orc),
  ssorted (o_props o) ->
  ssorted m ->
  forall (r : res) (v' : gval) (w' : orc),
  Runs E (CObj o) ({{T, ET}} m) w (r, v', w') ->
  match r with
  | Pass =>
      exists (m1 : list (string * gval)) (ks : list string),
        props_sem (Passes E) E o m m1 /\
        ~ dep_missing E o m /\
        (forall k : string, In k ks <-> seen E o m k /\ active o k = true) /\
        Spec.Chain (Passes E) (map (schema_dep o) ks) ({{T, ET}} m1) v'
  | Fail _ =>
      obj_front_bad (Fails E) E o m \/
      dep_missing E o m \/
      (exists (m1 : list (string * gval)) (ks : list string) (k : string) 
       (v1 : gval),
         props_sem (Passes E) E o m m1 /\
         (forall j : string, In j (k :: ks) -> seen E o m j /\ active o j = true) /\
         Spec.Chain (Passes E) (map (schema_dep o) ks) ({{T, ET}} m1) v1 /\
         Fails E (schema_dep o k) v1)
  | _ => True
  end.
Proof. exact (@Structure.obj_run). Qed.
Print Assumptions C11_obj_run.

(* Witness.v *)
Example C11_full_run :
  ssorted (o_props o_full) /\
  ssorted m_full /\
  quiet_deps env1 o_full /\ Runs env1 (CObj o_full) (jobj m_full) [] (Pass, jobj m_full', []).
Proof. exact (@Witness.full_run). Qed.

(* Witness.v *)
Example C11_full_rejects :
  Forall (fun m : list (string * gval) => ssorted m /\ Fails env1 (CObj o_full) (jobj m))
    broken.
Proof. exact (@Witness.full_rejects). Qed.

(* Witness.v *)
Example C11_full_consequences :
  seen env1 o_full m_full "card" /\
  seen env1 o_full m_full "x-1" /\
  extra env1 o_full "extra" /\
  is_required o_full "age" = false /\
  sget "age" m_full' = Some (num 0) /\
  sget "mail" m_full' = None /\
  Passes env1 (schema_dep o_full "card") (jobj m_full') (jobj m_full').
Proof. exact (@Witness.full_consequences). Qed.

(* Witness.v *)
Example C11_unlisted_case :
  ~ In "zzz" (keys (o_props o_full)) /\
  Runs env1 (CObj (Constraint.obj_required ["zzz"] o_full)) (jobj m_full) []
    (Pass, jobj m_full', []) /\
  (forall k : string, In k (keys person_entries) -> ~ extra env1 o_person k) /\
  Runs env1 (CObj (obj_additional CNull o_person)) (jobj person_entries) [] (Pass, ann', []).
Proof. exact (@Witness.unlisted_case). Qed.

(** ** C12. minProperties and maxProperties

    An object passes only if the number of properties supplied by the caller (before defaults) is at least MinProperties and at most MaxProperties; negative bounds mean unchecked.
    Status: proved.  *)

(* Composite.v *)
Theorem C12_count_pass :
  forall (E : env) (o : objcfg) (T ET : string) (m : list (string * gval)) 
    (w : orc) (v' : gval) (w' : orc),
  ssorted (o_props o) ->
  ssorted m ->
  Runs E (CObj o) ({{T, ET}} m) w (Pass, v', w') ->
  ((0 <= o_min o)%Z -> (o_min o <= Z.of_nat (Datatypes.length m))%Z) /\
  ((0 <= o_max o)%Z -> (Z.of_nat (Datatypes.length m) <= o_max o)%Z).
Proof. exact (@Composite.count_pass). Qed.
Print Assumptions C12_count_pass.

(* Composite.v *)
Theorem C12_count_fail :
  forall (E : env) (o : objcfg) (T ET : string) (m : list (string * gval)) 
    (w : orc) (r : res) (v' : gval) (w' : orc),
  Runs E (CObj o) ({{T, ET}} m) w (r, v', w') ->
  (0 <= o_min o)%Z /\ (Z.of_nat (Datatypes.length m) < o_min o)%Z \/
  (0 <= o_max o < Z.of_nat (Datatypes.length m))%Z ->
  exists msg : string, r = Fail msg /\ v' = {{T, ET}} m.
Proof. exact (@Composite.count_fail). Qed.
Print Assumptions C12_count_fail.

(* Structure.v *)
Theorem C12_obj_run :
  forall (E : env) (o : objcfg) (T ET : string) (m : list (string * gval)) (w : orc),
  ssorted (o_props o) ->
  ssorted m ->
  forall (r : res) (v' : gval) (w' : orc),
  Runs E (CObj o) ({{T, ET}} m) w (r, v', w') ->
  match r with
  | Pass =>
      exists (m1 : list (string * gval)) (ks : list string),
        props_sem (Passes E) E o m m1 /\
        ~ dep_missing E o m /\
        (forall k : string, In k ks <-> seen E o m k /\ active o k = true) /\
        Spec.Chain (Passes E) (map (schema_dep o) ks) ({{T, ET}} m1) v'
  | Fail _ =>
      obj_front_bad (Fails E) E o m \/
      dep_missing E o m \/
      (exists (m1 : list (string * gval)) (ks : list string) (k : string) 
       (v1 : gval),
         props_sem (Passes E) E o m m1 /\
         (forall j : string, In j (k :: ks) -> seen E o m j /\ active o j = true) /\
         Spec.Chain (Passes E) (map (schema_dep o) ks) ({{T, ET}} m1) v1 /\
         Fails E (schema_dep o k) v1)
  | _ => True
  end.
Proof. exact (@Structure.obj_run). Qed.
Print Assumptions C12_obj_run.

(* Witness.v *)
Example C12_full_run :
  ssorted (o_props o_full) /\
  ssorted m_full /\
  quiet_deps env1 o_full /\ Runs env1 (CObj o_full) (jobj m_full) [] (Pass, jobj m_full', []).
Proof. exact (@Witness.full_run). Qed.

(* Witness.v *)
Example C12_full_rejects :
  Forall (fun m : list (string * gval) => ssorted m /\ Fails env1 (CObj o_full) (jobj m))
    broken.
Proof. exact (@Witness.full_rejects). Qed.

(** ** C13. Array length bounds and Items

    An Array constraint with Items accepts exactly the slices whose length lies within MinItems/MaxItems (negative = unchecked), whose elements are unique when UniqueItems is on, and all of whose elements satisfy the Items constraint; everything that is not a slice is rejected with an error.
    Status: proved.  *)

(* Composite.v *)
Theorem C13_array_only_slices :
  forall (E : env) (a : arrcfg) (v : gval) (w : orc) (r : res) (v' : gval) (w' : orc),
  (forall (T : string) (i : bool) (l : option (list gval)), v <> GSlice T i l) ->
  Runs E (CArr a) v w (r, v', w') -> exists m : string, r = Fail m.
Proof. exact (@Composite.array_only_slices). Qed.
Print Assumptions C13_array_only_slices.

(* Composite.v *)
Theorem C13_array_items :
  forall (E : env) (a : arrcfg) (c : constr) (T : string) (i : bool) 
    (ol : option (list gval)) (w : orc) (r : res) (v' : gval) (w' : orc),
  a_items a = c ->
  c <> CNil ->
  Runs E (CArr a) (GSlice T i ol) w (r, v', w') ->
  let l := items_of ol in
  let n := Z.of_nat (Datatypes.length l) in
  match r with
  | Pass =>
      ((0 <= a_min a)%Z -> (a_min a <= n)%Z) /\
      ((0 <= a_max a)%Z -> (n <= a_max a)%Z) /\
      (a_uniq a = true -> NoDup (map (sprint E true) l)) /\
      (exists ol' : option (list gval),
         v' = GSlice T i ol' /\ Forall2 (Passes E c) l (items_of ol'))
  | Fail _ =>
      ~ (((0 <= a_min a)%Z -> (a_min a <= n)%Z) /\ ((0 <= a_max a)%Z -> (n <= a_max a)%Z)) \/
      a_uniq a = true /\ ~ NoDup (map (sprint E true) l) \/ Exists (Fails E c) l
  | _ => True
  end.
Proof. exact (@Composite.array_items). Qed.
Print Assumptions C13_array_items.

(* Structure.v *)
Theorem C13_arr_run :
  forall (E : env) (a : arrcfg) (v : gval) (w : orc) (r : res) (v' : gval) (w' : orc),
  Runs E (CArr a) v w (r, v', w') ->
  match r with
  | Pass => arr_sem (Passes E) (Fails E) E a v (Some v')
  | Fail _ => arr_sem (Passes E) (Fails E) E a v None
  | _ => True
  end.
Proof. exact (@Structure.arr_run). Qed.
Print Assumptions C13_arr_run.

(* Witness.v *)
Example C13_items_case :
  a_items a_tags <> CNil /\
  Runs env1 (CArr a_tags) (jarr [gstr "a"; gstr "b"]) [] (Pass, jarr [gstr "a"; gstr "b"], []) /\
  Forall (fun v : gval => Fails env1 (CArr a_tags) v)
    [jarr []; jarr [gstr "a"; gstr "b"; gstr "c"; gstr "d"]; jarr [gstr "a"; num 1];
     jarr [gstr "a"; gstr "a"]; gstr "a"; GNil; jobj []].
Proof. exact (@Witness.items_case). Qed.

(** ** C14. Positional and additional items

    With PositionalItems of length k, element i<k is checked against position i, elements beyond k against AdditionalItems, and with no AdditionalItems constraint more than k elements are rejected. (False of the code: when there are more than k elements, element k-1 is also checked against AdditionalItems.) The exact acceptance condition, including that off-by-one, is proved.
    Status: partial. REFUTED as stated; exact guard proved. *)

(* Refuted.v *)
Theorem C14_positional_refuted :
  ~ (forall (E : env) (a : arrcfg) (T : string) (i : bool) (l : list gval) (w : orc) 
     (m : string) (v' : gval) (w' : orc),
   a_items a = CNil ->
   a_add a <> CNil ->
   a_uniq a = false ->
   a_min a = (-1)%Z ->
   a_max a = (-1)%Z ->
   (forall (j : nat) (x : gval) (c : constr),
    nth_error l j = Some x -> nth_error (a_pos a) j = Some c -> Decides E c x true) ->
   (forall (j : nat) (x : gval),
    nth_error l j = Some x -> nth_error (a_pos a) j = None -> Decides E (a_add a) x true) ->
   ~ Runs E (CArr a) (GSlice T i (Some l)) w (Fail m, v', w')).
Proof. exact (@Refuted.positional_refuted). Qed.
Print Assumptions C14_positional_refuted.

(* Composite.v *)
Theorem C14_array_positional_partial :
  forall (E : env) (a : arrcfg) (T : string) (i : bool) (ol : option (list gval)) 
    (w : orc) (r : res) (v' : gval) (w' : orc),
  a_items a = CNil ->
  Runs E (CArr a) (GSlice T i ol) w (r, v', w') ->
  let l := items_of ol in
  let n := Datatypes.length l in
  let k := Datatypes.length (a_pos a) in
  r = Pass ->
  (0 < k < n -> a_add a <> CNil) /\
  (exists ol' : option (list gval),
     v' = GSlice T i ol' /\
     Datatypes.length (items_of ol') = n /\
     (forall (j : nat) (x x' : gval),
      nth_error l j = Some x ->
      nth_error (items_of ol') j = Some x' ->
      match nth_error (a_pos a) j with
      | Some c =>
          if (k <? n)%nat && (S j =? k)%nat
          then exists y : gval, Passes E c x y /\ Passes E (a_add a) y x'
          else Passes E c x x'
      | None => 0 < k -> Passes E (a_add a) x x'
      end)).
Proof. exact (@Composite.array_positional). Qed.
Print Assumptions C14_array_positional_partial.

(* Composite.v *)
Theorem C14_array_positional_fail_partial :
  forall (E : env) (a : arrcfg) (T : string) (i : bool) (ol : option (list gval)) 
    (w : orc) (m : string) (v' : gval) (w' : orc),
  a_items a = CNil ->
  Runs E (CArr a) (GSlice T i ol) w (Fail m, v', w') ->
  let l := items_of ol in
  let n := Datatypes.length l in
  let k := Datatypes.length (a_pos a) in
  ~
  (((0 <= a_min a)%Z -> (a_min a <= Z.of_nat n)%Z) /\
   ((0 <= a_max a)%Z -> (Z.of_nat n <= a_max a)%Z)) \/
  a_uniq a = true /\ ~ NoDup (map (sprint E true) l) \/
  0 < k < n /\ a_add a = CNil \/
  (exists (j : nat) (x : gval),
     nth_error l j = Some x /\
     ((exists c : constr, nth_error (a_pos a) j = Some c /\ Fails E c x) \/
      0 < k < n /\
      k <= S j /\
      (exists y : gval,
         (nth_error (a_pos a) j = None /\ y = x \/
          (exists c : constr, nth_error (a_pos a) j = Some c /\ Passes E c x y)) /\
         Fails E (a_add a) y))).
Proof. exact (@Composite.array_positional_fail). Qed.
Print Assumptions C14_array_positional_fail_partial.

(* Structure.v *)
Theorem C14_arr_run_partial :
  forall (E : env) (a : arrcfg) (v : gval) (w : orc) (r : res) (v' : gval) (w' : orc),
  Runs E (CArr a) v w (r, v', w') ->
  match r with
  | Pass => arr_sem (Passes E) (Fails E) E a v (Some v')
  | Fail _ => arr_sem (Passes E) (Fails E) E a v None
  | _ => True
  end.
Proof. exact (@Structure.arr_run). Qed.
Print Assumptions C14_arr_run_partial.

(* Witness.v *)
Example C14_pair_case :
  a_items a_pair = CNil /\
  Runs env1 (CArr a_pair) (jarr [gstr "a"; num 1; num 2]) []
    (Pass, jarr [gstr "a"; num 1; num 2], []) /\
  Forall (fun v : gval => Fails env1 (CArr a_pair) v)
    [jarr [gstr "a"; num 1; gstr "b"]; jarr [num 1]; jarr [gstr "a"; gstr "b"]] /\
  Fails env1 (CArr (arr_additional CNil a_pair)) (jarr [gstr "a"; num 1; num 2]).
Proof. exact (@Witness.pair_case). Qed.

(** ** C15. UniqueItems

    With UniqueItems(true), a slice with two equal elements is always rejected, and a slice of pairwise different strings is always accepted. (For general elements distinct values can be rejected because they stringify alike.)
    Status: proved. Both stated halves, for every slice; unique_exact_refuted shows the remark in brackets: distinct elements that print alike are rejected. *)

(* Composite.v *)
Theorem C15_unique_rejects :
  forall (E : env) (a : arrcfg) (T : string) (i : bool) (l : list gval) 
    (w : orc) (r : res) (v' : gval) (w' : orc) (j1 j2 : nat) (x : gval),
  a_uniq a = true ->
  nth_error l j1 = Some x ->
  nth_error l j2 = Some x ->
  j1 <> j2 ->
  Runs E (CArr a) (GSlice T i (Some l)) w (r, v', w') -> exists m : string, r = Fail m.
Proof. exact (@Composite.unique_rejects). Qed.
Print Assumptions C15_unique_rejects.

(* Composite.v *)
Theorem C15_unique_strings :
  forall (E : env) (a : arrcfg) (T : string) (i : bool) (ss : list string) 
    (w : orc) (out : out),
  NoDup ss ->
  Runs E (CArr (arr_unique true a)) (GSlice T i (Some (map gstr ss))) w out <->
  Runs E (CArr (arr_unique false a)) (GSlice T i (Some (map gstr ss))) w out.
Proof. exact (@Composite.unique_strings). Qed.
Print Assumptions C15_unique_strings.

(* Refuted.v *)
Theorem C15_unique_exact_refuted :
  ~ (forall (E : env) (a : arrcfg) (T : string) (i : bool) (l : list gval) (w : orc) (out : out),
   NoDup l ->
   Runs E (CArr (arr_unique true a)) (GSlice T i (Some l)) w out ->
   Runs E (CArr (arr_unique false a)) (GSlice T i (Some l)) w out).
Proof. exact (@Refuted.unique_exact_refuted). Qed.
Print Assumptions C15_unique_exact_refuted.

(* Witness.v *)
Example C15_unique_case :
  NoDup ["a"; "b"; "ab"] /\
  Runs env1 (CArr (arr_unique true new_arr))
    (GSlice "[]string" false (Some (map gstr ["a"; "b"; "ab"]))) []
    (Pass, GSlice "[]string" false (Some (map gstr ["a"; "b"; "ab"])), []) /\
  Fails env1 (CArr (arr_unique true new_arr)) (jarr [num 1; num 2; num 1]).
Proof. exact (@Witness.unique_case). Qed.

(** ** C16. Combinators are boolean connectives

    Any passes iff some child passes, All iff every child passes, OneOf iff exactly one child passes, Not iff its child fails (an unset child is an error); with children that do not insert defaults the verdict does not depend on the order children were added in.
    Status: proved.  *)

(* Structure.v *)
Theorem C16_any_decides :
  forall (E : env) (v : gval) (l : list constr) (bs : list bool),
  Forall2 (fun (c : constr) (b : bool) => Decides E c v b) l bs ->
  Decides E (CAny l) v (existsb (fun b : bool => b) bs).
Proof. exact (@Structure.any_decides). Qed.
Print Assumptions C16_any_decides.

(* Structure.v *)
Theorem C16_all_decides :
  forall (E : env) (v : gval) (l : list constr) (bs : list bool),
  Forall2 (fun (c : constr) (b : bool) => Decides E c v b) l bs ->
  Decides E (CAll l) v (forallb (fun b : bool => b) bs).
Proof. exact (@Structure.all_decides). Qed.
Print Assumptions C16_all_decides.

(* Structure.v *)
Theorem C16_oneof_decides :
  forall (E : env) (v : gval) (l : list constr) (bs : list bool),
  Forall2 (fun (c : constr) (b : bool) => Decides E c v b) l bs ->
  Decides E (COneOf l) v (count_true bs =? 1)%nat.
Proof. exact (@Structure.oneof_decides). Qed.
Print Assumptions C16_oneof_decides.

(* Structure.v *)
Theorem C16_not_decides :
  forall (E : env) (v : gval) (c : constr) (b : bool),
  c <> CNil -> Decides E c v b -> Decides E (CNot c) v (negb b).
Proof. exact (@Structure.not_decides). Qed.
Print Assumptions C16_not_decides.

(* Structure.v *)
Theorem C16_not_unset :
  forall (E : env) (v : gval), Decides E (CNot CNil) v false.
Proof. exact (@Structure.not_unset). Qed.
Print Assumptions C16_not_unset.

(* Structure.v *)
Theorem C16_combinators_order :
  forall (E : env) (v : gval) (l l' : list constr),
  Permutation l l' ->
  Forall (fun c : constr => exists b : bool, Decides E c v b) l ->
  (exists b : bool, Decides E (CAny l) v b /\ Decides E (CAny l') v b) /\
  (exists b : bool, Decides E (CAll l) v b /\ Decides E (CAll l') v b) /\
  (exists b : bool, Decides E (COneOf l) v b /\ Decides E (COneOf l') v b).
Proof. exact (@Structure.combinators_order). Qed.
Print Assumptions C16_combinators_order.

(* Witness.v *)
Example C16_combinators_case :
  Forall2 (fun (c : constr) (b : bool) => Decides env1 c (num 3) b)
    [str; number; CInt None new_num; CNull] [false; true; true; false] /\
  Decides env1 (CAny [str; number; CInt None new_num; CNull]) (num 3) true /\
  Decides env1 (CAll [str; number; CInt None new_num; CNull]) (num 3) false /\
  Decides env1 (COneOf [str; number; CInt None new_num; CNull]) (num 3) false /\
  Decides env1 (COneOf [str; number; CNull]) (num 3) true /\
  Decides env1 (CNot str) (num 3) true /\ Decides env1 (CNot number) (num 3) false.
Proof. exact (@Witness.combinators_case). Qed.

(** ** C17. Reduce preserves meaning

    For Any, All and OneOf, the constraint returned by Reduce gives the same verdict and the same final value as the combinator itself on every value.
    Status: proved.  *)

(* Structure.v *)
Theorem C17_reduce_same :
  forall (E : env) (c : constr) (v : gval) (w : orc) (o : out),
  Runs E c v w o -> exists o' : out, Runs E (reduce c) v w o' /\ Structure.same o o'.
Proof. exact (@Structure.reduce_same). Qed.
Print Assumptions C17_reduce_same.

(* Structure.v *)
Theorem C17_reduce_same_back :
  forall (E : env) (c : constr) (v : gval) (w : orc) (o : out),
  Runs E (reduce c) v w o -> exists o' : out, Runs E c v w o' /\ Structure.same o o'.
Proof. exact (@Structure.reduce_same_back). Qed.
Print Assumptions C17_reduce_same_back.

(* Witness.v *)
Example C17_reduce_case :
  reduce (CAny [person]) = person /\
  reduce (CAll []) = CAll [] /\
  reduce (COneOf [str; number]) = COneOf [str; number] /\
  Runs env1 (CAny [person]) ann [] (Pass, ann', []) /\
  Runs env1 (reduce (CAny [person])) ann [] (Pass, ann', []).
Proof. exact (@Witness.reduce_case). Qed.

(** ** C59. Verdicts depend only on reachable references

    Two reference maps that agree on every name reachable from a constraint give identical runs of Validate.
    Status: proved.  *)

(* Local.v *)
Theorem C59_validate_local :
  forall (E : env) (f1 f2 : string -> option constr) (n : nat) (c : constr) 
    (v : gval) (w : orc),
  agree E f1 f2 c -> validate n (set_refs E f1) c v w = validate n (set_refs E f2) c v w.
Proof. exact (@Local.validate_local). Qed.
Print Assumptions C59_validate_local.

(* Witness.v *)
Example C59_local_case :
  agree env1 (one_ref "person" person) more_refs root /\
  more_refs "other" <> one_ref "person" person "other" /\
  Runs (set_refs env1 more_refs) root ann [] (Pass, ann', []).
Proof. exact (@Witness.local_case). Qed.

(** ** C70. A validator gives equal documents equal verdicts however often it was used

    Validating a document leaves the validator as it was: an equal document validated later gets the same verdict. (False of the code: a default value that is a map is put into the document itself, not a copy, and a later constraint may fill in defaults inside it; the same empty document passes the first time and fails the second.) Exact when no default value contains a map: validating any number of documents that share nothing gives each the verdict it gets alone, and the tree model of Validate.v is exact for heaps.
    Status: partial. REFUTED as stated; exact guard proved. The guard: default values contain no maps, documents share none. Heap.v covers values as encoding/json makes them. *)

(* HeapCases.v *)
Theorem C70_again_refuted :
  ~ (forall (E : env) (R : string -> option hconstr) (n : nat) (c : hconstr) 
     (v1 v2 : hval) (h : heap) (g : gval) (fp1 fp2 : list nat) (w : orc) (r1 : res) 
     (h1 : heap) (w1 : orc) (r2 : res) (h2 : heap) (w2 : orc),
   (forall k : string, e_refs E k = option_map erase (R k)) ->
   rep h v1 g fp1 ->
   rep h v2 g fp2 ->
   NoDup (fp1 ++ fp2) ->
   (forall d : hval, HHas R c d -> within (fun a : nat => ~ In a (fp1 ++ fp2)) d) ->
   hvalidate E R n c v1 h w = (r1, h1, w1) -> hvalidate E R n c v2 h1 w = (r2, h2, w2) -> r2 = r1).
Proof. exact (@HeapCases.again_refuted). Qed.
Print Assumptions C70_again_refuted.

(* HeapProofs.v *)
Theorem C70_heap_unshared_partial :
  forall (E : env) (R : string -> option hconstr) (n : nat) (c : hconstr) 
    (v : hval) (h : heap) (w : orc) (g : gval) (fp : list nat),
  (forall k : string, e_refs E k = option_map erase (R k)) ->
  (forall d : hval, HHas R c d -> mapless d) ->
  rep h v g fp ->
  NoDup fp ->
  let
  '(r, h', w') := hvalidate E R n c v h w in
   exists g' : gval,
     validate n E (erase c) g w = (r, g', w') /\
     rep h' v g' fp /\
     Datatypes.length h' = Datatypes.length h /\
     (forall a : nat, ~ In a fp -> h_at h' a = h_at h a).
Proof. exact (@HeapProofs.heap_unshared). Qed.
Print Assumptions C70_heap_unshared_partial.

(* HeapProofs.v *)
Theorem C70_hruns_alone_partial :
  forall (E : env) (R : string -> option hconstr) (n : nat) (c : hconstr)
    (ds : list (hval * orc)),
  (forall k : string, e_refs E k = option_map erase (R k)) ->
  (forall d : hval, HHas R c d -> mapless d) ->
  forall (gs : list gval) (h : heap) (fp : list nat),
  repl h (map fst ds) gs fp ->
  NoDup fp ->
  fst (hruns E R n c ds h) =
  map (fun p : gval * orc => fst (fst (validate n E (erase c) (fst p) (snd p))))
    (combine gs (map snd ds)).
Proof. exact (@HeapProofs.hruns_alone). Qed.
Print Assumptions C70_hruns_alone_partial.

(* HeapCases.v *)
Example C70_point_run :
  exists h' : heap,
    hvalidate (env0 no_refs) no_hrefs 9 point_c (HMap 0) point_h [] = (Pass, h', []) /\
    rep h' (HMap 0)
      (gmap
         [("next", gmap [("x", gfloat (f64_of_Z 1))]);
          ("tags",
           gslice
             [gmap [("t", gslice [gfloat (f64_of_Z 1); gstr "s"])]; gmap [("t", gstr "u")]])])
      [0; 1; 2; 3] /\ h_at h' 4 = h_at point_h 4 /\ h_at h' 5 = h_at point_h 5.
Proof. exact (@HeapCases.point_run). Qed.

(* HeapCases.v *)
Example C70_point_apart :
  fst (hruns (env0 no_refs) no_hrefs 9 point_c [(HMap 0, []); (HMap 4, [])] point_h) =
  [Pass;
   Fail
     "object property 'next' validation failed: object property 'x' validation failed: value is not numeric"].
Proof. exact (@HeapCases.point_apart). Qed.

(* HeapCases.v *)
Example C70_joined :
  hvalidate (env0 no_refs) no_hrefs 5 (hobject [("a", KStr (Some (HMap 0)) new_str)] (-1))
    (HMap 2)
    (snd
       (fst
          (hvalidate (env0 no_refs) no_hrefs 5
             (hobject [("a", KStr (Some (HMap 0)) new_str)] (-1)) 
             (HMap 1) again_h []))) [] = (Pass, [[]; [("a", HMap 0)]; [("a", HMap 0)]], []).
Proof. exact (@HeapCases.joined). Qed.

(** ** C71. The verdict depends on what a document contains, not on how its maps are shared

    Two Go values standing for the same JSON document get the same verdict. (False of the code: when two members are one map, a default filled in below one appears below the other.) Exact when neither value shares a map, and for all acyclic values when the constraints have no default values; in the latter case nothing is changed.
    Status: partial. REFUTED as stated; exact guard proved. The guard: no sharing and defaults without maps, or no defaults. *)

(* HeapCases.v *)
Theorem C71_content_refuted :
  ~ (forall (E : env) (R : string -> option hconstr) (n : nat) (c : hconstr) 
     (v : hval) (h : heap) (v' : hval) (h' : heap) (g : gval) (fp fp' : list nat) 
     (w : orc),
   (forall k : string, e_refs E k = option_map erase (R k)) ->
   (forall d : hval, HHas R c d -> mapless d) ->
   rep h v g fp ->
   rep h' v' g fp' -> fst (fst (hvalidate E R n c v h w)) = fst (fst (hvalidate E R n c v' h' w))).
Proof. exact (@HeapCases.content_refuted). Qed.
Print Assumptions C71_content_refuted.

(* HeapCases.v *)
Theorem C71_content_exact_partial :
  forall (E : env) (R : string -> option hconstr) (n : nat) (c : hconstr) 
    (v : hval) (h : heap) (v' : hval) (h' : heap) (g : gval) (fp fp' : list nat) 
    (w : orc),
  (forall k : string, e_refs E k = option_map erase (R k)) ->
  rep h v g fp ->
  rep h' v' g fp' ->
  (forall d : hval, HHas R c d -> mapless d) /\ NoDup fp /\ NoDup fp' \/
  (forall d : hval, ~ HHas R c d) ->
  fst (fst (hvalidate E R n c v h w)) = fst (fst (hvalidate E R n c v' h' w)).
Proof. exact (@HeapCases.content_exact). Qed.
Print Assumptions C71_content_exact_partial.

(* HeapProofs.v *)
Theorem C71_heap_readonly_partial :
  forall (E : env) (R : string -> option hconstr) (n : nat) (c : hconstr) 
    (v : hval) (h : heap) (w : orc) (g : gval) (fp : list nat),
  (forall k : string, e_refs E k = option_map erase (R k)) ->
  (forall d : hval, ~ HHas R c d) ->
  rep h v g fp ->
  exists (r : res) (w' : orc),
    hvalidate E R n c v h w = (r, h, w') /\ validate n E (erase c) g w = (r, g, w').
Proof. exact (@HeapProofs.heap_readonly). Qed.
Print Assumptions C71_heap_readonly_partial.

(* HeapProofs.v *)
Theorem C71_heap_unshared_partial :
  forall (E : env) (R : string -> option hconstr) (n : nat) (c : hconstr) 
    (v : hval) (h : heap) (w : orc) (g : gval) (fp : list nat),
  (forall k : string, e_refs E k = option_map erase (R k)) ->
  (forall d : hval, HHas R c d -> mapless d) ->
  rep h v g fp ->
  NoDup fp ->
  let
  '(r, h', w') := hvalidate E R n c v h w in
   exists g' : gval,
     validate n E (erase c) g w = (r, g', w') /\
     rep h' v g' fp /\
     Datatypes.length h' = Datatypes.length h /\
     (forall a : nat, ~ In a fp -> h_at h' a = h_at h a).
Proof. exact (@HeapProofs.heap_unshared). Qed.
Print Assumptions C71_heap_unshared_partial.

(* HeapCases.v *)
Example C71_shared_run :
  let c := hobject [("x", hobject [] (-1)); ("y", hobject [] 0)] (-1) in
  (forall d : hval, ~ HHas no_hrefs c d) /\
  hvalidate (env0 no_refs) no_hrefs 5 c (HMap 2) pair_h [] = (Pass, pair_h, []).
Proof. exact (@HeapCases.shared_run). Qed.

(** ** C72. Validation changes nothing outside the document

    Maps not reachable from the document are as they were after validation. (False of the code: maps kept as default values may change.) Exactly: for every set of maps closed under membership that contains the document and the default values, nothing outside it changes, and it stays closed; with default values without maps the document alone suffices.
    Status: partial. REFUTED as stated; exact guard proved. heap_frame needs no condition on sharing or defaults. *)

(* HeapCases.v *)
Theorem C72_outside_refuted :
  ~ (forall (E : env) (R : string -> option hconstr) (n : nat) (c : hconstr) 
     (v : hval) (h : heap) (w : orc) (S : nat -> Prop) (r : res) (h' : heap) 
     (w' : orc),
   within S v ->
   closed S h ->
   hvalidate E R n c v h w = (r, h', w') -> forall a : nat, ~ S a -> h_at h' a = h_at h a).
Proof. exact (@HeapCases.outside_refuted). Qed.
Print Assumptions C72_outside_refuted.

(* HeapProofs.v *)
Theorem C72_heap_frame_partial :
  forall (E : env) (R : string -> option hconstr) (n : nat) (c : hconstr) 
    (v : hval) (h : heap) (w : orc) (S : nat -> Prop) (r : res) (h' : heap) 
    (w' : orc),
  within S v ->
  (forall d : hval, HHas R c d -> within S d) ->
  closed S h ->
  hvalidate E R n c v h w = (r, h', w') ->
  (forall a : nat, ~ S a -> h_at h' a = h_at h a) /\ closed S h'.
Proof. exact (@HeapProofs.heap_frame). Qed.
Print Assumptions C72_heap_frame_partial.

(* HeapCases.v *)
Theorem C72_outside_exact_partial :
  forall (E : env) (R : string -> option hconstr) (n : nat) (c : hconstr) 
    (v : hval) (h : heap) (w : orc) (S : nat -> Prop) (r : res) (h' : heap) 
    (w' : orc),
  within S v ->
  closed S h ->
  (forall d : hval, HHas R c d -> mapless d) ->
  hvalidate E R n c v h w = (r, h', w') -> forall a : nat, ~ S a -> h_at h' a = h_at h a.
Proof. exact (@HeapCases.outside_exact). Qed.
Print Assumptions C72_outside_exact_partial.

(* HeapCases.v *)
Example C72_again_frame :
  closed (fun a : nat => a = 1 \/ a = 0) again_h /\
  (forall d : hval, HHas no_hrefs again_c d -> within (fun a : nat => a = 1 \/ a = 0) d) /\
  h_at (snd (fst (hvalidate (env0 no_refs) no_hrefs 5 again_c (HMap 1) again_h []))) 2 = [].
Proof. exact (@HeapCases.again_frame). Qed.

