(** The builder

    Only statements: each theorem is proved in the file named above it. *)

From Coq Require Import List String ZArith Bool SpecFloat QArith.
From Verif Require Import Base GoFloat FloatSpec FloatProofs GoValue Formats Maybe HostSpec
  Constraint StructInfo Validate Fuel Reach ReadOnly Frame Preserve
  Spec SpecSound SpecObj SpecMain ConstrInd Terminate Scalars Structure
  Composite Refuted DocSpec Linear RefConc RegConc Server Fluent
  MaybeProofs Simulate StructProofs DefaultProofs StructCases NoPanic Repeat Cases
  DocDeviates Builder BuildSpec BuildProofs Local BuildRefs BuildErr Height
  SchemaSpec SchemaForm SchemaRegular SchemaMeans SchemaMain BuildCases Extras GoText
  GoLang GoEval Generator GenLex GenParse GenCode GenLike GenSpec
  GenFaith GenRound GenObj GenMain GenProcess GenTheorems GenLoss GenDet
  GenCases EndToEnd EndCases Cli CliProofs CliCases Heap HeapProofs
  HeapCases Custom CustomProofs CustomCases Witness WitnessBuild.
Import ListNotations.
Open Scope nat_scope.
Open Scope string_scope.
Open Scope list_scope.

(** ** C41. Built validators have all their references

    When Build succeeds, every reference reachable from the validator's root or from any registered definition is registered, so validation never fails with 'reference not found'.
    Status: proved. built_closed: registering further references changes nothing, so no missing name is ever looked up. *)

(* BuildRefs.v *)
Theorem C41_built_registered :
  forall (n : nat) (D : resolver) (s : schema) (w : orc) (c : constr) 
    (rf : refs) (log : list string) (E : env),
  Sorted s ->
  (forall (m : string) (s' : schema), BuildSpec.lookup D m = Some s' -> Sorted s') ->
  build_with n D s w = Built c rf log ->
  forall (x : constr) (m : string),
  x = c \/ In x (map snd rf) -> Reach (with_refs E rf) x (CRef m) -> In m (keys rf).
Proof. exact (@BuildRefs.built_registered). Qed.
Print Assumptions C41_built_registered.

(* BuildRefs.v *)
Theorem C41_built_closed :
  forall (n : nat) (D : resolver) (s : schema) (w : orc) (c : constr) 
    (rf : refs) (log : list string) (E : env) (f : string -> option constr),
  Sorted s ->
  (forall (m : string) (s' : schema), BuildSpec.lookup D m = Some s' -> Sorted s') ->
  build_with n D s w = Built c rf log ->
  (forall (m : string) (x : constr), sget m rf = Some x -> f m = Some x) ->
  forall (k : nat) (v : gval) (o : orc),
  validate k (with_refs E rf) c v o = validate k (set_refs E f) c v o.
Proof. exact (@BuildRefs.built_closed). Qed.
Print Assumptions C41_built_closed.

(* WitnessBuild.v *)
Example C41_tree_case :
  Sorted (Sch tree) /\
  (forall (m : string) (s' : schema), BuildSpec.lookup names_t m = Some s' -> Sorted s') /\
  (forall m : string, Referred names_t (Sch tree) m <-> In m ["#"; "#/definitions/pos"]) /\
  sound names_t (Sch tree) /\
  build_with 10 names_t (Sch tree) [3; 1; 4; 1; 5] =
  Built tree_c tree_refs ["#/definitions/pos"].
Proof. exact (@WitnessBuild.tree_case). Qed.

(** ** C42. Build terminates on recursive schemas

    BuildWithCtx terminates for every finite document, even if its references are mutually recursive, and builds each reference at most once.
    Status: proved.  *)

(* BuildRefs.v *)
Theorem C42_build_terminates :
  forall (D : resolver) (s : schema) (U : list string),
  Sorted s ->
  (forall (m : string) (s' : schema), BuildSpec.lookup D m = Some s' -> Sorted s') ->
  (forall m : string, Referred D s m -> In m U) ->
  forall w : orc, build_with (2 * Datatypes.length U + 3) D s w <> BOOF.
Proof. exact (@BuildRefs.build_terminates). Qed.
Print Assumptions C42_build_terminates.

(* BuildErr.v *)
Theorem C42_finite_document_builds :
  forall (D : resolver) (s : schema) (docs : list schema),
  Sorted s ->
  (forall (m : string) (s' : schema), BuildSpec.lookup D m = Some s' -> Sorted s') ->
  (forall (m : string) (s' : schema), BuildSpec.lookup D m = Some s' -> In s' docs) ->
  exists n : nat, forall w : orc, build_with n D s w <> BOOF.
Proof. exact (@BuildErr.finite_document_builds). Qed.
Print Assumptions C42_finite_document_builds.

(* BuildErr.v *)
Theorem C42_build_once :
  forall (n : nat) (D : resolver) (s : schema) (w : orc) (c : constr) 
    (rf : refs) (log : list string),
  Sorted s ->
  (forall (m : string) (s' : schema), BuildSpec.lookup D m = Some s' -> Sorted s') ->
  build_with n D s w = Built c rf log -> NoDup log.
Proof. exact (@BuildErr.build_once). Qed.
Print Assumptions C42_build_once.

(* WitnessBuild.v *)
Example C42_tree_case :
  Sorted (Sch tree) /\
  (forall (m : string) (s' : schema), BuildSpec.lookup names_t m = Some s' -> Sorted s') /\
  (forall m : string, Referred names_t (Sch tree) m <-> In m ["#"; "#/definitions/pos"]) /\
  sound names_t (Sch tree) /\
  build_with 10 names_t (Sch tree) [3; 1; 4; 1; 5] =
  Built tree_c tree_refs ["#/definitions/pos"].
Proof. exact (@WitnessBuild.tree_case). Qed.

(** ** C46. Build reports bad schemas as errors

    Build(nil) and schemas with an unknown type return an error; errors in any sub-schema make Build fail; Build never returns both a validator and an error.
    Status: proved. A nil sub-schema (or items without schema) panics instead of returning an error: hollow_panics. *)

(* BuildProofs.v *)
Theorem C46_build_spec :
  forall s : schema,
  Sorted s ->
  hoare (build s) (fun c : constr => c = bc s /\ BuildSpec.Good s) 
    (Used s) (Unknown s) (Nilish s).
Proof. exact (@BuildProofs.build_spec). Qed.
Print Assumptions C46_build_spec.

(* BuildRefs.v *)
Theorem C46_build_outcome :
  forall (n : nat) (D : resolver) (s : schema) (w : orc),
  Sorted s ->
  (forall (m : string) (s' : schema), BuildSpec.lookup D m = Some s' -> Sorted s') ->
  match build_with n D s w with
  | Built c rf log =>
      c = bc s /\
      BuildSpec.Good s /\
      ssorted rf /\
      NoDup log /\
      (forall m : string, In m (keys rf) <-> Referred D s m) /\
      (forall (m : string) (x : constr),
       sget m rf = Some x ->
       exists s' : schema, Def D s m s' /\ BuildSpec.Good s' /\ x = bc s')
  | BErr _ => s = SNil \/ Unknown s \/ bad_ref D s
  | BPanic _ => Nilish s \/ nil_ref D s
  | BOOF => True
  end.
Proof. exact (@BuildRefs.build_outcome). Qed.
Print Assumptions C46_build_outcome.

(* BuildErr.v *)
Theorem C46_faults_rejected :
  forall (D : resolver) (s : schema),
  Sorted s ->
  (forall (m : string) (s' : schema), BuildSpec.lookup D m = Some s' -> Sorted s') ->
  forall (n : nat) (w : orc),
  erroneous D s \/ hollow D s ->
  forall (c : constr) (rf : refs) (log : list string), build_with n D s w <> Built c rf log.
Proof. exact (@BuildErr.faults_rejected). Qed.
Print Assumptions C46_faults_rejected.

(* BuildErr.v *)
Theorem C46_sound_builds :
  forall (D : resolver) (s : schema),
  Sorted s ->
  (forall (m : string) (s' : schema), BuildSpec.lookup D m = Some s' -> Sorted s') ->
  forall U : list string,
  (forall m : string, Referred D s m -> In m U) ->
  forall w : orc,
  sound D s ->
  exists (c : constr) (rf : refs) (log : list string),
    build_with (2 * Datatypes.length U + 3) D s w = Built c rf log.
Proof. exact (@BuildErr.sound_builds). Qed.
Print Assumptions C46_sound_builds.

(* BuildErr.v *)
Theorem C46_errors_reported :
  forall (D : resolver) (s : schema),
  Sorted s ->
  (forall (m : string) (s' : schema), BuildSpec.lookup D m = Some s' -> Sorted s') ->
  forall U : list string,
  (forall m : string, Referred D s m -> In m U) ->
  forall w : orc,
  erroneous D s ->
  ~ hollow D s -> exists m : string, build_with (2 * Datatypes.length U + 3) D s w = BErr m.
Proof. exact (@BuildErr.errors_reported). Qed.
Print Assumptions C46_errors_reported.

(* BuildErr.v *)
Theorem C46_hollow_panics :
  forall (D : resolver) (s : schema),
  Sorted s ->
  (forall (m : string) (s' : schema), BuildSpec.lookup D m = Some s' -> Sorted s') ->
  forall U : list string,
  (forall m : string, Referred D s m -> In m U) ->
  forall w : orc,
  hollow D s ->
  ~ erroneous D s ->
  exists m : string, build_with (2 * Datatypes.length U + 3) D s w = BPanic m.
Proof. exact (@BuildErr.hollow_panics). Qed.
Print Assumptions C46_hollow_panics.

(* BuildErr.v *)
Theorem C46_build_nil :
  forall (n : nat) (D : resolver) (w : orc), exists m : string, build_with n D SNil w = BErr m.
Proof. exact (@BuildErr.build_nil). Qed.
Print Assumptions C46_build_nil.

(* WitnessBuild.v *)
Example C46_tree_case :
  Sorted (Sch tree) /\
  (forall (m : string) (s' : schema), BuildSpec.lookup names_t m = Some s' -> Sorted s') /\
  (forall m : string, Referred names_t (Sch tree) m <-> In m ["#"; "#/definitions/pos"]) /\
  sound names_t (Sch tree) /\
  build_with 10 names_t (Sch tree) [3; 1; 4; 1; 5] =
  Built tree_c tree_refs ["#/definitions/pos"].
Proof. exact (@WitnessBuild.tree_case). Qed.

(* WitnessBuild.v *)
Example C46_faults_case :
  erroneous (names_bad (Sch odd_s)) (Sch tree) /\
  (exists m : string, build_with 7 (names_bad (Sch odd_s)) (Sch tree) [] = BErr m) /\
  erroneous no_names (Sch tree) /\
  (exists m : string, build_with 7 no_names (Sch tree) [] = BErr m) /\
  hollow (names_bad (Sch hole_s)) (Sch tree) /\
  (exists m : string, build_with 7 (names_bad (Sch hole_s)) (Sch tree) [] = BPanic m).
Proof. exact (@WitnessBuild.faults_case). Qed.

(** ** C43. The built validator means what the schema says

    For a schema that states its type(s), the built validator accepts a decoded JSON document iff the document satisfies the JSON-Schema meaning of the type, numeric, string, array and object keywords, for the keywords the builder supports.
    Status: partial. REFUTED as stated; exact guard proved. Proved for all schemas meeting all_plain (every exclusion is a refuted feature: C44, C45, C61-C64, C03, C08, C14, C15), all documents and iteration orders, against a JSON Schema meaning stated on schemas only. *)

(* BuildCases.v *)
Theorem C43_build_means_refuted :
  ~ (forall (s : schema) (v : gval), Sorted s -> BuildSpec.Good s -> json v -> agrees s v).
Proof. exact (@BuildCases.build_means_refuted). Qed.
Print Assumptions C43_build_means_refuted.

(* SchemaMain.v *)
Theorem C43_built_means_partial :
  forall (E : env) (D : resolver) (s : schema) (bytes : bool) (n : nat) 
    (w : orc) (c : constr) (rf : refs) (log : list string),
  Sorted s ->
  (forall (m : string) (s' : schema), BuildSpec.lookup D m = Some s' -> Sorted s') ->
  build_with n D s w = Built c rf log ->
  all_plain E D s bytes s ->
  forall (v : gval) (o : orc) (r : res) (v' : gval) (o' : orc),
  json v ->
  (bytes = true -> SchemaSpec.one_byte v) ->
  Runs (with_refs E rf) c v o (r, v', o') ->
  r = Pass /\ Valid E D s s v /\ ~ Invalid E D s s v \/
  (exists m : string, r = Fail m) /\ Invalid E D s s v /\ ~ Valid E D s s v.
Proof. exact (@SchemaMain.built_means). Qed.
Print Assumptions C43_built_means_partial.

(* SchemaMain.v *)
Theorem C43_built_decides_partial :
  forall (E : env) (D : resolver) (s : schema) (bytes : bool) (n : nat) 
    (w : orc) (c : constr) (rf : refs) (log : list string),
  Sorted s ->
  (forall (m : string) (s' : schema), BuildSpec.lookup D m = Some s' -> Sorted s') ->
  build_with n D s w = Built c rf log ->
  all_plain E D s bytes s ->
  forall (v : gval) (o : orc),
  SchemaMain.steady D s ->
  scalar_defaults D s ->
  json v ->
  (bytes = true -> SchemaSpec.one_byte v) ->
  exists (r : res) (v' : gval) (o' : orc),
    Runs (with_refs E rf) c v o (r, v', o') /\
    (r = Pass /\ Valid E D s s v /\ ~ Invalid E D s s v \/
     (exists m : string, r = Fail m) /\ Invalid E D s s v /\ ~ Valid E D s s v).
Proof. exact (@SchemaMain.built_decides). Qed.
Print Assumptions C43_built_decides_partial.

(* SchemaMeans.v *)
Theorem C43_Valid_not_Invalid_partial :
  forall (E : env) (D : resolver) (root s : schema) (v : gval),
  Valid E D root s v -> Invalid E D root s v -> False.
Proof. exact (@SchemaMeans.Valid_not_Invalid). Qed.
Print Assumptions C43_Valid_not_Invalid_partial.

(* SchemaMeans.v *)
Theorem C43_holds_means_partial :
  forall (E0 : env) (D : resolver) (root : schema) (rf : refs) (bytes : bool),
  (forall (m : string) (x : constr),
   sget m rf = Some x -> exists s' : schema, Def D root m s' /\ BuildSpec.Good s' /\ x = bc s') ->
  (forall c : scfg,
   Sub D root root (Sch c) -> sc_ref c <> "" -> exists x : constr, sget (sc_ref c) rf = Some x) ->
  (forall x : schema, Sub D root root x -> BuildSpec.Good x) ->
  all_plain E0 D root bytes root ->
  forall (n : nat) (x : schema),
  Sub D root root x ->
  forall v : gval,
  SchemaMeans.fits bytes v ->
  (Height.holds (with_refs E0 rf) n true (bc x) v -> Valid E0 D root x v) /\
  (Height.holds (with_refs E0 rf) n false (bc x) v -> Invalid E0 D root x v).
Proof. exact (@SchemaMeans.holds_means). Qed.
Print Assumptions C43_holds_means_partial.

(* SchemaRegular.v *)
Theorem C43_built_regular_partial :
  forall (E0 : env) (D : resolver) (root : schema) (rf : refs) (bytes : bool),
  (forall (m : string) (x : constr),
   sget m rf = Some x -> exists s' : schema, Def D root m s' /\ BuildSpec.Good s' /\ x = bc s') ->
  (forall x : schema, Sub D root root x -> BuildSpec.Good x) ->
  (forall x : schema, Sub D root root x -> Sorted x) ->
  all_plain E0 D root bytes root ->
  forall x : schema, Sub D root root x -> regular (with_refs E0 rf) (bc x).
Proof. exact (@SchemaRegular.built_regular). Qed.
Print Assumptions C43_built_regular_partial.

(* BuildCases.v *)
Example C43_tree_builds :
  build_with 10 names_t (Sch tree) [] = Built tree_c tree_refs ["#/definitions/pos"].
Proof. exact (@BuildCases.tree_builds). Qed.

(* BuildCases.v *)
Theorem C43_tree_plain_partial :
  forall E : env, e_rx E = contains -> all_plain E names_t (Sch tree) true (Sch tree).
Proof. exact (@BuildCases.tree_plain). Qed.
Print Assumptions C43_tree_plain_partial.

(* BuildCases.v *)
Example C43_tree_verdicts :
  Valid env_t names_t (Sch tree) (Sch tree) oak /\
  Invalid env_t names_t (Sch tree) (Sch tree) elm.
Proof. exact (@BuildCases.tree_verdicts). Qed.

(* BuildCases.v *)
Example C43_tree_decided :
  forall (v : gval) (o : orc),
  json v ->
  SchemaSpec.one_byte v ->
  exists (r : res) (v' : gval) (o' : orc),
    Runs (with_refs env_t tree_refs) tree_c v o (r, v', o') /\
    (r = Pass /\
     Valid env_t names_t (Sch tree) (Sch tree) v /\
     ~ Invalid env_t names_t (Sch tree) (Sch tree) v \/
     (exists m : string, r = Fail m) /\
     Invalid env_t names_t (Sch tree) (Sch tree) v /\
     ~ Valid env_t names_t (Sch tree) (Sch tree) v).
Proof. exact (@BuildCases.tree_decided). Qed.

(** ** C44. Number enumerations survive Build

    A schema {type: number, enum: [..]} accepts exactly the listed numbers. (False of the code: the enumeration is wrapped in a one-element list, so every number is rejected.)
    Status: partial. REFUTED as stated; exact guard proved. number_enum_rejects: every value is rejected. *)

(* BuildCases.v *)
Theorem C44_number_enum_refuted :
  ~ (forall (l : list gval) (v : gval),
   (forall e : gval, In e l -> json e) -> json v -> agrees (Sch (number_enum l)) v).
Proof. exact (@BuildCases.number_enum_refuted). Qed.
Print Assumptions C44_number_enum_refuted.

(* BuildCases.v *)
Theorem C44_number_enum_rejects_partial :
  forall (D : resolver) (n : nat) (w : orc) (c : scfg) (k : constr) 
    (rf : refs) (log : list string) (E : env) (v : gval) (o : orc) 
    (r : res) (v' : gval) (o' : orc),
  Sorted (Sch c) ->
  (forall (m : string) (s' : schema), BuildSpec.lookup D m = Some s' -> Sorted s') ->
  plainly c ->
  sc_type c = [TNumber] ->
  sc_enum c <> [] ->
  build_with n D (Sch c) w = Built k rf log ->
  Runs (with_refs E rf) k v o (r, v', o') -> exists m : string, r = Fail m.
Proof. exact (@BuildCases.number_enum_rejects). Qed.
Print Assumptions C44_number_enum_rejects_partial.

(* WitnessBuild.v *)
Example C44_keyword_case :
  build_with 3 no_names (Sch two_combs) [] =
  build_with 3 no_names (Sch (only_first two_combs)) [] /\
  (exists (c : constr) (rf : refs) (l : list string),
     build_with 3 no_names (Sch two_combs) [] = Built c rf l /\
     Fails (with_refs env_t rf) c (gstr "a")) /\
  guess guessed = [TString] /\
  (exists (c : constr) (rf : refs) (l : list string),
     build_with 3 no_names (Sch guessed) [] = Built c rf l /\
     Fails (with_refs env_t rf) c (num 1)) /\
  (exists (c : constr) (rf : refs) (l : list string) (v : gval),
     build_with 3 no_names (Sch bool_enum) [] = Built c rf l /\
     Passes (with_refs env_t rf) c (GBool "bool" false) v) /\
  (exists (c : constr) (rf : refs) (l : list string) (v : gval),
     build_with 3 no_names (Sch when_s) [] = Built c rf l /\
     Passes (with_refs env_t rf) c (gstr "yesterday") v) /\
  (exists (c : constr) (rf : refs) (l : list string),
     build_with 3 no_names (Sch (number_enum [num 1])) [] = Built c rf l /\
     Fails (with_refs env_t rf) c (num 1)).
Proof. exact (@WitnessBuild.keyword_case). Qed.

(** ** C45. All combinator keywords are enforced

    If a schema has several of not/allOf/anyOf/oneOf, the built validator enforces all of them. (False of the code: only the first in that order is used.)
    Status: partial. REFUTED as stated; exact guard proved. later_combinators_ignored: exactly the first of not/allOf/anyOf/oneOf counts; with one combinator built_means (C43) applies. *)

(* BuildCases.v *)
Theorem C45_all_combinators_refuted :
  ~ (forall (E : env) (D : resolver) (n : nat) (w : orc) (c : scfg) (k : constr) 
     (rf : refs) (log : list string) (v : gval) (o : orc) (v' : gval) (o' : orc),
   Sorted (Sch c) ->
   (forall (m : string) (s' : schema), BuildSpec.lookup D m = Some s' -> Sorted s') ->
   sc_ref c = "" ->
   json v ->
   build_with n D (Sch c) w = Built k rf log ->
   Runs (with_refs E rf) k v o (Pass, v', o') ->
   (sc_not c <> SNil -> ~ Valid E D (Sch c) (sc_not c) v) /\
   (forall s : schema, In s (sc_allOf c) -> Valid E D (Sch c) s v) /\
   (sc_anyOf c <> [] -> exists s : schema, In s (sc_anyOf c) /\ Valid E D (Sch c) s v) /\
   (sc_oneOf c <> [] -> exists s : schema, In s (sc_oneOf c) /\ Valid E D (Sch c) s v)).
Proof. exact (@BuildCases.all_combinators_refuted). Qed.
Print Assumptions C45_all_combinators_refuted.

(* BuildCases.v *)
Theorem C45_later_combinators_ignored_partial :
  forall (D : resolver) (n : nat) (c : scfg) (w : orc),
  build_with n D (Sch c) w = build_with n D (Sch (only_first c)) w.
Proof. exact (@BuildCases.later_combinators_ignored). Qed.
Print Assumptions C45_later_combinators_ignored_partial.

(* WitnessBuild.v *)
Example C45_keyword_case :
  build_with 3 no_names (Sch two_combs) [] =
  build_with 3 no_names (Sch (only_first two_combs)) [] /\
  (exists (c : constr) (rf : refs) (l : list string),
     build_with 3 no_names (Sch two_combs) [] = Built c rf l /\
     Fails (with_refs env_t rf) c (gstr "a")) /\
  guess guessed = [TString] /\
  (exists (c : constr) (rf : refs) (l : list string),
     build_with 3 no_names (Sch guessed) [] = Built c rf l /\
     Fails (with_refs env_t rf) c (num 1)) /\
  (exists (c : constr) (rf : refs) (l : list string) (v : gval),
     build_with 3 no_names (Sch bool_enum) [] = Built c rf l /\
     Passes (with_refs env_t rf) c (GBool "bool" false) v) /\
  (exists (c : constr) (rf : refs) (l : list string) (v : gval),
     build_with 3 no_names (Sch when_s) [] = Built c rf l /\
     Passes (with_refs env_t rf) c (gstr "yesterday") v) /\
  (exists (c : constr) (rf : refs) (l : list string),
     build_with 3 no_names (Sch (number_enum [num 1])) [] = Built c rf l /\
     Fails (with_refs env_t rf) c (num 1)).
Proof. exact (@WitnessBuild.keyword_case). Qed.

(** ** C60. Build does not depend on iteration order

    Two successful builds of the same document, whatever order Go iterates the maps involved (including a map that grows while being ranged over), give the same root and the same registered references.
    Status: proved.  *)

(* BuildRefs.v *)
Theorem C60_built_order_free :
  forall (n n' : nat) (D : resolver) (s : schema) (w w' : orc) (c : constr) 
    (rf : refs) (log : list string) (c' : constr) (rf' : refs) (log' : list string),
  Sorted s ->
  (forall (m : string) (s' : schema), BuildSpec.lookup D m = Some s' -> Sorted s') ->
  build_with n D s w = Built c rf log ->
  build_with n' D s w' = Built c' rf' log' -> c = c' /\ rf = rf'.
Proof. exact (@BuildRefs.built_order_free). Qed.
Print Assumptions C60_built_order_free.

(* WitnessBuild.v *)
Example C60_tree_case :
  Sorted (Sch tree) /\
  (forall (m : string) (s' : schema), BuildSpec.lookup names_t m = Some s' -> Sorted s') /\
  (forall m : string, Referred names_t (Sch tree) m <-> In m ["#"; "#/definitions/pos"]) /\
  sound names_t (Sch tree) /\
  build_with 10 names_t (Sch tree) [3; 1; 4; 1; 5] =
  Built tree_c tree_refs ["#/definitions/pos"].
Proof. exact (@WitnessBuild.tree_case). Qed.

(** ** C61. Enumerations apply to every type

    A schema with a type and an enumeration accepts only listed values. (False of the code: for boolean, object, array and null the enumeration has no effect; for number everything is rejected.)
    Status: partial. REFUTED as stated; exact guard proved. *)

(* BuildCases.v *)
Theorem C61_other_enum_refuted :
  ~ (forall (c : scfg) (v : gval), sc_type c <> [] -> sc_ref c = "" -> json v -> agrees (Sch c) v).
Proof. exact (@BuildCases.other_enum_refuted). Qed.
Print Assumptions C61_other_enum_refuted.

(* BuildCases.v *)
Theorem C61_other_enum_ignored_partial :
  forall (D : resolver) (n : nat) (c : scfg) (w : orc),
  sc_type c <> [] ->
  (forall t : ptype, In t (sc_type c) -> t <> TString /\ t <> TInteger /\ t <> TNumber) ->
  build_with n D (Sch c) w = build_with n D (Sch (with_enum [] c)) w.
Proof. exact (@BuildCases.other_enum_ignored). Qed.
Print Assumptions C61_other_enum_ignored_partial.

(* BuildCases.v *)
Theorem C61_number_enum_rejects_partial :
  forall (D : resolver) (n : nat) (w : orc) (c : scfg) (k : constr) 
    (rf : refs) (log : list string) (E : env) (v : gval) (o : orc) 
    (r : res) (v' : gval) (o' : orc),
  Sorted (Sch c) ->
  (forall (m : string) (s' : schema), BuildSpec.lookup D m = Some s' -> Sorted s') ->
  plainly c ->
  sc_type c = [TNumber] ->
  sc_enum c <> [] ->
  build_with n D (Sch c) w = Built k rf log ->
  Runs (with_refs E rf) k v o (r, v', o') -> exists m : string, r = Fail m.
Proof. exact (@BuildCases.number_enum_rejects). Qed.
Print Assumptions C61_number_enum_rejects_partial.

(* WitnessBuild.v *)
Example C61_keyword_case :
  build_with 3 no_names (Sch two_combs) [] =
  build_with 3 no_names (Sch (only_first two_combs)) [] /\
  (exists (c : constr) (rf : refs) (l : list string),
     build_with 3 no_names (Sch two_combs) [] = Built c rf l /\
     Fails (with_refs env_t rf) c (gstr "a")) /\
  guess guessed = [TString] /\
  (exists (c : constr) (rf : refs) (l : list string),
     build_with 3 no_names (Sch guessed) [] = Built c rf l /\
     Fails (with_refs env_t rf) c (num 1)) /\
  (exists (c : constr) (rf : refs) (l : list string) (v : gval),
     build_with 3 no_names (Sch bool_enum) [] = Built c rf l /\
     Passes (with_refs env_t rf) c (GBool "bool" false) v) /\
  (exists (c : constr) (rf : refs) (l : list string) (v : gval),
     build_with 3 no_names (Sch when_s) [] = Built c rf l /\
     Passes (with_refs env_t rf) c (gstr "yesterday") v) /\
  (exists (c : constr) (rf : refs) (l : list string),
     build_with 3 no_names (Sch (number_enum [num 1])) [] = Built c rf l /\
     Fails (with_refs env_t rf) c (num 1)).
Proof. exact (@WitnessBuild.keyword_case). Qed.

(** ** C62. Keywords do not restrict the type

    A schema without type accepts values of types its keywords do not speak about. (False of the code: the type is guessed from the keywords, and other types are rejected.) Exactly: such a schema builds as if its guessed types had been stated.
    Status: partial. REFUTED as stated; exact guard proved. *)

(* BuildCases.v *)
Theorem C62_guess_refuted :
  ~ (forall (c : scfg) (v : gval),
   sc_type c = [] -> sc_ref c = "" -> sc_enum c = [] -> json v -> agrees (Sch c) v).
Proof. exact (@BuildCases.guess_refuted). Qed.
Print Assumptions C62_guess_refuted.

(* BuildCases.v *)
Theorem C62_type_guessed_partial :
  forall (D : resolver) (n : nat) (c : scfg) (w : orc),
  sc_type c = [] ->
  guess c <> [] -> build_with n D (Sch c) w = build_with n D (Sch (with_type (guess c) c)) w.
Proof. exact (@BuildCases.type_guessed). Qed.
Print Assumptions C62_type_guessed_partial.

(* WitnessBuild.v *)
Example C62_keyword_case :
  build_with 3 no_names (Sch two_combs) [] =
  build_with 3 no_names (Sch (only_first two_combs)) [] /\
  (exists (c : constr) (rf : refs) (l : list string),
     build_with 3 no_names (Sch two_combs) [] = Built c rf l /\
     Fails (with_refs env_t rf) c (gstr "a")) /\
  guess guessed = [TString] /\
  (exists (c : constr) (rf : refs) (l : list string),
     build_with 3 no_names (Sch guessed) [] = Built c rf l /\
     Fails (with_refs env_t rf) c (num 1)) /\
  (exists (c : constr) (rf : refs) (l : list string) (v : gval),
     build_with 3 no_names (Sch bool_enum) [] = Built c rf l /\
     Passes (with_refs env_t rf) c (GBool "bool" false) v) /\
  (exists (c : constr) (rf : refs) (l : list string) (v : gval),
     build_with 3 no_names (Sch when_s) [] = Built c rf l /\
     Passes (with_refs env_t rf) c (gstr "yesterday") v) /\
  (exists (c : constr) (rf : refs) (l : list string),
     build_with 3 no_names (Sch (number_enum [num 1])) [] = Built c rf l /\
     Fails (with_refs env_t rf) c (num 1)).
Proof. exact (@WitnessBuild.keyword_case). Qed.

(** ** C63. The date-time format is checked

    A string schema with format date-time accepts only RFC 3339 date-times. (False of the code: the format constant checked is 'datetime', so 'date-time' has no effect.)
    Status: partial. REFUTED as stated; exact guard proved. *)

(* BuildCases.v *)
Theorem C63_date_time_refuted :
  ~ (forall (E : env) (D : resolver) (n : nat) (w : orc) (c : scfg) (k : constr) 
     (rf : refs) (log : list string) (s : string) (o : orc) (v' : gval) (o' : orc),
   plainly c ->
   sc_type c = [TString] ->
   sc_format c = "date-time" ->
   build_with n D (Sch c) w = Built k rf log ->
   Runs (with_refs E rf) k (gstr s) o (Pass, v', o') -> exists t : Z, e_time E s = inl t).
Proof. exact (@BuildCases.date_time_refuted). Qed.
Print Assumptions C63_date_time_refuted.

(* BuildCases.v *)
Theorem C63_date_time_ignored_partial :
  forall (c : scfg) (n : nat) (E : env) (v : gval) (w : orc),
  plainly c ->
  sc_type c = [TString] ->
  sc_format c = "date-time" ->
  validate n E (bc (Sch c)) v w = validate n E (bc (Sch (with_format "" c))) v w.
Proof. exact (@BuildCases.date_time_ignored). Qed.
Print Assumptions C63_date_time_ignored_partial.

(* WitnessBuild.v *)
Example C63_keyword_case :
  build_with 3 no_names (Sch two_combs) [] =
  build_with 3 no_names (Sch (only_first two_combs)) [] /\
  (exists (c : constr) (rf : refs) (l : list string),
     build_with 3 no_names (Sch two_combs) [] = Built c rf l /\
     Fails (with_refs env_t rf) c (gstr "a")) /\
  guess guessed = [TString] /\
  (exists (c : constr) (rf : refs) (l : list string),
     build_with 3 no_names (Sch guessed) [] = Built c rf l /\
     Fails (with_refs env_t rf) c (num 1)) /\
  (exists (c : constr) (rf : refs) (l : list string) (v : gval),
     build_with 3 no_names (Sch bool_enum) [] = Built c rf l /\
     Passes (with_refs env_t rf) c (GBool "bool" false) v) /\
  (exists (c : constr) (rf : refs) (l : list string) (v : gval),
     build_with 3 no_names (Sch when_s) [] = Built c rf l /\
     Passes (with_refs env_t rf) c (gstr "yesterday") v) /\
  (exists (c : constr) (rf : refs) (l : list string),
     build_with 3 no_names (Sch (number_enum [num 1])) [] = Built c rf l /\
     Fails (with_refs env_t rf) c (num 1)).
Proof. exact (@WitnessBuild.keyword_case). Qed.

