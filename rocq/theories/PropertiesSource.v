(** The Go source text, interpreted

    Only statements: each theorem is proved in the file named above it. *)

From Coq Require Import List String ZArith Bool SpecFloat QArith.
From Verif Require Import Base GoFloat FloatSpec FloatProofs GoValue Formats Maybe HostSpec
  Constraint StructInfo Validate Fuel Reach ReadOnly Frame Preserve
  Spec SpecSound SpecObj SpecMain ConstrInd Terminate Scalars Structure
  Composite Refuted DocSpec Linear RefConc RegConc Server Fluent
  MaybeProofs Simulate StructProofs DefaultProofs StructCases NoPanic Repeat Cases
  DocDeviates Builder BuildSpec BuildProofs Local BuildRefs BuildErr Height
  SchemaSpec SchemaForm SchemaRegular SchemaMeans SchemaMain BuildCases Extras GoText
  GoLang GoEval Generator GenLex GenParse GenCode GenLike GenSpec
  GenFaith GenRound GenObj GenMain GenProcess GenTheorems GenLoss GenDet
  GenCases EndToEnd EndCases Cli CliProofs CliCases Heap HeapProofs
  HeapCases Custom CustomProofs CustomCases Witness WitnessBuild SrcSyntax SrcText
  SrcExec SrcProg SrcStep SrcScalar SrcString SrcCombo SrcDefault SrcArray
  SrcAccess SrcProps SrcSet SrcPlace SrcObject SrcLoops SrcRest SrcSorted
  SrcMain SrcCases SrcInfo SrcTextB SrcStore SrcProgB SrcStepB SrcSetters
  SrcSetObj SrcRep SrcBuildS SrcGuess SrcLoop SrcBuildA SrcBuildO SrcBuildAll
  SrcBuilt SrcBuildW SrcRepFun SrcEnd SrcFluent SrcFluentRun SrcTextG SrcGen
  SrcProgG SrcStepG SrcGenFun SrcGenEnum SrcGenStr SrcGenLoop SrcGenTree SrcGenObj
  SrcGenCode SrcGenAll SrcGenVal SrcGenMerge SrcGenProc SrcGenRun SrcTidy SrcWay
  SrcMaybe SrcMaybeRun SrcTextC SrcShell SrcCli SrcCliRun SrcCliCases SrcServer
  SrcServerRun SrcServerCases SrcShellWay.
Import ListNotations.
Open Scope nat_scope.
Open Scope string_scope.
Open Scope list_scope.

(** ** C75. The model is what the source text does

    Running the Go source of the Validate methods, statement by statement as written in /repo, gives the verdict, error message, document and map-iteration choices the model of Validate.v gives; it never reaches a statement or library call without a meaning. The same for HasDefault/DefaultValue and JSVal.Validate.
    Status: proved. The interpreter (SrcExec.v) and parser (SrcSyntax.v) are the trusted meaning of the Go subset; canonical/in_order are representation invariants of maps (keys listed in order). *)

(* SrcMain.v *)
Theorem C75_source_agrees :
  forall (E : Constraint.env) (hit : string -> bool) (n : nat) (c : constr) 
    (v : gval) (w u : orc),
  Deep E canonical c ->
  in_order v -> agrees (src_validate E hit orders n c v w u) (validate n E c v w).
Proof. exact (@SrcMain.source_agrees). Qed.
Print Assumptions C75_source_agrees.

(* SrcCases.v *)
Theorem C75_source_exact :
  forall (E : Constraint.env) (hit : string -> bool) (n : nat) (c : constr) 
    (v : gval) (w u : orc) (r : Constraint.res) (v' : gval) (w' : orc),
  Deep E canonical c ->
  in_order v ->
  r = Pass \/ r = OOF \/ (exists m : string, r = Fail m) ->
  (exists u' : orc, src_validate E hit orders n c v w u = Some (r, v', w', u')) <->
  validate n E c v w = (r, v', w').
Proof. exact (@SrcCases.source_exact). Qed.
Print Assumptions C75_source_exact.

(* SrcCases.v *)
Theorem C75_source_panics :
  forall (E : Constraint.env) (hit : string -> bool) (n : nat) (c : constr) 
    (v : gval) (w u : orc) (v' : gval) (w' : orc),
  Deep E canonical c ->
  in_order v ->
  (exists (m : string) (u' : orc),
     src_validate E hit orders n c v w u = Some (Panic m, v', w', u')) <->
  (exists m : string, validate n E c v w = (Panic m, v', w')).
Proof. exact (@SrcCases.source_panics). Qed.
Print Assumptions C75_source_panics.

(* SrcCases.v *)
Theorem C75_source_not_stuck :
  forall (E : Constraint.env) (hit : string -> bool) (n : nat) (c : constr) 
    (v : gval) (w u : orc),
  Deep E canonical c -> in_order v -> src_validate E hit orders n c v w u <> None.
Proof. exact (@SrcCases.source_not_stuck). Qed.
Print Assumptions C75_source_not_stuck.

(* SrcDefault.v *)
Theorem C75_src_default_model :
  forall (E : Constraint.env) (hit : string -> bool) (order : string -> Z -> site) 
    (n : nat) (c : constr), src_default E hit order n c = Some (get_default n E c).
Proof. exact (@SrcDefault.src_default_model). Qed.
Print Assumptions C75_src_default_model.

(* SrcMain.v *)
Theorem C75_source_agrees_jsval :
  forall (E : Constraint.env) (hit : string -> bool) (n : nat) (name addr : string)
    (root : constr) (v : gval) (w u : orc),
  Deep E canonical root ->
  in_order v ->
  agrees
    (error_res
       (call_in funcs
          (cx_of E hit orders (src_validate E hit orders n) (src_default E hit orders n)) 1
          "JSVal.Validate" [VJSVal name addr root; VIf LRoot] (start v w u)))
    (jsval_validate n E name addr root v w).
Proof. exact (@SrcMain.source_agrees_jsval). Qed.
Print Assumptions C75_source_agrees_jsval.

(* SrcProg.v *)
Example C75_all_parse :
  forallb
    (fun t : list string => match parse_file t with
                            | Some _ => true
                            | None => false
                            end) texts = true.
Proof. exact (@SrcProg.all_parse). Qed.

(* SrcProg.v *)
Example C75_all_functions :
  Datatypes.length table = Datatypes.length (filter (starts "func ") (concat texts)).
Proof. exact (@SrcProg.all_functions). Qed.

(* SrcCases.v *)
Example C75_person_canonical :
  Deep Cases.env1 canonical root /\ in_order ann /\ in_order dup.
Proof. exact (@SrcCases.person_canonical). Qed.

(* SrcCases.v *)
Example C75_ann_source :
  src_validate Cases.env1 never orders 8 root ann [] [] = Some (Pass, ann', [], []) /\
  src_validate Cases.env1 never orders 8 root ann' [2; 1; 1] [3; 1] =
  Some (Pass, ann', [], []) /\
  (exists (m : string) (v' : gval) (u' : orc),
     src_validate Cases.env1 never orders 8 root dup [] [] = Some (Fail m, v', [], u')).
Proof. exact (@SrcCases.ann_source). Qed.

(* SrcCases.v *)
Example C75_struct_source :
  src_validate (env0 no_refs) never orders 3 (CObj person_defaults)
    (person_ptr (StructCases.person (MString false "") 3)) [] [] =
  Some (Pass, person_ptr (StructCases.person (MString true "bob") 3), [], []) /\
  (exists m : string,
     src_validate (env0 no_refs) never orders 3 (CObj person_defaults)
       (GStruct "Person" (StructCases.person (MString false "") 3)) [] [] =
     Some (Panic m, GStruct "Person" (StructCases.person (MString false "") 3), [], [])) /\
  src_validate (env0 no_refs) never orders 3
    (CObj (Constraint.obj_required ["name"] person_schema))
    (person_ptr (StructCases.person (MString false "") 3)) [] [] =
  Some
    (Fail "object property 'name' is required",
     person_ptr (StructCases.person (MString false "") 3), [], []).
Proof. exact (@SrcCases.struct_source). Qed.

(* SrcCases.v *)
Example C75_struct_canonical :
  Deep (env0 no_refs) canonical (CObj person_defaults) /\
  in_order (person_ptr (StructCases.person (MString false "") 3)).
Proof. exact (@SrcCases.struct_canonical). Qed.

(** ** C76. The source text means what is documented, in every iteration order

    Running the source of Validate: for regular constraints and JSON documents it passes exactly the documents the documentation accepts; for well-formed constraints it does not panic; its verdict is independent of map iteration order where one constraint applies per property; it terminates under the condition on reference cycles; every order of a map's entries is visited by some run and every run visits such an order; loops other than the five that use the document or the constraint's maps have no visible order.
    Status: proved. regular, wf, single and small are the guards of C01, C27, C02 and C28. *)

(* SrcCases.v *)
Theorem C76_source_documented :
  forall (E : Constraint.env) (hit : string -> bool) (c : constr) 
    (v : gval) (w u : orc) (r : Constraint.res) (v' : gval),
  Deep E canonical c ->
  regular E c ->
  DocSpec.doc v ->
  SrcRuns E hit c v w u r v' ->
  r = Pass /\ Satisfies E c v /\ ~ Violates E c v \/
  (exists m : string, r = Fail m) /\ Violates E c v /\ ~ Satisfies E c v.
Proof. exact (@SrcCases.source_documented). Qed.
Print Assumptions C76_source_documented.

(* SrcCases.v *)
Theorem C76_source_no_panic :
  forall (E : Constraint.env) (hit : string -> bool) (c : constr) 
    (v : gval) (w u : orc) (m : string) (v' : gval),
  Deep E canonical c -> wf E c -> jdoc v -> ~ SrcRuns E hit c v w u (Panic m) v'.
Proof. exact (@SrcCases.source_no_panic). Qed.
Print Assumptions C76_source_no_panic.

(* SrcCases.v *)
Theorem C76_source_order_independent :
  forall (E : Constraint.env) (hit : string -> bool) (c : constr) 
    (v : gval) (w1 u1 w2 u2 : orc) (r1 r2 : Constraint.res) (v1 v2 : gval),
  Deep E canonical c ->
  wf E c ->
  Spec.single E c ->
  jdoc v ->
  SrcRuns E hit c v w1 u1 r1 v1 ->
  SrcRuns E hit c v w2 u2 r2 v2 -> (r1 = Pass <-> r2 = Pass) /\ (r1 = Pass -> v1 = v2).
Proof. exact (@SrcCases.source_order_independent). Qed.
Print Assumptions C76_source_order_independent.

(* SrcCases.v *)
Theorem C76_source_other_loops :
  forall (E : Constraint.env) (hit : string -> bool) (n : nat) (c : constr) 
    (v : gval) (w u1 u2 : orc) (r1 : Constraint.res) (v1 : gval) (w1 u1' : orc),
  Deep E canonical c ->
  in_order v ->
  src_validate E hit orders n c v w u1 = Some (r1, v1, w1, u1') ->
  exists (r2 : Constraint.res) (u2' : orc),
    src_validate E hit orders n c v w u2 = Some (r2, v1, w1, u2') /\ same_res r2 r1.
Proof. exact (@SrcCases.source_other_loops). Qed.
Print Assumptions C76_source_other_loops.

(* SrcCases.v *)
Theorem C76_source_terminates :
  forall (E : Constraint.env) (hit : string -> bool) (c : constr) (v : gval) (w u : orc),
  Deep E canonical c ->
  in_order v ->
  finite_refs E ->
  guarded E ->
  small E c -> exists (r : Constraint.res) (v' : gval), SrcRuns E hit c v w u r v'.
Proof. exact (@SrcCases.source_terminates). Qed.
Print Assumptions C76_source_terminates.

(* SrcCases.v *)
Theorem C76_loop_orders :
  forall (cx : ctx) (f : string) (line : Z) (m l : list (val * val)) (s : SrcExec.st),
  cx_site cx = orders ->
  Permutation m l <->
  (exists (w u : orc) (s' : SrcExec.st),
     items cx f line (VMap m) (with_ord w u s) = Some (l, s')).
Proof. exact (@SrcCases.loop_orders). Qed.
Print Assumptions C76_loop_orders.

(* SrcCases.v *)
Example C76_person_canonical :
  Deep Cases.env1 canonical root /\ in_order ann /\ in_order dup.
Proof. exact (@SrcCases.person_canonical). Qed.

(* SrcCases.v *)
Example C76_ann_source_runs :
  forall w u : orc, exists v' : gval, SrcRuns Cases.env1 never root ann w u Pass v'.
Proof. exact (@SrcCases.ann_source_runs). Qed.

(** ** C77. The source text of the struct metadata extraction gives the model's metadata

    Running the text of structinfo.go's extract on any struct type, with the maps of embedded types iterated in any order, returns a map with exactly the entries of the model's extract (property name, Go field, Maybe or not), and panics exactly where the model says a type without fields is embedded.
    Status: proved.  *)

(* SrcInfo.v *)
Theorem C77_source_extract :
  forall (E : Constraint.env) (hit : string -> bool) (g : gval) (u : orc),
  match extract g with
  | Some props =>
      exists (l : list (string * propinfo)) (u' : orc),
        src_extract E hit g u = Ok [VMap (entries VProp l)] (start GNil [] u') /\
        NoDup (keys l) /\ (forall k : string, sget k l = sget k props)
  | None =>
      exists (m : string) (u' : orc), src_extract E hit g u = Ab (Panic m) (start GNil [] u')
  end.
Proof. exact (@SrcInfo.source_extract). Qed.
Print Assumptions C77_source_extract.

(* SrcInfo.v *)
Example C77_outer_source :
  forall (E : Constraint.env) (hit : string -> bool),
  src_extract E hit outer_t [1] =
  Ok
    [VMap
       (entries VProp
          [("Key", {| StructInfo.p_field := "Key"; p_maybe := false |});
           ("id", {| StructInfo.p_field := "Num"; p_maybe := true |})])] 
    (start GNil [] []) /\
  (exists m : string,
     src_extract E hit
       (GStruct "T"
          [({|
              f_name := "MaybeInt";
              f_exported := true;
              f_anon := true;
              f_tag := "";
              f_iface := false
            |}, GMaybe (MInt true 3))]) [] = Ab (Panic m) (start GNil [] [])).
Proof. exact (@SrcInfo.outer_source). Qed.

(** ** C78. The source text of the builder gives the model's validators

    Running the Go source of the builder package and of the constructors and setters it calls, statement by statement over a store of cells, on any schema, resolver and iteration order: Build and BuildWithCtx return a validator whose cells hold exactly the constraint tree and the registered references the model's builder gives, or the model's error, or panic where the model panics. A store holds at most one validator at an address, so the result is determined.
    Status: proved. The interpreter (SrcStore.v) is the trusted meaning of the Go subset the builder uses. Messages agree except that the text says which type is unknown (relation said). build_with/build_schema <> BOOF says the model needs no more fuel; source_answers (C79) discharges it for schemas with finitely many referenced names. *)

(* SrcBuildW.v *)
Theorem C78_src_buildSchema :
  forall (D : bv -> resolver) (tn : nat -> string) (a n : nat) (s : schema) 
    (w : orc) (h : list bv),
  SrcStore.cell a h = Some (BStruct "Builder" []) ->
  build_schema n (D (of_schema s)) s w <> BOOF ->
  exists K : nat,
    forall k : nat,
    K <= k ->
    forall e : list bscope,
    built_ok (bcall (prog D tn) k "Builder.Build" [BPtr a []; of_schema s] (st e h w)) e
      (build_schema n (D (of_schema s)) s w).
Proof. exact (@SrcBuildW.src_buildSchema). Qed.
Print Assumptions C78_src_buildSchema.

(* SrcBuildW.v *)
Theorem C78_src_buildWith :
  forall (D : bv -> resolver) (tn : nat -> string) (b j j' : bv) (n : nat) 
    (s : schema) (w : orc) (h : list bv),
  as_iface j = j ->
  b_isnil j = Some true /\ j' = of_schema s \/ b_isnil j = Some false /\ j' = j ->
  build_with n (D j') s w <> BOOF ->
  exists K : nat,
    forall k : nat,
    K <= k ->
    forall e : list bscope,
    built_ok (bcall (prog D tn) k "Builder.BuildWithCtx" [b; of_schema s; j] (st e h w)) e
      (build_with n (D j') s w).
Proof. exact (@SrcBuildW.src_buildWith). Qed.
Print Assumptions C78_src_buildWith.

(* SrcBuilt.v *)
Theorem C78_src_build :
  forall (D : bv -> resolver) (tn : nat -> string) (V sv : bv) (cc r H : nat) (x : schema),
  height x <= H -> forall k : nat, builds D tn V sv cc r (2 * H + 4 + k) x.
Proof. exact (@SrcBuilt.src_build). Qed.
Print Assumptions C78_src_build.

(* SrcBuilt.v *)
Theorem C78_src_compile :
  forall (D : bv -> resolver) (tn : nat -> string) (sv jsctx : bv) 
    (rc : constr) (cc r va cm : nat),
  as_iface jsctx = jsctx ->
  va <> cm ->
  cc <> va /\ cc <> cm /\ r <> va /\ r <> cm ->
  forall n : nat, comp_spec D tn sv jsctx rc cc r va cm n.
Proof. exact (@SrcBuilt.src_compile). Qed.
Print Assumptions C78_src_compile.

(* SrcRepFun.v *)
Theorem C78_rep_one :
  forall (V : bv) (lo hi lo' hi' : nat) (h : list bv) (v : bv) (c c' : constr),
  rep V lo hi h v c -> rep V lo' hi' h v c' -> c = c'.
Proof. exact (@SrcRepFun.rep_one). Qed.
Print Assumptions C78_rep_one.

(* SrcRepFun.v *)
Theorem C78_validator_one :
  forall (h : list bv) (va : nat) (c : constr) (rf : refs) (c' : constr) (rf' : refs),
  validator h va c rf -> validator h va c' rf' -> c = c' /\ rf = rf'.
Proof. exact (@SrcRepFun.validator_one). Qed.
Print Assumptions C78_validator_one.

(* SrcProgB.v *)
Example C78_all_parse_b :
  forallb
    (fun t : list string =>
     match parse_file (uncomment false t) with
     | Some _ => true
     | None => false
     end) texts_b = true.
Proof. exact (@SrcProgB.all_parse_b). Qed.

(* SrcProgB.v *)
Example C78_all_functions_b :
  Datatypes.length
    (flat_map (fun d : decl => match d with
                               | DFunc f => [f]
                               | _ => []
                               end) decls_b) =
  Datatypes.length (filter (starts "func ") (concat texts_b)).
Proof. exact (@SrcProgB.all_functions_b). Qed.

(* SrcProgB.v *)
Example C78_names_once :
  Datatypes.length (nodup string_dec (map fst table_b)) = Datatypes.length table_b.
Proof. exact (@SrcProgB.names_once). Qed.

(* SrcProgB.v *)
Example C78_all_structs :
  Datatypes.length layouts =
  Datatypes.length
    (filter (fun l : string => starts "type " l && says_struct l)
       (concat ([text_interface; text_reference] ++ texts_b))).
Proof. exact (@SrcProgB.all_structs). Qed.

(* SrcEnd.v *)
Example C78_tree_source :
  exists (h' : list bv) (w' : orc),
    bcall (prog names_b (fun _ : nat => "")) 40 "Builder.Build" [BPtr 0 []; BSch tree]
      (st [] [BStruct "Builder" []] []) = BOk [BPtr 2 []; BNil] (st [] h' w') /\
    Datatypes.length h' = 37.
Proof. exact (@SrcEnd.tree_source). Qed.

(** ** C79. From schema to verdict, by the source text alone

    For every sound schema whose references name finitely many schemas, the text of Build returns a validator, and the text of Validate run on that validator accepts a JSON document iff the document is valid against the schema and rejects it iff it is invalid (same guard as C43); on schemas that make progress every run ends. Faulty schemas that are not hollow give an error. On every schema the text of Build ends and meets no construct without a meaning.
    Status: proved. all_plain is the guard of C43 (every exclusion a refuted feature); sound, erroneous, hollow are those of C41. *)

(* SrcEnd.v *)
Theorem C79_source_end_to_end :
  forall (E : Constraint.env) (hit : string -> bool) (tn : nat -> string) 
    (D : bv -> resolver) (s : schema) (bytes : bool) (U : list string) 
    (a : nat) (h : list bv) (w : orc),
  Sorted s ->
  (forall (m : string) (s' : schema),
   BuildSpec.lookup (D (of_schema s)) m = Some s' -> Sorted s') ->
  (forall m : string, Referred (D (of_schema s)) s m -> In m U) ->
  SrcStore.cell a h = Some (BStruct "Builder" []) ->
  all_plain E (D (of_schema s)) s bytes s ->
  sound (D (of_schema s)) s ->
  exists K : nat,
    forall k : nat,
    K <= k ->
    forall e : list bscope,
    exists (va : nat) (h' : list bv) (w' : orc) (c : constr) (rf : refs),
      bcall (prog D tn) k "Builder.Build" [BPtr a []; of_schema s] (st e h w) =
      BOk [BPtr va []; BNil] (st e h' w') /\
      validator h' va c rf /\
      (forall (c1 : constr) (rf1 : refs), validator h' va c1 rf1 -> c1 = c /\ rf1 = rf) /\
      (forall (v : gval) (o u : orc) (r : Constraint.res) (v' : gval),
       json v ->
       (bytes = true -> SchemaSpec.one_byte v) ->
       SrcRuns (with_refs E rf) hit c v o u r v' ->
       r = Pass /\ Valid E (D (of_schema s)) s s v /\ ~ Invalid E (D (of_schema s)) s s v \/
       (exists m : string, r = Fail m) /\
       Invalid E (D (of_schema s)) s s v /\ ~ Valid E (D (of_schema s)) s s v) /\
      (SchemaMain.steady (D (of_schema s)) s ->
       scalar_defaults (D (of_schema s)) s ->
       forall (v : gval) (o u : orc),
       json v ->
       (bytes = true -> SchemaSpec.one_byte v) ->
       exists (r : Constraint.res) (v' : gval), SrcRuns (with_refs E rf) hit c v o u r v').
Proof. exact (@SrcEnd.source_end_to_end). Qed.
Print Assumptions C79_source_end_to_end.

(* SrcEnd.v *)
Theorem C79_source_reports :
  forall (tn : nat -> string) (D : bv -> resolver) (s : schema) (U : list string) 
    (a : nat) (h : list bv) (w : orc),
  Sorted s ->
  (forall (m : string) (s' : schema),
   BuildSpec.lookup (D (of_schema s)) m = Some s' -> Sorted s') ->
  (forall m : string, Referred (D (of_schema s)) s m -> In m U) ->
  SrcStore.cell a h = Some (BStruct "Builder" []) ->
  erroneous (D (of_schema s)) s ->
  ~ hollow (D (of_schema s)) s ->
  exists K : nat,
    forall k : nat,
    K <= k ->
    forall e : list bscope,
    exists (m : string) (h' : list bv) (w' : orc),
      bcall (prog D tn) k "Builder.Build" [BPtr a []; of_schema s] (st e h w) =
      BOk [BNil; BMsg m] (st e h' w').
Proof. exact (@SrcEnd.source_reports). Qed.
Print Assumptions C79_source_reports.

(* SrcEnd.v *)
Theorem C79_source_answers :
  forall (tn : nat -> string) (D : bv -> resolver) (s : schema) (U : list string) 
    (a : nat) (h : list bv) (w : orc),
  Sorted s ->
  (forall (m : string) (s' : schema),
   BuildSpec.lookup (D (of_schema s)) m = Some s' -> Sorted s') ->
  (forall m : string, Referred (D (of_schema s)) s m -> In m U) ->
  SrcStore.cell a h = Some (BStruct "Builder" []) ->
  exists K : nat,
    forall k : nat,
    K <= k ->
    forall e : list bscope,
    (exists (vs h' : list bv) (w' : orc),
       bcall (prog D tn) k "Builder.Build" [BPtr a []; of_schema s] (st e h w) =
       BOk vs (st e h' w')) \/
    (exists m : string,
       bcall (prog D tn) k "Builder.Build" [BPtr a []; of_schema s] (st e h w) = BPn m).
Proof. exact (@SrcEnd.source_answers). Qed.
Print Assumptions C79_source_answers.

(* SrcEnd.v *)
Example C79_tree_end_to_end :
  forall w : orc,
  exists K : nat,
    forall k : nat,
    K <= k ->
    exists (va : nat) (h' : list bv) (w' : orc) (c : constr) (rf : refs),
      bcall (prog names_b (fun _ : nat => "")) k "Builder.Build" [
        BPtr 0 []; BSch tree] (st [] [BStruct "Builder" []] w) =
      BOk [BPtr va []; BNil] (st [] h' w') /\
      validator h' va c rf /\
      (forall o u : orc,
       (exists v' : gval, SrcRuns (with_refs env_t rf) never c oak o u Pass v') /\
       (exists (m : string) (v' : gval),
          SrcRuns (with_refs env_t rf) never c elm o u (Fail m) v')).
Proof. exact (@SrcEnd.tree_end_to_end). Qed.

(** ** C80. The source text of the fluent API builds what its calls say

    Every expression of the fluent API (constructors, setters in any number and order, nested expressions as arguments, combinators with or without Reduce, references), run from the Go source of the constructors and setters, returns one value; the cells it leaves represent exactly one constraint tree, the one whose every aspect is the argument of the last call of its setter (C40); no cell that existed before is changed. The text of Validate run on what stands in the store then accepts exactly the documents the documentation accepts, for regular constraints (C76).
    Status: proved. tidy: the maps inside default values list their keys in order, as a Go map has no order of its own. Setters are called on the value the previous call returned, as the Go chain does; two variables holding one constraint are outside the syntax fl. *)

(* SrcFluentRun.v *)
Theorem C80_fluent_source :
  forall (D : bv -> resolver) (tn : nat -> string) (V : bv) (f : fl) 
    (k : nat) (e : list bscope) (h : list bv) (w : orc),
  exists (v : bv) (h' : list bv),
    ev D tn V k f (st e h w) = BOk [v] (st e h' w) /\
    (forall x : nat, x < Datatypes.length h -> SrcStore.cell x h' = SrcStore.cell x h) /\
    rep V (Datatypes.length h) (Datatypes.length h') h' v (den f) /\
    (forall (lo hi : nat) (c : constr), rep V lo hi h' v c -> c = den f).
Proof. exact (@SrcFluentRun.fluent_source). Qed.
Print Assumptions C80_fluent_source.

(* SrcFluentRun.v *)
Theorem C80_fluent_end_to_end :
  forall (E : Constraint.env) (hit : string -> bool) (D : bv -> resolver) 
    (tn : nat -> string) (V : bv) (f : fl) (k : nat) (e : list bscope) 
    (h : list bv) (w : orc),
  (forall (n : string) (c : constr), e_refs E n = Some c -> exists g : fl, c = den g /\ tidy g) ->
  tidy f ->
  regular E (den f) ->
  exists (v : bv) (h' : list bv),
    ev D tn V k f (st e h w) = BOk [v] (st e h' w) /\
    (forall (lo hi : nat) (c : constr),
     rep V lo hi h' v c ->
     forall (x : gval) (o u : orc) (r : Constraint.res) (x' : gval),
     DocSpec.doc x ->
     SrcRuns E hit c x o u r x' ->
     r = Pass /\ Satisfies E (den f) x /\ ~ Violates E (den f) x \/
     (exists m : string, r = Fail m) /\ Violates E (den f) x /\ ~ Satisfies E (den f) x).
Proof. exact (@SrcFluentRun.fluent_end_to_end). Qed.
Print Assumptions C80_fluent_end_to_end.

(* SrcFluentRun.v *)
Theorem C80_fluent_canonical :
  forall E : Constraint.env,
  (forall (n : string) (c : constr), e_refs E n = Some c -> exists g : fl, c = den g /\ tidy g) ->
  forall f : fl, tidy f -> Deep E canonical (den f).
Proof. exact (@SrcFluentRun.fluent_canonical). Qed.
Print Assumptions C80_fluent_canonical.

(* SrcFluentRun.v *)
Example C80_person_said :
  den person_fl = person /\ den (FRef "person") = root.
Proof. exact (@SrcFluentRun.person_said). Qed.

(* SrcFluentRun.v *)
Example C80_person_run :
  exists h' : list bv,
    ev (fun (_ : bv) (_ : string) => ROther) (fun _ : nat => "") (BPtr 0 []) 20 person_fl
      (st [] [BStruct "JSVal" []] []) = BOk [BPtr 6 []] (st [] h' []) /\
    Datatypes.length h' = 19.
Proof. exact (@SrcFluentRun.person_run). Qed.

(* SrcFluentRun.v *)
Example C80_person_tidy :
  tidy person_fl /\
  tidy (FRef "person") /\
  (forall (n : string) (c : constr),
   e_refs Cases.env1 n = Some c -> exists g : fl, c = den g /\ tidy g).
Proof. exact (@SrcFluentRun.person_tidy). Qed.

(* SrcFluentRun.v *)
Example C80_person_end_to_end :
  forall (o u : orc) (k : nat),
  exists (v : bv) (h' : list bv),
    ev (fun (_ : bv) (_ : string) => ROther) (fun _ : nat => "") (BPtr 0 []) k person_fl
      (st [] [] []) = BOk [v] (st [] h' []) /\
    (forall (lo hi : nat) (c : constr),
     rep (BPtr 0 []) lo hi h' v c ->
     (exists (r : Constraint.res) (x' : gval), SrcRuns Cases.env1 never c ann o u r x') /\
     (forall (r : Constraint.res) (x' : gval),
      SrcRuns Cases.env1 never c ann o u r x' -> r = Pass)).
Proof. exact (@SrcFluentRun.person_end_to_end). Qed.

(** ** C81. The source text of the code generator writes what the model of the generator says

    Interpreting the text of generator.go (generateCode and the fourteen functions it calls) on any constraint writes exactly the text the model of the generator gives, takes the orders of its map loops in the same way, returns an error where the model reports one (with the same message up to its tail) and panics where the model panics; it meets no construct without a meaning and ends with enough fuel. So every theorem about generated code (C47-C49, C65-C69) is about the text of generator.go.
    Status: proved. The interpreter (SrcGen.v) is the trusted meaning of the Go subset of generator.go. tame: no positional item of an array makes the generator report an error (generateArrayCode drops that error, and the model then forgets the map orders the failed item used). *)

(* SrcGenAll.v *)
Theorem C81_generate_source :
  forall (G : genv) (cm : string) (c : constr) (w : orc),
  tame G cm c ->
  exists K : nat,
    forall k : nat,
    K <= k ->
    match emit G cm c w with
    | GOk (x, w') => source_generate G cm k c w = QOk [QNil] (mk [] [x] [] w')
    | GErr m =>
        exists (m' t : string) (w' : orc),
          source_generate G cm k c w = QOk [QErr m'] (mk [] [t] [] w') /\ starts m m' = true
    | GPanic _ => exists m' : string, source_generate G cm k c w = QPn m'
    end.
Proof. exact (@SrcGenAll.generate_source). Qed.
Print Assumptions C81_generate_source.

(* SrcProgG.v *)
Example C81_parses_g :
  match parse_file text_generator with
  | Some _ => true
  | None => false
  end = true.
Proof. exact (@SrcProgG.parses_g). Qed.

(* SrcProgG.v *)
Example C81_all_functions_g :
  Datatypes.length
    (flat_map (fun d : decl => match d with
                               | DFunc f => [f]
                               | _ => []
                               end) decls_g) =
  Datatypes.length (filter (starts "func ") text_generator).
Proof. exact (@SrcProgG.all_functions_g). Qed.

(* SrcProgG.v *)
Example C81_names_once_g :
  Datatypes.length (nodup string_dec (map fst table_g)) = Datatypes.length table_g.
Proof. exact (@SrcProgG.names_once_g). Qed.

(* SrcGenAll.v *)
Example C81_sample_tame :
  tame sample_genv "M" sample_tree.
Proof. exact (@SrcGenAll.sample_tame). Qed.

(* SrcGenAll.v *)
Example C81_sample_source :
  exists x : string,
    source_generate sample_genv "M" 30 sample_tree [1; 2; 3] = QOk [QNil] (mk [] [x] [] []) /\
    starts "jsval.Object()" x = true /\ 200 < String.length x.
Proof. exact (@SrcGenAll.sample_source). Qed.

(** ** C82. The source text of Generator.Process writes the file the model of the generator says

    Interpreting the text of generator.go from Generator.Process down (references gathered from every validator, names given to unnamed validators, references and validators sorted, variable declarations, init function, references stripped of leading space, SetReference calls, format.Source) on any list of validators writes exactly the file the model gives, leaves the validators named as the model names them, returns an error where the model reports one and panics where the model panics. In particular the file does not depend on the orders in which the reference maps are gone through.
    Status: proved. The interpreter (SrcGen.v) is the trusted meaning of the Go subset of generator.go. format.Source is modelled as: accepted files are returned as they are, others are an error. tame as in C81. The source goes through the references of each validator, the model once through all: the orders left over have to agree, and model_order gives such an order for any orders of the source. *)

(* SrcGenRun.v *)
Theorem C82_process_source :
  forall (G : genv) (vs : list Generator.validator),
  Forall (fun v : Generator.validator => ssorted (v_refs v)) vs ->
  (forall v : Generator.validator, In v vs -> tame G (map_name (merge_refs vs)) (v_root v)) ->
  (forall (n : string) (c : constr),
   sget n (merge_refs vs) = Some c -> tame G (map_name (merge_refs vs)) c) ->
  exists K : nat,
    forall k : nat,
    K <= k ->
    forall w w' : list nat,
    skipn (refs_count vs) w = skipn (Datatypes.length (merge_refs vs)) w' ->
    match process G vs w' with
    | GOk (x, w1) => source_process G k vs w = QOk [QNil] (mk [] [x] (name_all vs) w1)
    | GErr m =>
        exists (m' : string) (s : qst),
          source_process G k vs w = QOk [QErr m'] s /\ starts m m' = true
    | GPanic _ => exists m' : string, source_process G k vs w = QPn m'
    end.
Proof. exact (@SrcGenRun.process_source). Qed.
Print Assumptions C82_process_source.

(* SrcGenRun.v *)
Theorem C82_model_order_rest :
  forall (vs : list Generator.validator) (w : list nat),
  skipn (refs_count vs) w = skipn (Datatypes.length (merge_refs vs)) (model_order vs w).
Proof. exact (@SrcGenRun.model_order_rest). Qed.
Print Assumptions C82_model_order_rest.

(* SrcGenRun.v *)
Example C82_case_sorted :
  Forall (fun v : Generator.validator => ssorted (v_refs v)) [v1; v2].
Proof. exact (@SrcGenRun.case_sorted). Qed.

(* SrcGenRun.v *)
Example C82_case_source_process :
  exists x : string,
    source_process G0 30 [v1; v2] [] = QOk [QNil] (mk [] [x] (name_all [v1; v2]) []) /\
    match process G0 [v1; v2] [] with
    | GOk (y, _) => x = y
    | _ => False
    end /\ 300 < String.length x.
Proof. exact (@SrcGenRun.case_source_process). Qed.

(* SrcGenRun.v *)
Example C82_case_source_fails :
  exists (m : string) (s : qst),
    source_process G0 30 [GenCases.val (CNot CNull)] [] = QOk [QErr m] s /\
    starts "syntax error" m = true.
Proof. exact (@SrcGenRun.case_source_fails). Qed.

(** ** C83. From the source text of the generator to the validators its files build

    For every list of validators whose contents the generator can express (C47), the file written by the text of generator.go is accepted by the model of the Go front end, its init function runs to the end, and each validator it leaves under its name gives, on every document, exactly the results of the validator it was generated from.
    Status: proved. C82 joined with C47; the writer is the text of generator.go, the reader the model of the Go front end (GoLang, GoEval). *)

(* SrcGenRun.v *)
Theorem C83_source_generated_equivalent :
  forall (E : Constraint.env) (G : genv) (vs : list Generator.validator),
  Forall (fun v : Generator.validator => ssorted (v_refs v)) vs ->
  names_ok vs ->
  contents_ok vs ->
  (forall v : Generator.validator, In v vs -> GenSpec.faithful (v_root v)) ->
  (forall (n : string) (c : constr), sget n (merge_refs vs) = Some c -> GenSpec.faithful c) ->
  exists K : nat,
    forall k : nat,
    K <= k ->
    forall w : orc,
    exists (s : string) (w' : orc) (st : estate),
      source_process G k vs w = QOk [QNil] (mk [] [s] (name_all vs) w') /\
      run_go s = Some st /\
      (forall (i : nat) (v : Generator.validator),
       nth_error vs i = Some v ->
       agree E (own_refs v) (fun n : string => sget n (merge_refs vs)) (v_root v) ->
       exists j : jsv,
         sget (v_name (Generator.named i v)) (e_vars st) = Some (VJ j) /\
         j_name j = v_name (Generator.named i v) /\
         Same E (own_refs v) (v_root v) (run_refs st) (j_root j) /\
         (forall (addr addr' : string) (n : nat) (x : gval) (r : Constraint.res) (x' : gval),
          outcomes E (own_refs v) (v_name (Generator.named i v)) addr (v_root v) n x r x' <->
          outcomes E (run_refs st) (j_name j) addr' (j_root j) n x r x')).
Proof. exact (@SrcGenRun.source_generated_equivalent). Qed.
Print Assumptions C83_source_generated_equivalent.

(* SrcGenRun.v *)
Theorem C83_contents_tame :
  forall (G : genv) (vs : list Generator.validator),
  contents_ok vs ->
  (forall v : Generator.validator, In v vs -> tame G (map_name (merge_refs vs)) (v_root v)) /\
  (forall (n : string) (c : constr),
   sget n (merge_refs vs) = Some c -> tame G (map_name (merge_refs vs)) c).
Proof. exact (@SrcGenRun.contents_tame). Qed.
Print Assumptions C83_contents_tame.

(* SrcGenRun.v *)
Theorem C83_emittable_tame :
  forall (G : genv) (hm : bool) (c : constr),
  c = CNil \/ emittable hm c -> tame G (cm_of hm) c.
Proof. exact (@SrcGenRun.emittable_tame). Qed.
Print Assumptions C83_emittable_tame.

(* SrcGenRun.v *)
Example C83_case_source_equivalent :
  exists K : nat,
    forall k : nat,
    K <= k ->
    forall w : orc,
    exists (s : string) (w' : orc) (st : estate) (j1 j2 : jsv),
      source_process G0 k [v1; v2] w = QOk [QNil] (mk [] [s] (name_all [v1; v2]) w') /\
      run_go s = Some st /\
      sget "V0" (e_vars st) = Some (VJ j1) /\
      sget "Other" (e_vars st) = Some (VJ j2) /\
      Same E0 (own_refs v1) o1 (run_refs st) (j_root j1).
Proof. exact (@SrcGenRun.case_source_equivalent). Qed.

(** ** C84. From a schema through generated code to a verdict, everything from source text

    Build as written in builder/ on a schema; Process as written in generator.go on the validator it returns; the file it writes, run; Validate as written on the validator the file leaves. For every schema every part of which is plain and that the generator can express (C65), all four succeed and the last answers pass exactly on the documents valid against the schema and an error on the others, whatever the orders of the map loops; for steady schemas it always answers. Running any generated file leaves only constraints in canonical form.
    Status: proved. The three interpreters are the trusted meaning of the Go text; the generated file is run by the model of the Go front end and of the API (GoLang, GoEval). same: which references are the very object that is the root (pointer identity, a parameter; the root is written once more where it is left out). *)

(* SrcWay.v *)
Theorem C84_source_whole_way :
  forall (E : Constraint.env) (G : genv) (hit : string -> bool) (tn : nat -> string)
    (D : bv -> resolver) (s : schema) (bytes : bool) (U : list string) 
    (a : nat) (h : list bv) (w : orc),
  Sorted s ->
  (forall (m : string) (s' : schema),
   BuildSpec.lookup (D (of_schema s)) m = Some s' -> Sorted s') ->
  (forall m : string, Referred (D (of_schema s)) s m -> In m U) ->
  SrcStore.cell a h = Some (BStruct "Builder" []) ->
  all_plain E (D (of_schema s)) s bytes s ->
  sound (D (of_schema s)) s ->
  codable (D (of_schema s)) s ->
  exists K : nat,
    forall k : nat,
    K <= k ->
    forall e : list bscope,
    exists (va : nat) (h' : list bv) (w' : orc) (c : constr) (rf : refs),
      bcall (prog D tn) k "Builder.Build" [BPtr a []; of_schema s] (st e h w) =
      BOk [BPtr va []; BNil] (st e h' w') /\
      validator h' va c rf /\
      (forall (c1 : constr) (rf1 : refs), validator h' va c1 rf1 -> c1 = c /\ rf1 = rf) /\
      (forall same : list string,
       (forall (r : string) (x : constr), In r same -> sget r rf = Some x -> x = c) ->
       exists K2 : nat,
         forall k2 : nat,
         K2 <= k2 ->
         forall wg : orc,
         exists (code : string) (wg' : orc) (st : estate) (j : jsv),
           source_process G k2 [unnamed c rf same] wg =
           QOk [QNil] (mk [] [code] (name_all [unnamed c rf same]) wg') /\
           run_go code = Some st /\
           sget "V0" (e_vars st) = Some (VJ j) /\
           j_name j = "V0" /\
           src_speaks_for E hit (D (of_schema s)) s bytes (run_refs st) "V0" (j_root j)).
Proof. exact (@SrcWay.source_whole_way). Qed.
Print Assumptions C84_source_whole_way.

(* SrcWay.v *)
Theorem C84_generated_way :
  forall (E : Constraint.env) (G : genv) (hit : string -> bool) (D : bv -> resolver)
    (s : schema) (bytes : bool) (w : orc),
  Sorted s ->
  (forall (m : string) (s' : schema),
   BuildSpec.lookup (D (of_schema s)) m = Some s' -> Sorted s') ->
  forall (n0 : nat) (c : constr) (rf : refs) (log same : list string),
  build_with n0 (D (of_schema s)) s w = Built c rf log ->
  all_plain E (D (of_schema s)) s bytes s ->
  codable (D (of_schema s)) s ->
  (forall (r : string) (x : constr), In r same -> sget r rf = Some x -> x = c) ->
  exists K : nat,
    forall k : nat,
    K <= k ->
    forall wg : orc,
    exists (code : string) (wg' : orc) (st : estate) (j : jsv),
      source_process G k [unnamed c rf same] wg =
      QOk [QNil] (mk [] [code] (name_all [unnamed c rf same]) wg') /\
      run_go code = Some st /\
      sget "V0" (e_vars st) = Some (VJ j) /\
      j_name j = "V0" /\
      src_speaks_for E hit (D (of_schema s)) s bytes (run_refs st) "V0" (j_root j).
Proof. exact (@SrcWay.generated_way). Qed.
Print Assumptions C84_generated_way.

(* SrcTidy.v *)
Theorem C84_run_canonical :
  forall (E : Constraint.env) (text : string) (s : estate) (x : string) (j : jsv),
  run_go text = Some s ->
  sget x (e_vars s) = Some (VJ j) -> Deep (set_refs E (run_refs s)) canonical (j_root j).
Proof. exact (@SrcTidy.run_canonical). Qed.
Print Assumptions C84_run_canonical.

(* SrcTidy.v *)
Theorem C84_run_neat :
  forall (text : string) (s : estate), run_go text = Some s -> neat_s s.
Proof. exact (@SrcTidy.run_neat). Qed.
Print Assumptions C84_run_neat.

(* SrcWay.v *)
Example C84_tree_whole_way :
  forall w : orc,
  exists K : nat,
    forall k : nat,
    K <= k ->
    exists (va : nat) (h' : list bv) (w' : orc) (c : constr) (rf : refs),
      bcall (prog names_b (fun _ : nat => "")) k "Builder.Build" [
        BPtr 0 []; BSch tree] (st [] [BStruct "Builder" []] w) =
      BOk [BPtr va []; BNil] (st [] h' w') /\
      validator h' va c rf /\
      (exists K2 : nat,
         forall k2 : nat,
         K2 <= k2 ->
         forall wg : orc,
         exists (code : string) (wg' : orc) (st : estate) (j : jsv),
           source_process G0 k2 [unnamed c rf []] wg =
           QOk [QNil] (mk [] [code] (name_all [unnamed c rf []]) wg') /\
           run_go code = Some st /\
           sget "V0" (e_vars st) = Some (VJ j) /\
           (exists n : nat,
              forall o u : orc,
              exists (v' : gval) (o' u' : orc),
                src_jsval (set_refs env_t (run_refs st)) never n "V0" "" (j_root j) oak o u =
                Some (Pass, v', o', u')) /\
           (exists n : nat,
              forall o u : orc,
              exists (m : string) (v' : gval) (o' u' : orc),
                src_jsval (set_refs env_t (run_refs st)) never n "V0" "" (j_root j) elm o u =
                Some (Fail m, v', o', u'))).
Proof. exact (@SrcWay.tree_whole_way). Qed.

(** ** C85. The source text of maybe.go does what the model of the Maybe types says

    Interpreting the text of maybe.go on any value of the six Maybe types: Valid, Value, Reset, Set, MarshalJSON and UnmarshalJSON return and leave behind exactly what the model of the Maybe types says, and the text of an error of Set is what the text of ErrInvalidMaybeValue.Error returns. Every method answers on every argument without panic. After Set returned nil the value is Valid; after an error of Set or UnmarshalJSON it is as it was; after Reset it is not Valid and its content stays. So the theorems about Maybe values (C36-C38) are about the text of maybe.go.
    Status: proved. The interpreter (SrcMaybe.v) is the trusted meaning of the Go subset of maybe.go; time.Parse, Format, json.Marshal and json.Unmarshal of one basic value are parameters or as in the model. A value receiver keeps its changes to itself, a pointer receiver passes them on (read off the text). *)

(* SrcMaybeRun.v *)
Theorem C85_set_source :
  forall (tp : string -> Z + string) (tf : Z -> string) (m : maybe) (x : gval),
  match m_set tp m x with
  | inl m' => SrcMaybe.method tp tf (cell m) "Set" [XG x] = Some (cell m', [XNil])
  | inr t =>
      exists ev : mv,
        SrcMaybe.method tp tf (cell m) "Set" [XG x] = Some (cell m, [ev]) /\
        error_text tp tf ev = Some t
  end.
Proof. exact (@SrcMaybeRun.set_source). Qed.
Print Assumptions C85_set_source.

(* SrcMaybeRun.v *)
Theorem C85_unmarshal_source :
  forall (tp : string -> Z + string) (tf : Z -> string) (m : maybe) (j : Maybe.json),
  match m_unmarshal tp m j with
  | Some m' =>
      SrcMaybe.method tp tf (cell m) "UnmarshalJSON" [XJson j] = Some (cell m', [XNil])
  | None =>
      exists (ev : mv) (t : string),
        SrcMaybe.method tp tf (cell m) "UnmarshalJSON" [XJson j] = Some (cell m, [ev]) /\
        error_text tp tf ev = Some t
  end.
Proof. exact (@SrcMaybeRun.unmarshal_source). Qed.
Print Assumptions C85_unmarshal_source.

(* SrcMaybeRun.v *)
Theorem C85_marshal_source :
  forall (tp : string -> Z + string) (tf : Z -> string) (m : maybe),
  SrcMaybe.method tp tf (cell m) "MarshalJSON" [] =
  Some
    (cell m,
     match m_marshal tf m with
     | Some j => [XJson j; XNil]
     | None => [XNil; XErr "json.Marshal"]
     end).
Proof. exact (@SrcMaybeRun.marshal_source). Qed.
Print Assumptions C85_marshal_source.

(* SrcMaybeRun.v *)
Theorem C85_valid_source :
  forall (tp : string -> Z + string) (tf : Z -> string) (m : maybe),
  SrcMaybe.method tp tf (cell m) "Valid" [] = Some (cell m, [XG (gbool (m_valid m))]).
Proof. exact (@SrcMaybeRun.valid_source). Qed.
Print Assumptions C85_valid_source.

(* SrcMaybeRun.v *)
Theorem C85_value_source :
  forall (tp : string -> Z + string) (tf : Z -> string) (m : maybe),
  SrcMaybe.method tp tf (cell m) "Value" [] = Some (cell m, [XG (m_value m)]).
Proof. exact (@SrcMaybeRun.value_source). Qed.
Print Assumptions C85_value_source.

(* SrcMaybeRun.v *)
Theorem C85_reset_source :
  forall (tp : string -> Z + string) (tf : Z -> string) (m : maybe),
  SrcMaybe.method tp tf (cell m) "Reset" [] = Some (cell (m_reset m), []).
Proof. exact (@SrcMaybeRun.reset_source). Qed.
Print Assumptions C85_reset_source.

(* SrcMaybeRun.v *)
Theorem C85_error_source :
  forall (tp : string -> Z + string) (tf : Z -> string) (x : gval),
  error_text tp tf (invalid x) = Some (err_invalid_maybe x).
Proof. exact (@SrcMaybeRun.error_source). Qed.
Print Assumptions C85_error_source.

(* SrcMaybeRun.v *)
Theorem C85_layout_source :
  forall m : maybe,
  match cell m with
  | XStruct T fs =>
      combine (map fst fs) [true; false] = fields_of T /\
      Forall2 (fun (f : string * mv) (t : ty) => of_type (snd f) t = true) fs (types_of T)
  | _ => False
  end.
Proof. exact (@SrcMaybeRun.layout_source). Qed.
Print Assumptions C85_layout_source.

(* SrcMaybeRun.v *)
Theorem C85_maybe_source_answers :
  forall (tp : string -> Z + string) (tf : Z -> string) (m : maybe), answers tp tf (cell m).
Proof. exact (@SrcMaybeRun.maybe_source_answers). Qed.
Print Assumptions C85_maybe_source_answers.

(* SrcMaybeRun.v *)
Theorem C85_maybe_source_laws :
  forall (tp : string -> Z + string) (tf : Z -> string) (m : maybe),
  (forall (x : gval) (r ev : mv),
   SrcMaybe.method tp tf (cell m) "Set" [XG x] = Some (r, [ev]) ->
   ev = XNil /\ SrcMaybe.method tp tf r "Valid" [] = Some (r, [XG (gbool true)]) \/
   r = cell m /\ (exists t : string, error_text tp tf ev = Some t)) /\
  (exists r : mv,
     SrcMaybe.method tp tf (cell m) "Reset" [] = Some (r, []) /\
     SrcMaybe.method tp tf r "Valid" [] = Some (r, [XG (gbool false)]) /\
     (forall g : gval,
      SrcMaybe.method tp tf (cell m) "Value" [] = Some (cell m, [XG g]) ->
      SrcMaybe.method tp tf r "Value" [] = Some (r, [XG g]))) /\
  (forall (j : Maybe.json) (r ev : mv),
   SrcMaybe.method tp tf (cell m) "UnmarshalJSON" [XJson j] = Some (r, [ev]) ->
   ev = XNil \/ r = cell m /\ (exists t : string, error_text tp tf ev = Some t)).
Proof. exact (@SrcMaybeRun.maybe_source_laws). Qed.
Print Assumptions C85_maybe_source_laws.

(* SrcMaybeRun.v *)
Example C85_ex_set :
  SrcMaybe.method ex_tp ex_tf (cell zero_MInt) "Set" [XG (GInt "int8" Kint8 (-3))] =
  Some (cell (MInt true (-3)), [XNil]).
Proof. exact (@SrcMaybeRun.ex_set). Qed.

(* SrcMaybeRun.v *)
Example C85_ex_set_time :
  SrcMaybe.method ex_tp ex_tf (cell zero_MTime) "Set" [XG (gstr "2016-01-01T00:00:00Z")] =
  Some (cell (MTime true 1451606400), [XNil]).
Proof. exact (@SrcMaybeRun.ex_set_time). Qed.

(* SrcMaybeRun.v *)
Example C85_ex_set_named :
  exists ev : mv,
    SrcMaybe.method ex_tp ex_tf (cell zero_MString) "Set" [XG (GStr "main.Name" "a")] =
    Some (cell zero_MString, [ev]) /\
    error_text ex_tp ex_tf ev = Some "invalid Maybe value: (main.Name)".
Proof. exact (@SrcMaybeRun.ex_set_named). Qed.

(* SrcMaybeRun.v *)
Example C85_ex_time_flag :
  exists r : mv,
    SrcMaybe.method ex_tp ex_tf (cell zero_MTime) "UnmarshalJSON"
      [XJson (JStr "2016-01-01T00:00:00Z")] = Some (r, [XNil]) /\
    SrcMaybe.method ex_tp ex_tf r "Valid" [] = Some (r, [XG (gbool false)]).
Proof. exact (@SrcMaybeRun.ex_time_flag). Qed.

(** ** C86. The source text of the jsval command does what the model of the command says

    Interpreting the text of cmd/jsval/jsval.go, _main started with any arguments and options on any files ends as follows. If the first argument is server: the status is 0 exactly if the flags parse and the server's Run ends without an error, and no file is touched. Otherwise, for every option record, document, pointer list, prefix and output file, and every behaviour of os.Open, os.Create, encoding/json, jspointer, jsschema, jsref and of writing, and every map iteration order: the run is never without a meaning, and exit status, crash, files and standard output are those of the model of the command. So what is proved of the model (C67-C69) holds of the text: status 0 means that the named schemas were built in order and that their code was generated and passed to the output; a failing run leaves all files, or only the output file emptied.
    Status: proved. The interpreter (SrcShell.v) and what the packages called do (SrcCli.v) are the trusted meaning. flags.Parse fills the option record or fails; log.Printf has no effect; a deferred Close has none. jspointer.New and Get are one parameter of the model: where New rejects a text Get must give nothing (the hypothesis, met by every host with a New that only says no to what Get cannot use). server.Run is a parameter here (the handlers: C53, C54). *)

(* SrcCliRun.v *)
Theorem C86_cli_source :
  forall (h : host) (G : genv) (fuel : nat) (ch : choices) (pn : string -> bool)
    (serve : string -> option string) (argv : list string) (srv_opts : option string),
  (forall (q : string) (m : list (string * gval)), pn q = false -> h_get h q m = None) ->
  forall (o : option copts) (wd : world),
  src_cli h G fuel ch pn serve argv o srv_opts wd = Some (cli h G fuel o ch wd).
Proof. exact (@SrcCliRun.cli_source). Qed.
Print Assumptions C86_cli_source.

(* SrcCliRun.v *)
Theorem C86_main_source :
  forall (h : host) (G : genv) (fuel : nat) (ch : choices) (pn : string -> bool)
    (serve : string -> option string) (argv : list string) (srv_opts : option string),
  (forall (q : string) (m : list (string * gval)), pn q = false -> h_get h q m = None) ->
  forall (o : option copts) (wd : world),
  src_main h G fuel ch pn serve argv o srv_opts wd =
  Some
    (if serving argv
     then
      (match srv_opts with
       | Some l => match serve l with
                   | Some _ => Exit 1
                   | None => Exit 0
                   end
       | None => Exit 1
       end, wd)
     else cli h G fuel o ch wd).
Proof. exact (@SrcCliRun.main_source). Qed.
Print Assumptions C86_main_source.

(* SrcCliCases.v *)
Theorem C86_source_generates :
  forall (h : host) (G : genv) (fuel : nat) (ch : choices) (pn : string -> bool)
    (serve : string -> option string) (argv : list string) (srv_opts : option string),
  (forall (q : string) (m : list (string * gval)), pn q = false -> h_get h q m = None) ->
  serving argv = false ->
  forall (E : Constraint.env) (bytes : bool) (o : copts) (wd : world)
    (m : list (string * gval)) (ss : list schema),
  readable h o wd m ss ->
  writable_out h o ->
  good_prefix (o_prefix o) ->
  let D := h_names h m in
  (forall (k : string) (s : schema), BuildSpec.lookup D k = Some s -> Sorted s) ->
  (forall s : schema,
   In s ss -> Sorted s /\ sound D s /\ all_plain E D s bytes s /\ codable D s) ->
  (forall s s' : schema,
   In s ss -> In s' ss -> Referred D s "#" -> Referred D s' "#" -> s = s') ->
  exists (e : Cli.ended) (wd' : world),
    src_main h G fuel ch pn serve argv (Some o) srv_opts wd = Some (e, wd') /\
    (e <> Loops ->
     e = Exit 0 /\
     (exists (code : string) (st : estate),
        delivered h o code wd wd' /\
        run_go code = Some st /\
        (forall (i : nat) (s : schema),
         nth_error ss i = Some s ->
         exists j : jsv,
           sget (member_name (o_prefix o) i) (e_vars st) = Some (VJ j) /\
           j_name j = member_name (o_prefix o) i /\
           speaks_for E D s bytes (run_refs st) (j_name j) (j_root j)))).
Proof. exact (@SrcCliCases.source_generates). Qed.
Print Assumptions C86_source_generates.

(* SrcCliCases.v *)
Theorem C86_source_failure :
  forall (h : host) (G : genv) (fuel : nat) (ch : choices) (pn : string -> bool)
    (serve : string -> option string) (argv : list string) (srv_opts : option string),
  (forall (q : string) (m : list (string * gval)), pn q = false -> h_get h q m = None) ->
  serving argv = false ->
  forall (opts : option copts) (wd : world) (e : Cli.ended) (wd' : world),
  src_main h G fuel ch pn serve argv opts srv_opts wd = Some (e, wd') ->
  e <> Exit 0 ->
  wd' = wd \/
  (exists
     (o : copts) (m : list (string * gval)) (ss : list schema) (ps : list CliProofs.product),
     opts = Some o /\
     o_outfile o <> "" /\
     readable h o wd m ss /\
     Forall2 (built_from fuel (h_names h m)) ss ps /\
     (forall (code : string) (w : orc),
      process G (validators (o_prefix o) ps) (ch_gen ch) <> GOk (code, w)) /\
     wd' = {| w_files := sset (o_outfile o) "" (w_files wd); w_stdout := w_stdout wd |}).
Proof. exact (@SrcCliCases.source_failure). Qed.
Print Assumptions C86_source_failure.

(* SrcCliCases.v *)
Theorem C86_source_success :
  forall (h : host) (G : genv) (fuel : nat) (ch : choices) (pn : string -> bool)
    (serve : string -> option string) (argv : list string) (srv_opts : option string),
  (forall (q : string) (m : list (string * gval)), pn q = false -> h_get h q m = None) ->
  serving argv = false ->
  forall (opts : option copts) (wd wd' : world),
  src_main h G fuel ch pn serve argv opts srv_opts wd = Some (Exit 0, wd') ->
  exists
    (o : copts) (m : list (string * gval)) (ss : list schema) (ps : list CliProofs.product) 
  (code : string) (w : orc),
    opts = Some o /\
    readable h o wd m ss /\
    Forall2 (built_from fuel (h_names h m)) ss ps /\
    process G (validators (o_prefix o) ps) (ch_gen ch) = GOk (code, w) /\
    delivered h o code wd wd'.
Proof. exact (@SrcCliCases.source_success). Qed.
Print Assumptions C86_source_success.

(* SrcCliCases.v *)
Example C86_source_doc :
  forall (ch : choices) (serve : string -> option string) (so : option string),
  exists code : string,
    src_main host0 G0 7 ch pn0 serve argv0 (Some (run0 ["/tree"; "/pile"] "Doc" "code.go")) so
      wd0 =
    Some
      (Exit 0, {| w_files := [("code.go", code); ("schema.json", "doc")]; w_stdout := "" |}).
Proof. exact (@SrcCliCases.source_doc). Qed.

(* SrcCliCases.v *)
Example C86_source_lost :
  src_main host0 G0 10 ch0 pn0 (fun _ : string => None) argv0
    (Some (run0 ["/rest"] "" "code.go")) None wd0 =
  Some (Exit 1, {| w_files := [("code.go", ""); ("schema.json", "doc")]; w_stdout := "" |}).
Proof. exact (@SrcCliCases.source_lost). Qed.

(* SrcCliCases.v *)
Example C86_source_early :
  src_main host0 G0 10 ch0 pn0 (fun _ : string => None) argv0
    (Some (run0 ["/tree"; "nothing"] "" "code.go")) None wd0 = Some (Exit 1, wd0).
Proof. exact (@SrcCliCases.source_early). Qed.

(* SrcCliCases.v *)
Example C86_source_server :
  src_main host0 G0 10 ch0 pn0 (fun _ : string => Some "address in use") [
    "jsval"; "server"] None (Some ":8080") wd0 = Some (Exit 1, wd0).
Proof. exact (@SrcCliCases.source_server). Qed.

(** ** C87. The source text of the playground handlers answers as the model says

    Interpreting the text of ServeHTTP, httpIndex and httpGenerateValidator on any path and body, whatever schema.Read, the JSON decoder, the builder, the generator, getTemplates and ExecuteTemplate return or panic with: the run has a meaning, writes exactly one answer, and status, content type and content are those of the model; headers set after the status line has gone out are lost. So C53 holds of the text. With the builder and the generator of the model in place: for every plain schema that can be built and written, /generate.json answers 200 with code that runs, and the validator V0 it defines accepts exactly the documents valid against the schema sent.
    Status: proved. The interpreter (SrcShell.v) and what the packages called do (SrcServer.v) are the trusted meaning; http.NotFound is one step, getTemplates a parameter (its cache: C54), writing to the client always succeeds. In playground: schema.Read and the JSON decoder are parameters; the guards are those of C84 (sorted, sound, plain, codable) and that the build does not run out of fuel. *)

(* SrcServerRun.v *)
Theorem C87_serve_source :
  forall (schema ctx validator tmpl : Type) (read : string -> Server.outcome schema)
    (decode : string -> Server.outcome ctx)
    (build : schema -> ctx -> Server.outcome validator)
    (process : validator -> Server.outcome string) (gt : Server.outcome tmpl)
    (execute : tmpl -> Server.outcome string) (path input : string),
  src_serve read decode build process gt execute path input =
  Some (serve read decode build process gt execute path input).
Proof. exact (@SrcServerRun.serve_source). Qed.
Print Assumptions C87_serve_source.

(* SrcServerCases.v *)
Theorem C87_source_generate_success :
  forall (schema ctx validator tmpl : Type) (read : string -> Server.outcome schema)
    (decode : string -> Server.outcome ctx)
    (build : schema -> ctx -> Server.outcome validator)
    (process : validator -> Server.outcome string) (gt : Server.outcome tmpl)
    (execute : tmpl -> Server.outcome string) (input code : string),
  (exists r : response,
     src_serve read decode build process gt execute "/generate.json" input = Some (Some r) /\
     payload r = Json true "code" code) <->
  (exists (sc : schema) (c : ctx) (v : validator),
     read input = Done_ sc /\
     decode input = Done_ c /\ build sc c = Done_ v /\ process v = Done_ code).
Proof. exact (@SrcServerCases.source_generate_success). Qed.
Print Assumptions C87_source_generate_success.

(* SrcServerCases.v *)
Theorem C87_source_generate_shape :
  forall (schema ctx validator tmpl : Type) (read : string -> Server.outcome schema)
    (decode : string -> Server.outcome ctx)
    (build : schema -> ctx -> Server.outcome validator)
    (process : validator -> Server.outcome string) (gt : Server.outcome tmpl)
    (execute : tmpl -> Server.outcome string) (input : string) (r : response),
  src_serve read decode build process gt execute "/generate.json" input = Some (Some r) ->
  status r = 200 /\
  ((exists code : string,
      payload r = Json true "code" code /\ ctype r = Some "application/json; charset=utf-8") \/
   (exists m : string, payload r = Json false "message" m /\ ctype r = None)).
Proof. exact (@SrcServerCases.source_generate_shape). Qed.
Print Assumptions C87_source_generate_shape.

(* SrcServerCases.v *)
Theorem C87_source_other_paths :
  forall (schema ctx validator tmpl : Type) (read : string -> Server.outcome schema)
    (decode : string -> Server.outcome ctx)
    (build : schema -> ctx -> Server.outcome validator)
    (process : validator -> Server.outcome string) (gt : Server.outcome tmpl)
    (execute : tmpl -> Server.outcome string) (path input : string),
  path <> "/generate.json" ->
  (path <> "/" ->
   exists r : response,
     src_serve read decode build process gt execute path input = Some (Some r) /\
     status r = 404) /\
  (path = "/" ->
   forall r : response,
   src_serve read decode build process gt execute path input = Some (Some r) ->
   status r = 200 \/ status r = 500).
Proof. exact (@SrcServerCases.source_other_paths). Qed.
Print Assumptions C87_source_other_paths.

(* SrcServerCases.v *)
Theorem C87_playground :
  forall (tmpl : Type) (read : string -> Server.outcome schema)
    (decode : string -> Server.outcome (list (string * gval)))
    (names : list (string * gval) -> resolver) (E : Constraint.env) 
    (G : genv) (bytes : bool) (fuel : nat) (w wg : orc) (gt : Server.outcome tmpl)
    (execute : tmpl -> Server.outcome string) (input : string) (s : schema)
    (m : list (string * gval)),
  read input = Done_ s ->
  decode input = Done_ m ->
  let D := names m in
  Sorted s ->
  (forall (k : string) (s' : schema), BuildSpec.lookup D k = Some s' -> Sorted s') ->
  sound D s ->
  all_plain E D s bytes s ->
  codable D s ->
  build_with fuel D s w <> BOOF ->
  exists (code : string) (st : estate) (j : jsv),
    src_serve read decode (build_o fuel names w) (process_o G wg) gt execute "/generate.json"
      input =
    Some
      (Some
         {|
           status := 200;
           ctype := Some "application/json; charset=utf-8";
           payload := Json true "code" code
         |}) /\
    run_go code = Some st /\
    sget "V0" (e_vars st) = Some (VJ j) /\
    j_name j = "V0" /\ speaks_for E D s bytes (run_refs st) "V0" (j_root j).
Proof. exact (@SrcServerCases.playground). Qed.
Print Assumptions C87_playground.

(* SrcServer.v *)
Example C87_handlers_all :
  map fst table_s = ["ServeHTTP"; "httpIndex"; "httpGenerateValidator"] /\
  Datatypes.length (filter (prefix "func ") handlers_text) = 3.
Proof. exact (@SrcServer.handlers_all). Qed.

(* SrcServerCases.v *)
Example C87_playground_tree :
  forall (tmpl : Type) (gt : Server.outcome tmpl) (execute : tmpl -> Server.outcome string)
    (w wg : orc),
  build_with 10 names_t (Sch tree) w <> BOOF ->
  exists (code : string) (st : estate) (j : jsv),
    src_serve (fun _ : string => Done_ (Sch tree)) (fun _ : string => Done_ doc_m)
      (build_o 10 (fun _ : list (string * gval) => names_t) w) (process_o G0 wg) gt execute
      "/generate.json" "{}" =
    Some
      (Some
         {|
           status := 200;
           ctype := Some "application/json; charset=utf-8";
           payload := Json true "code" code
         |}) /\
    run_go code = Some st /\
    sget "V0" (e_vars st) = Some (VJ j) /\
    j_name j = "V0" /\ speaks_for env_t names_t (Sch tree) true (run_refs st) "V0" (j_root j).
Proof. exact (@SrcServerCases.playground_tree). Qed.

(* SrcServerCases.v *)
Example C87_tree_in_time :
  build_with 10 names_t (Sch tree) [] <> BOOF.
Proof. exact (@SrcServerCases.tree_in_time). Qed.

(* SrcServerCases.v *)
Example C87_playground_refuses :
  src_serve (fun _ : string => Failed "no schema") (fun _ : string => Done_ tt)
    (fun _ _ : unit => Done_ tt) (fun _ : unit => Done_ "") (Done_ tt)
    (fun _ : unit => Done_ "") "/generate.json" "{" =
  Some (Some {| status := 200; ctype := None; payload := Json false "message" "no schema" |}) /\
  src_serve (fun _ : string => Failed "no schema") (fun _ : string => Done_ tt)
    (fun _ _ : unit => Done_ tt) (fun _ : unit => Done_ "") (Done_ tt)
    (fun _ : unit => Done_ "") "/generate" "{" =
  Some (Some {| status := 404; ctype := None; payload := NotFound |}).
Proof. exact (@SrcServerCases.playground_refuses). Qed.

(** ** C88. From the text of the command and of the playground to the verdicts of the text of Validate

    Run from the text of cmd/jsval/jsval.go on any readable document with plain, writable schemas, the command ends with status 0 and delivers code that runs; and the text of Validate, on each validator that code leaves under the name made of the prefix and the number of the schema, accepts exactly the documents valid against that schema and rejects exactly the invalid ones, in every map iteration order of build, generation and validation. The same holds for V0 in the code that the text of the playground handlers answers with.
    Status: proved. Guards as in C67 and C84: readable document, writable output, good prefix, sorted, sound, plain and codable schemas, at most one of them referring to #; the build does not run out of fuel (never for finitely many references: cli_ends). The command and the handlers, and Validate, are run from their text; the builder and the generator between them are those of the model, which agree with their text by C78, C81 and C82; generated files are run by GoEval.v. *)

(* SrcShellWay.v *)
Theorem C88_command_verdicts :
  forall (h : host) (G : genv) (fuel : nat) (ch : choices) (pn : string -> bool)
    (serve : string -> option string) (argv : list string) (srv_opts : option string)
    (E : Constraint.env) (hit : string -> bool) (bytes : bool) (o : copts) 
    (wd : world) (m : list (string * gval)) (ss : list schema),
  (forall (q : string) (m0 : list (string * gval)), pn q = false -> h_get h q m0 = None) ->
  serving argv = false ->
  readable h o wd m ss ->
  writable_out h o ->
  good_prefix (o_prefix o) ->
  let D := h_names h m in
  (forall (k : string) (s : schema), BuildSpec.lookup D k = Some s -> Sorted s) ->
  (forall s : schema,
   In s ss -> Sorted s /\ sound D s /\ all_plain E D s bytes s /\ codable D s) ->
  (forall s s' : schema,
   In s ss -> In s' ss -> Referred D s "#" -> Referred D s' "#" -> s = s') ->
  exists (e : Cli.ended) (wd' : world),
    src_main h G fuel ch pn serve argv (Some o) srv_opts wd = Some (e, wd') /\
    (e <> Loops ->
     e = Exit 0 /\
     (exists (code : string) (st : estate),
        delivered h o code wd wd' /\
        run_go code = Some st /\
        (forall (i : nat) (s : schema),
         nth_error ss i = Some s ->
         verdicts_of E hit D s bytes st (member_name (o_prefix o) i)))).
Proof. exact (@SrcShellWay.command_verdicts). Qed.
Print Assumptions C88_command_verdicts.

(* SrcShellWay.v *)
Theorem C88_playground_verdicts :
  forall (tmpl : Type) (read : string -> Server.outcome schema)
    (decode : string -> Server.outcome (list (string * gval)))
    (names : list (string * gval) -> resolver) (E : Constraint.env) 
    (hit : string -> bool) (G : genv) (bytes : bool) (fuel : nat) 
    (w wg : orc) (gt : Server.outcome tmpl) (execute : tmpl -> Server.outcome string)
    (input : string) (s : schema) (m : list (string * gval)),
  read input = Done_ s ->
  decode input = Done_ m ->
  let D := names m in
  Sorted s ->
  (forall (k : string) (s' : schema), BuildSpec.lookup D k = Some s' -> Sorted s') ->
  sound D s ->
  all_plain E D s bytes s ->
  codable D s ->
  build_with fuel D s w <> BOOF ->
  exists (code : string) (st : estate),
    src_serve read decode (build_o fuel names w) (process_o G wg) gt execute "/generate.json"
      input =
    Some
      (Some
         {|
           status := 200;
           ctype := Some "application/json; charset=utf-8";
           payload := Json true "code" code
         |}) /\ run_go code = Some st /\ verdicts_of E hit D s bytes st "V0".
Proof. exact (@SrcShellWay.playground_verdicts). Qed.
Print Assumptions C88_playground_verdicts.

(* SrcShellWay.v *)
Example C88_doc_verdicts :
  forall (ch : choices) (serve : string -> option string) (so : option string)
    (hit : string -> bool),
  exists (code : string) (st : estate),
    src_main host0 G0 7 ch pn0 serve argv0 (Some (run0 ["/tree"; "/pile"] "Doc" "code.go")) so
      wd0 =
    Some
      (Exit 0, {| w_files := [("code.go", code); ("schema.json", "doc")]; w_stdout := "" |}) /\
    run_go code = Some st /\
    verdicts_of env_t hit names_t (Sch tree) true st "Doc0" /\
    verdicts_of env_t hit names_t (Sch pile) true st "Doc1".
Proof. exact (@SrcShellWay.doc_verdicts). Qed.

