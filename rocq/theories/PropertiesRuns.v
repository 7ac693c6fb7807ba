(** Panics, termination, references, repeated runs, wrappers

    Only statements: each theorem is proved in the file named above it. *)

From Coq Require Import List String ZArith Bool SpecFloat QArith.
From Verif Require Import Base GoFloat FloatSpec FloatProofs GoValue Formats Maybe HostSpec
  Constraint StructInfo Validate Fuel Reach ReadOnly Frame Preserve
  Spec SpecSound SpecObj SpecMain ConstrInd Terminate Scalars Structure
  Composite Refuted DocSpec Linear RefConc RegConc Server Fluent
  MaybeProofs Simulate StructProofs DefaultProofs StructCases NoPanic Repeat Cases
  DocDeviates Builder BuildSpec BuildProofs Local BuildRefs BuildErr Height
  SchemaSpec SchemaForm SchemaRegular SchemaMeans SchemaMain BuildCases Extras GoText
  GoLang GoEval Generator GenLex GenParse GenCode GenLike GenSpec
  GenFaith GenRound GenObj GenMain GenProcess GenTheorems GenLoss GenDet
  GenCases EndToEnd EndCases Cli CliProofs CliCases Heap HeapProofs
  HeapCases Custom CustomProofs CustomCases Witness WitnessBuild.
Import ListNotations.
Open Scope nat_scope.
Open Scope string_scope.
Open Scope list_scope.

(** ** C27. Validate does not panic on decoded documents

    On any document produced by decoding JSON into interface{}, Validate of a constraint with no nil children and only comparable enum values returns (nil or error) and never panics.
    Status: proved.  *)

(* NoPanic.v *)
Theorem C27_validate_no_panic :
  forall (E : env) (n : nat) (c : constr) (v : gval) (w : orc),
  sane E c -> jdoc v -> calm (fst (fst (validate n E c v w))).
Proof. exact (@NoPanic.validate_no_panic). Qed.
Print Assumptions C27_validate_no_panic.

(* SpecMain.v *)
Theorem C27_run_no_panic :
  forall (E : env) (c : constr) (v : gval) (w : orc) (m : string) (v' : gval) (w' : orc),
  wf E c -> jdoc v -> ~ Runs E c v w (Panic m, v', w').
Proof. exact (@SpecMain.run_no_panic). Qed.
Print Assumptions C27_run_no_panic.

(* Witness.v *)
Example C27_ann_calm :
  sane env1 root /\
  jdoc ann /\ (forall (n : nat) (w : orc), calm (fst (fst (validate n env1 root ann w)))).
Proof. exact (@Witness.ann_calm). Qed.

(** ** C28. Validate terminates when reference cycles descend

    If every cycle of references passes through an object property or an array item and defaults are scalars, Validate terminates on every finite value.
    Status: proved. descending_terminates_refuted shows the condition on defaults is needed. *)

(* Terminate.v *)
Theorem C28_validate_terminates :
  forall (E : env) (c : constr),
  finite_refs E ->
  guarded E ->
  small E c -> forall v : gval, exists N : nat, forall w : orc, rs (validate N E c v w) <> OOF.
Proof. exact (@Terminate.validate_terminates). Qed.
Print Assumptions C28_validate_terminates.

(* Terminate.v *)
Theorem C28_validate_terminates_wf :
  forall E : env,
  well_founded (fun n' n : string => calls E n n') ->
  forall (d : nat) (c : constr), small E c -> exists N : nat, okat (validate N E) d c.
Proof. exact (@Terminate.validate_terminates_wf). Qed.
Print Assumptions C28_validate_terminates_wf.

(* Refuted.v *)
Theorem C28_descending_terminates_refuted :
  ~ (forall (E : env) (c : constr),
   finite_refs E ->
   guarded E ->
   forall (v : gval) (w : orc), exists (r : res) (v' : gval) (w' : orc), Runs E c v w (r, v', w')).
Proof. exact (@Refuted.descending_terminates_refuted). Qed.
Print Assumptions C28_descending_terminates_refuted.

(* Cases.v *)
Example C28_person_terminates :
  finite_refs env1 /\ guarded env1 /\ small env1 root.
Proof. exact (@Cases.person_terminates). Qed.

(** ** C29. Cyclic references

    A reference that resolves to itself through references and combinators only is reported as an error rather than looping. (False of the code: Validate recurses without bound.)
    Status: partial. REFUTED as stated: every cyclic reference runs out of any fuel. *)

(* Refuted.v *)
Theorem C29_cyclic_reported_refuted :
  ~ (forall (E : env) (name : string),
   e_refs E name = Some (CRef name) ->
   forall (v : gval) (w : orc),
   exists (r : res) (v' : gval) (w' : orc), Runs E (CRef name) v w (r, v', w')).
Proof. exact (@Refuted.cyclic_reported_refuted). Qed.
Print Assumptions C29_cyclic_reported_refuted.

(* Refuted.v *)
Theorem C29_cycle_diverges_partial :
  forall (E : env) (S : constr -> Prop),
  head_cycle E S ->
  forall (n : nat) (c : constr) (v : gval) (w : orc), S c -> rs (validate n E c v w) = OOF.
Proof. exact (@Refuted.cycle_diverges). Qed.
Print Assumptions C29_cycle_diverges_partial.

(* Refuted.v *)
Example C29_cycle_mutual :
  forall (n : nat) (v : gval) (w : orc),
  rs
    (validate n
       (env0
          (fun m : string =>
           if m =? "p"
           then Some (CAll [CRef "q"; number])
           else if m =? "q" then Some (CNot (CRef "p")) else None)) 
       (CRef "p") v w) = OOF.
Proof. exact (@Refuted.cycle_mutual). Qed.

(** ** C30. References are transparent

    Validating against Reference(m).RefersTo(n) gives the same verdict and final value as validating against the constraint registered under n, has the same default, and fails with an error when n is not registered.
    Status: proved.  *)

(* Structure.v *)
Theorem C30_ref_runs :
  forall (E : env) (name : string) (c : constr) (v : gval) (w : orc) (o : out),
  e_refs E name = Some c -> Runs E (CRef name) v w o <-> Runs E c v w o.
Proof. exact (@Structure.ref_runs). Qed.
Print Assumptions C30_ref_runs.

(* Structure.v *)
Theorem C30_ref_missing :
  forall (E : env) (name : string) (v : gval) (w : orc) (o : out),
  e_refs E name = None ->
  Runs E (CRef name) v w o <-> o = (Fail ("reference '" +++ name +++ "' not found"), v, w).
Proof. exact (@Structure.ref_missing). Qed.
Print Assumptions C30_ref_missing.

(* Structure.v *)
Theorem C30_ref_default :
  forall (E : env) (name : string) (c : constr) (d : gval),
  e_refs E name = Some c -> Default E (CRef name) d <-> Default E c d.
Proof. exact (@Structure.ref_default). Qed.
Print Assumptions C30_ref_default.

(* Witness.v *)
Example C30_ref_case :
  e_refs env1 "person" = Some person /\
  e_refs env1 "nobody" = None /\
  Runs env1 (CRef "person") ann [] (Pass, ann', []) /\
  Runs env1 person ann [] (Pass, ann', []) /\
  Runs env1 (CRef "nobody") ann [] (Fail "reference 'nobody' not found", ann, []).
Proof. exact (@Witness.ref_case). Qed.

(** ** C50. JSVal.Validate reports the root's verdict

    JSVal.Validate returns nil exactly when its root constraint accepts, and otherwise an error whose text starts with the validator's name and ends with the root's error text; with no root it panics.
    Status: proved.  *)

(* Repeat.v *)
Theorem C50_jsval_verdict :
  forall (E : env) (name addr : string) (root : constr) (v : gval) 
    (w : orc) (r : res) (v' : gval) (w' : orc),
  Runs E root v w (r, v', w') ->
  exists n : nat,
    jsval_validate n E name addr root v w =
    (match r with
     | Fail m =>
         Fail ("validator " +++ (if name =? "" then addr else name) +++ " failed: " +++ m)
     | _ => r
     end, v', w').
Proof. exact (@Repeat.jsval_verdict). Qed.
Print Assumptions C50_jsval_verdict.

(* Repeat.v *)
Theorem C50_jsval_no_root :
  forall (n : nat) (E : env) (name addr : string) (v : gval) (w : orc),
  n <> 0 -> exists m : string, jsval_validate n E name addr CNil v w = (Panic m, v, w).
Proof. exact (@Repeat.jsval_no_root). Qed.
Print Assumptions C50_jsval_no_root.

(* Witness.v *)
Example C50_jsval_case :
  Runs env1 root dup []
    (Fail "object property 'tags' validation failed: duplicate element found",
     jobj [("age", num 0); ("name", gstr "ann"); ("tags", jarr [gstr "a"; gstr "a"])], []) /\
  fst (fst (jsval_validate 20 env1 "V0" "0xc0" root dup [])) =
  Fail
    "validator V0 failed: object property 'tags' validation failed: duplicate element found" /\
  fst (fst (jsval_validate 20 env1 "" "0xc0" root ann [])) = Pass.
Proof. exact (@Witness.jsval_case). Qed.

(** ** C51. Pointers are followed consistently

    Validating a pointer to a map or struct gives the same verdict as validating what it points to. (For pointers to interface variables and pointers to pointers the code lists the properties but then fails to read them.)
    Status: partial. REFUTED as stated; exact guard proved. *)

(* StructProofs.v *)
Theorem C51_pointer_to_map_partial :
  forall (E : env) (n : nat) (c : constr) (PT : string) (a : Z) (T : string) 
    (kk : keykind) (i : bool) (ET : string) (l : list (string * gval)) 
    (w : orc),
  (forall l0 : list gval, ~ Applied E c (CEnum l0)) ->
  rel_out (fun s m : gval => s = GPtr PT a (Some (false, m)))
    (validate n E c (GPtr PT a (Some (false, GMap T kk i ET (Some l)))) w)
    (validate n E c (GMap T kk i ET (Some l)) w).
Proof. exact (@StructProofs.pointer_to_map). Qed.
Print Assumptions C51_pointer_to_map_partial.

(* StructProofs.v *)
Theorem C51_pointer_to_struct_partial :
  forall (E : env) (n : nat) (c : constr) (PT : string) (a : Z) (T : string)
    (fs : list (finfo * gval)) (w : orc),
  pure E c ->
  (forall l : list gval, ~ Applied E c (CEnum l)) ->
  same_verdict (fst (fst (validate n E c (GPtr PT a (Some (false, GStruct T fs))) w)))
    (fst (fst (validate n E c (GStruct T fs) w))).
Proof. exact (@StructProofs.pointer_to_struct). Qed.
Print Assumptions C51_pointer_to_struct_partial.

(* StructCases.v *)
Theorem C51_pointers_transparent_refuted :
  ~ (forall (E : env) (c : constr) (PT : string) (a : Z) (i : bool) (x : gval) (w : orc) (o : out),
   (exists (T : string) (fs : list (finfo * gval)), x = GStruct T fs) \/
   (exists (T : string) (m : list (string * gval)), x = {{T, "interface {}"}} m) ->
   (forall l : list gval, ~ Applied E c (CEnum l)) ->
   Runs E c x w o ->
   exists o' : out,
     Runs E c (GPtr PT a (Some (i, x))) w o' /\ same_verdict (fst (fst o')) (fst (fst o))).
Proof. exact (@StructCases.pointers_transparent_refuted). Qed.
Print Assumptions C51_pointers_transparent_refuted.

(* StructCases.v *)
Theorem C51_struct_pointer_refuted :
  ~ (forall (E : env) (c : constr) (PT : string) (a : Z) (T : string) (fs : list (finfo * gval))
     (w : orc) (o : out),
   (forall l : list gval, ~ Applied E c (CEnum l)) ->
   Runs E c (GStruct T fs) w o ->
   exists o' : out,
     Runs E c (GPtr PT a (Some (false, GStruct T fs))) w o' /\
     same_verdict (fst (fst o')) (fst (fst o))).
Proof. exact (@StructCases.struct_pointer_refuted). Qed.
Print Assumptions C51_struct_pointer_refuted.

(* WitnessBuild.v *)
Example C51_pointer_case :
  (forall l : list gval, ~ Applied env1 (CObj o_full) (CEnum l)) /\
  Runs env1 (CObj o_full) (GPtr "*map[string]interface {}" 1 (Some (false, jobj m_full))) []
    (Pass, GPtr "*map[string]interface {}" 1 (Some (false, jobj m_full')), []) /\
  Fails env1 (CObj o_full)
    (GPtr "*map[string]interface {}" 1 (Some (false, jobj (hd [] broken)))) /\
  Passes (env0 no_refs) (CObj person_schema)
    (person_ptr (StructCases.person (MString true "ann") 3))
    (person_ptr (StructCases.person (MString true "ann") 3)).
Proof. exact (@WitnessBuild.pointer_case). Qed.

(** ** C52. Validation is repeatable

    If Validate passes, validating the resulting value again passes and changes nothing. (False of the code when an inserted default does not itself satisfy the constraint.) Holds when declared defaults satisfy their own constraints and there are no property-count or dependency checks.
    Status: partial. REFUTED as stated; exact guard proved. *)

(* Repeat.v *)
Theorem C52_validate_repeatable_partial :
  forall (E : env) (c : constr) (v : gval) (w : orc) (v1 : gval) (w1 w2 : orc) 
    (r : res) (v2 : gval) (w3 : orc),
  wf E c ->
  single E c ->
  stable E c ->
  jdoc v -> Runs E c v w (Pass, v1, w1) -> Runs E c v1 w2 (r, v2, w3) -> r = Pass /\ v2 = v1.
Proof. exact (@Repeat.validate_repeatable). Qed.
Print Assumptions C52_validate_repeatable_partial.

(* Repeat.v *)
Theorem C52_stable_again_partial :
  forall (E : env) (n : nat) (c : constr) (v v' : gval),
  Deep E (fun x : constr => x = CNil \/ node_ok E x) c ->
  stable E c -> jdoc v -> sem n E c v (Some v') -> Accepts E c v' v'.
Proof. exact (@Repeat.stable_again). Qed.
Print Assumptions C52_stable_again_partial.

(* Refuted.v *)
Theorem C52_repeatable_refuted :
  ~ (forall (E : env) (c : constr) (v : gval) (w : orc) (v1 : gval) (w1 w2 : orc) 
     (r : res) (v2 : gval) (w3 : orc),
   Runs E c v w (Pass, v1, w1) -> Runs E c v1 w2 (r, v2, w3) -> r = Pass /\ v2 = v1).
Proof. exact (@Refuted.repeatable_refuted). Qed.
Print Assumptions C52_repeatable_refuted.

(* Refuted.v *)
Theorem C52_repeatable_refuted_count :
  exists (E : env) (c : constr) (v v1 : gval),
    Passes E c v v1 /\ Fails E c v1 /\ (forall d : gval, declared E c d -> d = gstr "ok").
Proof. exact (@Refuted.repeatable_refuted_count). Qed.
Print Assumptions C52_repeatable_refuted_count.

(* Cases.v *)
Example C52_person_wf :
  wf env1 root /\ single env1 root /\ stable env1 root.
Proof. exact (@Cases.person_wf). Qed.

(* Cases.v *)
Example C52_ann_passes :
  Runs env1 root ann [] (Pass, ann', []) /\
  Runs env1 root ann' [2; 1; 1] (Pass, ann', []) /\
  (exists m : string,
     Runs env1 root dup []
       (Fail m,
        jobj [("age", num 0); ("name", gstr "ann"); ("tags", jarr [gstr "a"; gstr "a"])], [])).
Proof. exact (@Cases.ann_passes). Qed.

