(** The functions of generator.go as syntax trees. *)
From Verif Require Import Base GoFloat GoValue Maybe Formats Constraint StructInfo Validate Builder GoText GoLang Generator SrcSyntax SrcText SrcTextG SrcExec SrcProg SrcGen.
From Verif Require SrcStore.
Open Scope string_scope.
Open Scope list_scope.
Open Scope Z_scope.

Definition decls_g : list decl := Eval vm_compute in parsed text_generator.
(** the functions of generator.go, and HasDefault and DefaultValue of basic.go *)
Definition table_g : list (string * func) := Eval vm_compute in
  flat_map (fun d => match d with DFunc f => [(func_name f, f)] | _ => [] end) decls_g
  ++ filter (fun p => starts "defaultValue." (fst p)) table.
Definition funcs_g (f : string) : option func := option_map snd (find (fun p => String.eqb (fst p) f) table_g).
Example parses_g : match parse_file text_generator with Some _ => true | None => false end = true.
Proof. vm_compute. reflexivity. Qed.
Example all_functions_g :
  (List.length (flat_map (fun d => match d with DFunc f => [f] | _ => [] end) decls_g)
   = List.length (filter (starts "func ") text_generator))%nat.
Proof. vm_compute. reflexivity. Qed.
Example names_once_g : (List.length (nodup string_dec (map fst table_g)) = List.length table_g)%nat.
Proof. vm_compute. reflexivity. Qed.
(** the fields of genctx (generator.go:120-126) *)
Definition fields_g : list (string * ty) := Eval vm_compute in
  flat_map (fun p => if String.eqb (fst p) "genctx" then map (fun f => (SrcStore.sf_name f, SrcStore.sf_type f)) (snd p) else [])
           (SrcStore.structs_of text_generator).
Section Prog.
  Variable G : genv.
  Definition prog_g : qctx := {| qc_fns := funcs_g; qc_fields := fields_g; qc_env := G |}.
End Prog.
