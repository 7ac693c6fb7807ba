(** The functions of the builder package and of the package jsval together, and the
    declarations of their struct types, as syntax trees. *)
From Verif Require Import Base GoFloat GoValue Maybe Formats Constraint StructInfo Validate Builder SrcSyntax SrcText SrcTextB SrcExec SrcProg SrcStore.
Open Scope string_scope.
Open Scope list_scope.
Open Scope Z_scope.

Definition texts_b : list (list string) :=
  [text_b_array; text_b_bool; text_b_builder; text_b_enum; text_b_number; text_b_object; text_b_reference; text_b_string].
Definition decls_b : list decl := Eval vm_compute in flat_map (fun t => parsed (uncomment false t)) texts_b.
(** builder's own functions; New is looked up as jsval.New *)
Definition table_b : list (string * func) := Eval vm_compute in
  filter (fun p => negb (String.eqb (fst p) "New"))
    (flat_map (fun d => match d with DFunc f => [(func_name f, f)] | _ => [] end) decls_b) ++ table.
Definition funcs_b (f : string) : option func :=
  option_map snd (find (fun p => String.eqb (fst p) f) table_b).
Example all_parse_b : forallb (fun t => match parse_file (uncomment false t) with Some _ => true | None => false end) texts_b = true.
Proof. vm_compute. reflexivity. Qed.
Example all_functions_b :
  (List.length (flat_map (fun d => match d with DFunc f => [f] | _ => [] end) decls_b)
   = List.length (filter (starts "func ") (concat texts_b)))%nat.
Proof. vm_compute. reflexivity. Qed.
(** no name is defined twice *)
Example names_once : (List.length (nodup string_dec (map fst table_b)) = List.length table_b)%nat.
Proof. vm_compute. reflexivity. Qed.

Definition layouts : list (string * list sfield_) := Eval vm_compute in
  flat_map structs_of ([text_interface; text_reference] ++ texts_b).
Definition layout (T : string) : option (list sfield_) :=
  option_map snd (find (fun p => String.eqb (fst p) T) layouts).
(** every struct declaration was found; no field has the type of another one *)
Fixpoint says_struct (s : string) : bool := starts " struct" s || match s with EmptyString => false | String _ r => says_struct r end.
Example all_structs :
  (List.length layouts = List.length (filter (fun l => starts "type " l && says_struct l) (concat ([text_interface; text_reference] ++ texts_b))))%nat.
Proof. vm_compute. reflexivity. Qed.
Section Prog.
  Variable D : bv -> resolver.
  Variable tname : nat -> string.
  Definition prog : bctx := {| bc_fns := funcs_b; bc_structs := layout; bc_resolve := D; bc_tname := tname |}.
End Prog.
