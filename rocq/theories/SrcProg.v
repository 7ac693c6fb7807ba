(** The functions of the Go files in SrcText.v as syntax trees, and Validate as running
    them. *)
From Verif Require Import Base GoFloat GoValue Maybe Formats Constraint StructInfo Validate SrcSyntax SrcText SrcExec.
Open Scope string_scope.
Open Scope list_scope.
Open Scope Z_scope.

Definition parsed (ls : list string) : list decl := match parse_file ls with Some ds => ds | None => [] end.

(** the declarations of the twelve files *)
Definition decls : list decl := Eval vm_compute in
  parsed text_array ++ parsed text_basic ++ parsed text_bool ++ parsed text_combinations ++ parsed text_enum
  ++ parsed text_jsval ++ parsed text_maybe ++ parsed text_number ++ parsed text_object ++ parsed text_reference
  ++ parsed text_string ++ parsed text_structinfo.

(** the functions by name: "Type.Method" or "function" *)
Definition func_name (f : func) : string :=
  match fn_recv f with Some (_, t) => dotted t (fn_name f) | None => fn_name f end.
Definition table : list (string * func) := Eval vm_compute in
  flat_map (fun d => match d with DFunc f => [(func_name f, f)] | _ => [] end) decls.
Definition funcs (f : string) : option func :=
  option_map snd (find (fun p => String.eqb (fst p) f) table).

(** every file parses; the parser found every function: as many as there are lines
    starting with "func" *)
Fixpoint starts (p s : string) : bool :=
  match p, s with
  | EmptyString, _ => true
  | String a p', String b s' => Ascii.eqb a b && starts p' s'
  | _, _ => false
  end.
Definition texts : list (list string) :=
  [text_array; text_basic; text_bool; text_combinations; text_enum; text_jsval; text_maybe; text_number; text_object;
   text_reference; text_string; text_structinfo].
Example all_parse : forallb (fun t => match parse_file t with Some _ => true | None => false end) texts = true.
Proof. vm_compute. reflexivity. Qed.
Example all_functions :
  List.length table = List.length (filter (starts "func ") (concat texts)).
Proof. vm_compute. reflexivity. Qed.

(** deepest nesting of calls within one Validate call, not counting calls of Validate
    through the interface *)
Definition depth : nat := 4.

(** run the method a call through the interface Constraint selects *)
Definition start (v : gval) (w u : orc) : st := {| env_ := []; doc := v; ord_w := w; ord_u := u |}.
Definition srcout := option (res * gval * orc * orc).
Definition error_res (o : ev (list val)) : srcout :=
  match o with
  | Ok [VNil] s => Some (Pass, doc s, ord_w s, ord_u s)
  | Ok [VErr m] s => Some (Fail m, doc s, ord_w s, ord_u s)
  | Ab r s => Some (r, doc s, ord_w s, ord_u s)
  | Ok _ _ | Stk _ => None
  end.
Definition run_method (cx : ctx) (c : constr) (m : string) (args : list val) (v : gval) (w u : orc) : ev (list val) :=
  match c with
  | CNil => Ab (Panic "nil Constraint") (start v w u)
  | _ => call_in funcs cx depth (method c m) (VObj c :: args) (start v w u)
  end.

Definition no_rec (c : constr) (v : gval) (w u : orc) : srcout := None.
Section Knot.
  Variable E : Constraint.env.
  Variable hit : string -> bool.
  Variable order : string -> Z -> site.

  Definition cx_of rec gd : ctx := {| cx_E := E; cx_rec := rec; cx_gd := gd; cx_hit := hit; cx_site := order |}.

  (** the default of a constraint: HasDefault() and, if true, DefaultValue() *)
  Definition default_res (h : ev (list val)) (d : unit -> ev (list val)) : option dres :=
    match h with
    | Ok [VBool false] _ => Some DNone
    | Ok [VBool true] _ =>
        match d tt with
        | Ok [VIf l] s => Some (DSome (content l (doc s)))
        | Ok [VNil] _ => Some (DSome GNil)
        | Ab OOF _ => Some DOOF
        | Ab (Panic _) _ => Some DPanic
        | _ => None
        end
    | Ab OOF _ => Some DOOF
    | Ab (Panic _) _ => Some DPanic
    | _ => None
    end.
  Fixpoint src_default (n : nat) (c : constr) : option dres :=
    match n with
    | O => Some DOOF
    | S n' =>
        let cx := cx_of no_rec (src_default n') in
        default_res (run_method cx c "HasDefault" [] GNil [] [])
                    (fun _ => run_method cx c "DefaultValue" [] GNil [] [])
    end.

  Definition src_step (rec : constr -> gval -> orc -> orc -> srcout) (gd : constr -> option dres)
      (c : constr) (v : gval) (w u : orc) : srcout :=
    error_res (run_method (cx_of rec gd) c "Validate" [VIf LRoot] v w u).
  Fixpoint src_validate (n : nat) (c : constr) (v : gval) (w u : orc) : srcout :=
    match n with
    | O => Some (OOF, v, w, u)
    | S n' => src_step (src_validate n') (src_default n') c v w u
    end.
End Knot.

(** what the source does is what the model says: same verdict and message, same document
    afterwards, same choices left; only the text of a panic may differ *)
Definition same_res (a b : res) : Prop := match a, b with Panic _, Panic _ => True | _, _ => a = b end.
Definition agrees (a : srcout) (b : out) : Prop :=
  let '(r, v, w) := b in exists r' u, a = Some (r', v, w, u) /\ same_res r' r.
