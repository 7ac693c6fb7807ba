(** The jsval command (cmd/jsval/jsval.go:60-156, function _cli): from a schema file to a file
    of generated code.  Options arrive parsed; encoding/json, jspointer and jsschema are
    parameters, and so is what the operating system lets the process do. *)
From Verif Require Import Base GoValue Constraint Validate Builder Generator.
Open Scope string_scope.
Open Scope list_scope.

(** cmd/jsval/jsval.go:53-58 *)
Record copts := { o_schema : string; o_outfile : string; o_ptrs : list string; o_prefix : string }.
Definition files := list (string * string).
(** files by name, and what was printed to standard output *)
Record world := { w_files : files; w_stdout : string }.

Record host := {
  h_open : string -> bool;                                      (* os.Open of an existing file *)
  h_create : string -> bool;                                    (* os.Create *)
  h_write : string -> string -> string;                         (* what of a text arrives in a file ("": standard output) *)
  h_decode : string -> option (list (string * gval));           (* json Decode into a map *)
  h_readfile : string -> option schema;                         (* jsschema ReadFile *)
  h_get : string -> list (string * gval) -> option gval;        (* jspointer New, then Get *)
  h_extract : list (string * gval) -> option schema;            (* jsschema Extract *)
  h_names : list (string * gval) -> resolver                    (* jsref, in this context *)
}.
(** the choices Go's map iteration makes, per build and in the generator *)
Record choices := { ch_build : nat -> orc; ch_gen : orc }.

Inductive ended := Exit (status : nat) | Crash (m : string) | Loops.

Section Cli.
Context (h : host) (G : genv).

(** jsval.go:80-118: the schemas; none if a step fails (exit status 1) *)
Definition from_pointer (m : list (string * gval)) (ptr : string) : option schema :=
  match h_get h ptr m with
  | Some (GMap "map[string]interface {}" _ _ _ m2) => h_extract h (match m2 with Some x => x | None => [] end)
  | _ => None
  end.
Fixpoint all_some {A B} (f : A -> option B) (l : list A) : option (list B) :=
  match l with
  | [] => Some []
  | a :: r => match f a with
              | Some b => match all_some f r with Some bs => Some (b :: bs) | None => None end
              | None => None
              end
  end.
Definition schemas (o : copts) (text : string) (m : list (string * gval)) : option (list schema) :=
  match o_ptrs o with
  | [] => match h_readfile h text with Some s => Some [s] | None => None end
  | ptrs => all_some (from_pointer m) ptrs
  end.

(** jsval.go:120-133: one validator after the other *)
Inductive built_all := BAll (l : list (constr * refs * list string)) | BStop (e : ended).
Fixpoint build_each (fuel : nat) (D : resolver) (ws : nat -> orc) (i : nat) (ss : list schema) : built_all :=
  match ss with
  | [] => BAll []
  | s :: r =>
      match build_with fuel D s (ws i) with
      | Built c rf log => match build_each fuel D ws (S i) r with BAll l => BAll ((c, rf, log) :: l) | e => e end
      | BErr _ => BStop (Exit 1)
      | BPanic m => BStop (Crash m)
      | BOOF => BStop Loops
      end
  end.
(** jsval.go:129-131 *)
Definition numbered (prefix : string) (i : nat) : string :=
  match prefix with EmptyString => "" | _ => prefix +++ dec_Z (Z.of_nat i) end.
(** v.root == rc in the generator (generator.go:146-152), for validators just built.  Constraints
    other than the two empty structs are pointers.  The root is registered only under "#", by
    BuildWithCtx, unless "#" was met in a definition only (then it is in [log]); and the
    generator keeps the first "#" only. *)
Definition is_root (first : bool) (p : constr * refs * list string) (e : string * constr) : bool :=
  let '(c, rf, log) := p in
  match c, snd e with
  | CEmpty, CEmpty | CNull, CNull => true
  | _, _ => (fst e =? "#") && first && mem "#" (keys rf) && negb (mem "#" log)
  end.
Definition has_hash (p : constr * refs * list string) : bool := let '(_, rf, _) := p in mem "#" (keys rf).
Definition unnamed_of (p : constr * refs * list string) : validator :=
  let '(c, rf, _) := p in {| v_name := ""; v_root := c; v_refs := rf; v_same := [] |}.
Definition validators (prefix : string) (ps : list (constr * refs * list string)) : list validator :=
  let merged := merge_refs (map unnamed_of ps) in
  map (fun e => let '(i, (c, rf, log)) := e in
         {| v_name := numbered prefix i; v_root := c; v_refs := rf;
            v_same := map fst (filter (is_root (negb (existsb has_hash (firstn i ps))) (c, rf, log)) merged) |})
      (combine (seq 0 (List.length ps)) ps).

(** jsval.go:135-155: the output file is created before any code is generated; the result of
    the final Write is not looked at (generator.go:116) *)
Definition finish (o : copts) (vs : list validator) (w : orc) (wd : world) : ended * world :=
  let write text :=
    match o_outfile o with
    | EmptyString => {| w_files := w_files wd; w_stdout := w_stdout wd +++ h_write h "" text |}
    | f => {| w_files := sset f (h_write h f text) (w_files wd); w_stdout := w_stdout wd |}
    end in
  let created := match o_outfile o with
                 | EmptyString => wd
                 | f => {| w_files := sset f "" (w_files wd); w_stdout := w_stdout wd |}
                 end in
  if match o_outfile o with EmptyString => true | f => h_create h f end
  then match process G vs w with
       | GOk (text, _) => (Exit 0, write text)
       | GErr _ => (Exit 1, created)
       | GPanic m => (Crash m, created)
       end
  else (Exit 1, wd).

(** [opts]: None when the flags do not parse *)
Definition cli (fuel : nat) (opts : option copts) (ch : choices) (wd : world) : ended * world :=
  match opts with
  | None => (Exit 1, wd)
  | Some o =>
      match (if h_open h (o_schema o) then sget (o_schema o) (w_files wd) else None) with
      | None => (Exit 1, wd)
      | Some text =>
          match h_decode h text with
          | None => (Exit 1, wd)
          | Some m =>
              match schemas o text m with
              | None => (Exit 1, wd)
              | Some ss =>
                  match build_each fuel (h_names h m) (ch_build ch) 0 ss with
                  | BStop e => (e, wd)
                  | BAll ps => finish o (validators (o_prefix o) ps) (ch_gen ch) wd
                  end
              end
          end
      end
  end.
End Cli.
