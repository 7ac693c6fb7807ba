(** cmd/jsval/jsval.go run from its source text by SrcShell.v: what the packages it calls do,
    in the terms of the model of the command (Cli.v), and the function _main. *)
From Verif Require Import Base GoValue Constraint Validate Builder Generator Cli SrcSyntax SrcTextC SrcShell.
From Verif Require SrcStore.
Open Scope Z_scope.
Open Scope string_scope.

Definition decls_c : list decl := Eval vm_compute in
  match parse_file (SrcStore.uncomment false text_cmd) with Some l => l | None => [] end.
Definition table_c : list (string * func) := Eval vm_compute in
  flat_map (fun d => match d with DFunc f => [(fn_name f, f)] | _ => [] end) decls_c.
Definition funcs_c (f : string) : option func := option_map snd (find (fun p => String.eqb (fst p) f) table_c).
Example parses_c : match parse_file (SrcStore.uncomment false text_cmd) with Some _ => true | None => false end = true.
Proof. vm_compute. reflexivity. Qed.
Example all_functions_c : (List.length table_c = List.length (filter (String.prefix "func ") text_cmd))%nat.
Proof. vm_compute. reflexivity. Qed.

(** what packages hand out *)
Definition built := (constr * refs * list string)%type.
Inductive hv :=
| HOpts (o : copts)                              (* a filled cliOptions *)
| HNoOpts                                        (* options not filled yet *)
| HIn (text : string)                            (* a file opened for reading *)
| HDecoder (text : string)
| HMap (m : list (string * gval))                (* map[string]interface{} *)
| HVal (g : gval)                                (* interface{} *)
| HPtr (ptr : string)                            (* jspointer.JSPointer *)
| HSchema (s : option schema)                    (* *schema.Schema; None: just made by schema.New *)
| HBuilder | HGen
| HJs (name : string) (b : built)                (* *jsval.JSVal *)
| HStdout | HFile (f : string)                   (* io.Writer *)
| HServer | HSOpts (listen : string).

(** the world, and how many validators have been built *)
Record shst := { sh_world : world; sh_count : nat }.

(** the validators as Process gets them: as [validators] of Cli.v, with the names they carry *)
Definition given (l : list (string * built)) : list validator :=
  let ps := map snd l in
  let merged := merge_refs (map unnamed_of ps) in
  map (fun e => let '(i, (name, (c, rf, log))) := e in
         {| v_name := name; v_root := c; v_refs := rf;
            v_same := map fst (filter (is_root (negb (existsb has_hash (firstn i ps))) (c, rf, log)) merged) |})
      (combine (seq 0 (List.length l)) l).
Fixpoint js_list (l : list (sv hv)) : option (list (string * built)) :=
  match l with
  | [] => Some []
  | WH (HJs n b) :: r => option_map (cons (n, b)) (js_list r)
  | _ => None
  end.

(** the dynamic type of a value is map[string]interface{} (of a nil map: no entries) *)
Definition as_map (g : gval) : option (list (string * gval)) :=
  match g with
  | GMap "map[string]interface {}" _ _ _ m2 => Some (match m2 with Some x => x | None => [] end)
  | _ => None
  end.

Section Prims.
  Context (h : host) (G : genv) (fuel : nat) (ch : choices).
  (** jspointer.New accepts the text; server.Run ends with an error *)
  Context (pn : string -> bool) (serve : string -> option string) (argv : list string) (cli_opts : option copts) (srv_opts : option string).
  Definition res := option (ended * world).
  Notation V := (sv hv).
  Definition read_file (f : string) (wd : world) : option string := if h_open h f then sget f (w_files wd) else None.

  Definition const (pkg x : string) : option V :=
    if String.eqb pkg "os" && String.eqb x "Stdout" then Some (WH HStdout)
    else if String.eqb pkg "os" && String.eqb x "Args" then Some (WList (map WStr argv))
    else None.

  Definition call (pkg f : string) (args : list V) (s : shst) (k : shst -> list V -> list (string * V) -> res) : res :=
    let is a b := String.eqb pkg a && String.eqb f b in
    if is "log" "Printf" then k s [] []
    else if is "flags" "Parse" then
      match args with
      | [WRef x (WH HNoOpts)] =>
          match cli_opts with Some o => k s [WNil; WNil] [(x, WH (HOpts o))] | None => k s [WNil; WErr "flags"] [] end
      | [WRef x (WH (HSOpts _))] =>
          match srv_opts with Some l => k s [WNil; WNil] [(x, WH (HSOpts l))] | None => k s [WNil; WErr "flags"] [] end
      | _ => None
      end
    else if is "os" "Open" then
      match args with
      | [WStr p] => match read_file p (sh_world s) with Some t => k s [WH (HIn t); WNil] [] | None => k s [WNil; WErr "open"] [] end
      | _ => None
      end
    else if is "os" "Create" then
      match args with
      | [WStr p] =>
          if h_create h p
          then k {| sh_world := {| w_files := sset p "" (w_files (sh_world s)); w_stdout := w_stdout (sh_world s) |}; sh_count := sh_count s |}
                 [WH (HFile p); WNil] []
          else k s [WNil; WErr "create"] []
      | _ => None
      end
    else if is "json" "NewDecoder" then
      match args with [WH (HIn t)] => k s [WH (HDecoder t)] [] | _ => None end
    else if is "schema" "ReadFile" then
      match args with
      | [WStr p] =>
          match read_file p (sh_world s) with
          | Some t => match h_readfile h t with Some sc => k s [WH (HSchema (Some sc)); WNil] [] | None => k s [WNil; WErr "schema"] [] end
          | None => k s [WNil; WErr "open"] []
          end
      | _ => None
      end
    else if is "schema" "New" then k s [WH (HSchema None)] []
    else if is "jspointer" "New" then
      match args with [WStr p] => if pn p then k s [WH (HPtr p); WNil] [] else k s [WNil; WErr "pointer"] [] | _ => None end
    else if is "builder" "New" then k s [WH HBuilder] []
    else if is "jsval" "NewGenerator" then k s [WH HGen] []
    else if is "server" "New" then k s [WH HServer] []
    else if is "fmt" "Sprintf" then
      match args with [WStr "%s%d"; WStr p; WInt i] => k s [WStr (p +++ dec_Z i)] [] | _ => None end
    else None.

  Definition meth (r : hv) (f : string) (args : list V) (s : shst) (k : shst -> hv -> list V -> list (string * V) -> res) : res :=
    match r with
    | HDecoder t =>
        if String.eqb f "Decode" then
          match args with
          | [WRef x _] => match h_decode h t with Some m => k s r [WNil] [(x, WH (HMap m))] | None => k s r [WErr "json"] [] end
          | _ => None
          end
        else None
    | HPtr p =>
        if String.eqb f "Get" then
          match args with
          | [WH (HMap m)] => match h_get h p m with Some g => k s r [WH (HVal g); WNil] [] | None => k s r [WNil; WErr "pointer"] [] end
          | _ => None
          end
        else None
    | HSchema None =>
        if String.eqb f "Extract" then
          match args with
          | [WH (HMap m)] => match h_extract h m with Some sc => k s (HSchema (Some sc)) [WNil] [] | None => k s r [WErr "schema"] [] end
          | _ => None
          end
        else None
    | HBuilder =>
        if String.eqb f "BuildWithCtx" then
          match args with
          | [WH (HSchema (Some sc)); WH (HMap m)] =>
              match build_with fuel (h_names h m) sc (ch_build ch (sh_count s)) with
              | Built c rf log => k {| sh_world := sh_world s; sh_count := S (sh_count s) |} r [WH (HJs "" (c, rf, log)); WNil] []
              | BErr m => k s r [WNil; WErr m] []
              | BPanic m => Some (Crash m, sh_world s)
              | BOOF => Some (Loops, sh_world s)
              end
          | _ => None
          end
        else None
    | HGen =>
        if String.eqb f "Process" then
          match args with
          | [WH o; WList l] =>
              match js_list l with
              | Some vs =>
                  match process G (given vs) (ch_gen ch) with
                  | GOk (text, _) =>
                      match o with
                      | HStdout => k {| sh_world := {| w_files := w_files (sh_world s); w_stdout := w_stdout (sh_world s) +++ h_write h "" text |};
                                        sh_count := sh_count s |} r [WNil] []
                      | HFile p => k {| sh_world := {| w_files := sset p (h_write h p text) (w_files (sh_world s)); w_stdout := w_stdout (sh_world s) |};
                                        sh_count := sh_count s |} r [WNil] []
                      | _ => None
                      end
                  | GErr m => k s r [WErr m] []
                  | GPanic m => Some (Crash m, sh_world s)
                  end
              | None => None
              end
          | _ => None
          end
        else None
    | HServer =>
        if String.eqb f "Run" then
          match args with
          | [WStr l] => match serve l with Some m => k s r [WErr m] [] | None => k s r [WNil] [] end
          | _ => None
          end
        else None
    | _ => None
    end.

  Definition fieldc (r : hv) (f : string) : option V :=
    match r with
    | HOpts o =>
        if String.eqb f "Schema" then Some (WStr (o_schema o))
        else if String.eqb f "OutFile" then Some (WStr (o_outfile o))
        else if String.eqb f "Pointer" then Some (WList (map WStr (o_ptrs o)))
        else if String.eqb f "Prefix" then Some (WStr (o_prefix o))
        else None
    | HSOpts l => if String.eqb f "Listen" then Some (WStr l) else None
    | _ => None
    end.
  Definition setfieldc (r : hv) (f : string) (v : V) : option hv :=
    match r, v with
    | HJs _ b, WStr n => if String.eqb f "Name" then Some (HJs n b) else None
    | _, _ => None
    end.
  Definition zeroc (t : ty) : option V :=
    match t with
    | TName n => if String.eqb n "cliOptions" then Some (WH HNoOpts)
                 else if String.eqb n "serverOptions" then Some (WH (HSOpts "")) else None
    | TMap (TName k) TIface => if String.eqb k "string" then Some WNil else None
    | TSlice _ => Some (WList [])
    | TQual p x => if String.eqb p "io" && String.eqb x "Writer" then Some WNil else None
    | _ => None
    end.
  Definition assertc (v : V) (t : ty) : option (V * bool) :=
    match t, v with
    | TMap (TName k) TIface, WH (HVal g) =>
        if String.eqb k "string" then
          Some match as_map g with Some m => (WH (HMap m), true) | None => (WNil, false) end
        else None
    | _, _ => None
    end.
  Definition prims_c : prims hv shst res :=
    {| p_stuck := None; p_const := const; p_call := call; p_meth := meth; p_field := fieldc;
       p_setfield := setfieldc; p_zero := zeroc; p_assert := assertc |}.

  (** the exit status a function returns *)
  Definition leave (s : shst) (vs : list V) : res :=
    match vs with [WInt z] => Some (Exit (Z.to_nat z), sh_world s) | _ => None end.
  Definition depth_c : nat := 60.
  Definition depth_m : nat := 64.
  Definition src_cli (wd : world) : res := run prims_c funcs_c depth_c "_cli" {| sh_world := wd; sh_count := 0 |} leave.
  Definition src_main (wd : world) : res := run prims_c funcs_c depth_m "_main" {| sh_world := wd; sh_count := 0 |} leave.
End Prims.
