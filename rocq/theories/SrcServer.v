(** The handlers of server/server.go (lines 129-207) run from the source text by SrcShell.v:
    what the packages they call do, in the terms of the model (Server.v). *)
From Verif Require Import Base SrcSyntax SrcTextC SrcShell Server.
From Verif Require SrcStore.
Open Scope Z_scope.
Open Scope string_scope.

(** the file from ServeHTTP on: the page and the cache of templates come before it *)
Fixpoint from_line (s : string) (l : list string) : list string :=
  match l with [] => [] | a :: r => if String.prefix s a then l else from_line s r end.
Definition handlers_text : list string := from_line "func (s *Server) ServeHTTP" text_server.
Definition table_s : list (string * func) := Eval vm_compute in
  flat_map (fun d => match d with DFunc f => [(fn_name f, f)] | _ => [] end)
    (match parse_file (SrcStore.uncomment false handlers_text) with Some l => l | None => [] end).
Definition funcs_s (f : string) : option func := option_map snd (find (fun p => String.eqb (fst p) f) table_s).
Example handlers_all : map fst table_s = ["ServeHTTP"; "httpIndex"; "httpGenerateValidator"] /\
  List.length (filter (String.prefix "func ") handlers_text) = 3%nat.
Proof. vm_compute. split; reflexivity. Qed.

(** bytes, by where they come from *)
Inductive content := Nothing | Raw (s : string) | Page (s : string) | Code (s : string) | Msg (s : string).

(** what the handler has told the http.ResponseWriter: the status line goes out with the first
    WriteHeader or Write; headers set afterwards are lost *)
Record writer := { x_status : option nat; x_ctype : option string; x_payload : option body }.
Definition fresh_writer : writer := {| x_status := None; x_ctype := None; x_payload := None |}.
Definition set_status (n : nat) (x : writer) : writer :=
  {| x_status := match x_status x with Some m => Some m | None => Some n end; x_ctype := x_ctype x; x_payload := x_payload x |}.
Definition set_ctype (c : string) (x : writer) : writer :=
  match x_status x with
  | None => {| x_status := None; x_ctype := Some c; x_payload := x_payload x |}
  | Some _ => x
  end.
(** one piece only: None if there was one before *)
Definition send (b : body) (x : writer) : option writer :=
  match x_payload x with
  | None => let x' := set_status 200 x in Some {| x_status := x_status x'; x_ctype := x_ctype x'; x_payload := Some b |}
  | Some _ => None
  end.

Section Prims.
  Context {schema ctx validator tmpl : Type}.
  Context (read : string -> outcome schema) (decode : string -> outcome ctx) (build : schema -> ctx -> outcome validator)
    (process : validator -> outcome string) (get_templates : outcome tmpl) (execute : tmpl -> outcome string).
  Context (path input : string).

  Inductive hs :=
  | SSelf | SReq | SUrl | SReqBody | SCtx | SW | SHeader
  | SBuf (c : content) | SBytes (c : content) | SReader (c : content) | SDecoder (c : content) | SEncoder
  | SResp (success : option bool) (other : option (string * string))      (* map[string]interface{} for the answer *)
  | SSchema (s : schema) | SMap (c : ctx) | SBuilder | SValidator (v : validator) | SGen | STmpl (t : tmpl).
  Notation V := (sv hs).
  (** None: no meaning; Some None: a panic *)
  Definition ans := option (option response).

  Definition const_s (pkg x : string) : option V :=
    if String.eqb pkg "http" && String.eqb x "StatusOK" then Some (WInt 200)
    else if String.eqb pkg "http" && String.eqb x "StatusInternalServerError" then Some (WInt 500)
    else None.
  (** (result, error), or a panic *)
  Definition answer {A} (o : outcome A) (s : writer) (good : A -> ans) (bad : string -> ans) : ans :=
    match o with Done_ a => good a | Failed m => bad m | Panicked => Some None end.

  Definition call_s (pkg f : string) (args : list V) (s : writer) (k : writer -> list V -> list (string * V) -> ans) : ans :=
    let is a b := String.eqb pkg a && String.eqb f b in
    if is "" "make" then k s [WH (SResp None None)] []
    else if is "" "byte" then match args with [WStr m] => k s [WH (SBytes (Msg m))] [] | _ => None end
    else if is "context" "Background" then k s [WH SCtx] []
    else if is "http" "NotFound" then
      match args with
      | [WH SW; WH SReq] => match send NotFound (set_status 404 s) with Some s' => k s' [] [] | None => None end
      | _ => None
      end
    else if is "io" "Copy" then
      match args with [WRef x (WH (SBuf Nothing)); WH SReqBody] => k s [] [(x, WH (SBuf (Raw input)))] | _ => None end
    else if is "bytes" "NewReader" then match args with [WH (SBytes c)] => k s [WH (SReader c)] [] | _ => None end
    else if is "schema" "Read" then
      match args with
      | [WH (SReader (Raw t))] => answer (read t) s (fun a => k s [WH (SSchema a); WNil] []) (fun m => k s [WNil; WErr m] [])
      | _ => None
      end
    else if is "json" "NewDecoder" then match args with [WH (SReader c)] => k s [WH (SDecoder c)] [] | _ => None end
    else if is "json" "NewEncoder" then match args with [WH SW] => k s [WH SEncoder] [] | _ => None end
    else if is "builder" "New" then k s [WH SBuilder] []
    else if is "jsval" "NewGenerator" then k s [WH SGen] []
    else None.

  Definition meth_s (r : hs) (f : string) (args : list V) (s : writer) (k : writer -> hs -> list V -> list (string * V) -> ans) : ans :=
    match r with
    | SSelf =>
        if String.eqb f "getTemplates" then
          match args with [] => answer get_templates s (fun t => k s r [WH (STmpl t); WNil] []) (fun m => k s r [WNil; WErr m] []) | _ => None end
        else None
    | STmpl t =>
        if String.eqb f "ExecuteTemplate" then
          match args with
          | [WRef x (WH (SBuf Nothing)); WStr name; WNil] =>
              if String.eqb name "index.tmpl"
              then answer (execute t) s (fun p => k s r [WNil] [(x, WH (SBuf (Page p)))]) (fun m => k s r [WErr m] [])
              else None
          | _ => None
          end
        else None
    | SW =>
        if String.eqb f "WriteHeader" then match args with [WInt z] => k (set_status (Z.to_nat z) s) r [] [] | _ => None end
        else if String.eqb f "Header" then match args with [] => k s r [WH SHeader] [] | _ => None end
        else if String.eqb f "Write" then
          match args with
          | [WH (SBytes (Msg m))] => match send (Text m) s with Some s' => k s' r [] [] | None => None end
          | [WH (SBytes (Page p))] => match send (Html p) s with Some s' => k s' r [] [] | None => None end
          | _ => None
          end
        else None
    | SHeader =>
        if String.eqb f "Set" then
          match args with [WStr h; WStr c] => if String.eqb h "Content-Type" then k (set_ctype c s) r [] [] else None | _ => None end
        else None
    | SBuf c =>
        if String.eqb f "Bytes" then match args with [] => k s r [WH (SBytes c)] [] | _ => None end
        else if String.eqb f "Reset" then match args with [] => k s (SBuf Nothing) [] [] | _ => None end
        else if String.eqb f "String" then match args, c with [], Code t => k s r [WStr t] [] | _, _ => None end
        else None
    | SDecoder (Raw t) =>
        if String.eqb f "Decode" then
          match args with
          | [WRef x WNil] => answer (decode t) s (fun m => k s r [WNil] [(x, WH (SMap m))]) (fun m => k s r [WErr m] [])
          | _ => None
          end
        else None
    | SBuilder =>
        if String.eqb f "BuildWithCtx" then
          match args with
          | [WH (SSchema a); WH (SMap m)] => answer (build a m) s (fun v => k s r [WH (SValidator v); WNil] []) (fun m => k s r [WNil; WErr m] [])
          | _ => None
          end
        else None
    | SGen =>
        if String.eqb f "Process" then
          match args with
          | [WRef x (WH (SBuf Nothing)); WH (SValidator v)] =>
              answer (process v) s (fun t => k s r [WNil] [(x, WH (SBuf (Code t)))]) (fun m => k s r [WErr m] [])
          | _ => None
          end
        else None
    | SEncoder =>
        if String.eqb f "Encode" then
          match args with
          | [WH (SResp (Some b) (Some (key, t)))] => match send (Json b key t) s with Some s' => k s' r [WNil] [] | None => None end
          | _ => None
          end
        else None
    | _ => None
    end.

  Definition field_s (r : hs) (f : string) : option V :=
    match r with
    | SReq => if String.eqb f "URL" then Some (WH SUrl) else if String.eqb f "Body" then Some (WH SReqBody) else None
    | SUrl => if String.eqb f "Path" then Some (WStr path) else None
    | _ => None
    end.
  Definition setfield_s (r : hs) (f : string) (v : V) : option hs :=
    match r, v with
    | SResp _ o, WBool b => if String.eqb f "success" then Some (SResp (Some b) o) else None
    | SResp b None, WStr t => if String.eqb f "success" then None else Some (SResp b (Some (f, t)))
    | _, _ => None
    end.
  Definition zero_s (t : ty) : option V :=
    match t with
    | TQual p x => if String.eqb p "bytes" && String.eqb x "Buffer" then Some (WH (SBuf Nothing)) else None
    | TMap _ TIface => Some WNil
    | _ => None
    end.
  Definition prims_s : prims hs writer ans :=
    {| p_stuck := None; p_const := const_s; p_call := call_s; p_meth := meth_s; p_field := field_s;
       p_setfield := setfield_s; p_zero := zero_s; p_assert := fun _ _ => None |}.

  (** the handler returned: a status of 200 unless one was sent; something was written *)
  Definition sent (s : writer) (_ : list V) : ans :=
    match x_payload s with
    | Some b => Some (Some {| status := match x_status s with Some n => n | None => 200 end; ctype := x_ctype s; payload := b |})
    | None => None
    end.
  Definition src_serve : ans :=
    match funcs_s "ServeHTTP" with
    | Some fn => execs prims_s funcs_s 60 [(match fn_recv fn with Some (x, _) => [(x, WH SSelf)] | None => [] end ++ combine (fn_params fn) [WH SW; WH SReq])%list]
                       fresh_writer (fn_body fn) (fun _ s => sent s []) sent
    | None => None
    end.
End Prims.
