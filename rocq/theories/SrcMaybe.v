(** maybe.go run from its source text: a small interpreter for the methods of the six
    Maybe types, of ValidFlag and of ErrInvalidMaybeValue, over the syntax trees the
    parser of SrcSyntax.v reads out of the embedded file (SrcText.text_maybe).

    Outside: time.Parse and Time.Format with layout time.RFC3339 (parameters [tp], [tf]);
    json.Marshal and json.Unmarshal of one basic value, as in Maybe.v; reflect.TypeOf
    (...).String() is [typ]; bytes.Buffer is its contents.  Blocks share the variables of
    their function: no function of maybe.go redeclares a name it reads again outside. *)
From Verif Require Import Base GoFloat GoValue Formats Maybe SrcText SrcSyntax SrcProg.
From Verif Require SrcStore.
Open Scope Z_scope.
Open Scope string_scope.

(** ** Which receivers are pointers, and which struct fields are declared *)
Fixpoint receivers (ts : list tok) : list (string * bool) :=
  match ts with
  | (KKw "func", _) :: (((KOp "(", _) :: (KId _, _) :: (KOp "*", _) :: (KId T, _) :: (KOp ")", _) :: (KId m, _) :: _) as r) =>
      (T +++ "." +++ m, true) :: receivers r
  | (KKw "func", _) :: (((KOp "(", _) :: (KId _, _) :: (KId T, _) :: (KOp ")", _) :: (KId m, _) :: _) as r) =>
      (T +++ "." +++ m, false) :: receivers r
  | _ :: r => receivers r
  | [] => []
  end.
Definition receiver_table : list (string * bool) := Eval vm_compute in
  match lex 1 (SrcStore.uncomment false text_maybe) with Some ts => receivers ts | None => [] end.
Definition assoc {A} (k : string) (l : list (string * A)) : option A :=
  option_map snd (find (fun p => String.eqb (fst p) k) l).
Definition by_pointer (f : string) : option bool := assoc f receiver_table.
Definition struct_table : list (string * list SrcStore.sfield_) := Eval vm_compute in SrcStore.structs_of text_maybe.
(** names of the declared fields of struct T, each with whether it is embedded *)
Definition fields_of (T : string) : list (string * bool) :=
  match assoc T struct_table with
  | Some fs => map (fun f => (SrcStore.sf_name f, SrcStore.sf_emb f)) fs
  | None => []
  end.

(** and their declared types *)
Definition types_of (T : string) : list ty :=
  match assoc T struct_table with Some fs => map SrcStore.sf_type fs | None => [] end.

(** ** Values *)
Inductive mv :=
| XG (g : gval)                                  (* a basic value, or an interface{} holding it *)
| XFlag (b : bool)                               (* ValidFlag *)
| XStruct (T : string) (fs : list (string * mv)) (* struct of maybe.go *)
| XErr (s : string)                              (* an error of another package, by its text *)
| XBuf (s : string)                              (* bytes.Buffer *)
| XType (t : option string)                      (* reflect.Type; None = nil *)
| XJson (j : json)                               (* []byte holding a JSON text *)
| XNil.                                          (* nil *)
Definition env := list (string * mv).
Fixpoint upd (x : string) (v : mv) (e : env) : env :=
  match e with
  | [] => [(x, v)]
  | (y, w) :: r => if String.eqb y x then (y, v) :: r else (y, w) :: upd x v r
  end.
Inductive out := ONext (e : env) | ORet (e : env) (l : list mv).

(** is [g] a value of the (predeclared or time.Time) type named [T]? *)
Definition has_type (g : gval) (T : string) : bool :=
  match g with
  | GBool U _ => String.eqb T "bool" && String.eqb U T
  | GInt U k _ => String.eqb T (ikind_s k) && String.eqb U T
  | GUint U k _ => String.eqb T (ukind_s k) && String.eqb U T
  | GFloat U is32 _ => String.eqb T (if is32 then "float32" else "float64") && String.eqb U T
  | GStr U _ => String.eqb T "string" && String.eqb U T
  | GTime _ => String.eqb T "time.Time"
  | _ => false
  end.
Definition ty_name (t : ty) : option string :=
  match t with TName x => Some x | TQual p x => Some (p +++ "." +++ x) | _ => None end.
Definition zero_of (T : string) : option gval :=
  if String.eqb T "bool" then Some (gbool false)
  else if String.eqb T "float64" then Some (gfloat fzero)
  else if String.eqb T "int64" then Some (GInt "int64" Kint64 0)
  else if String.eqb T "uint64" then Some (GUint "uint64" Kuint64 0)
  else if String.eqb T "string" then Some (gstr "")
  else None.
(** conversion T(g) *)
Definition convert (T : string) (v : mv) : option mv :=
  match v with
  | XFlag b => if String.eqb T "bool" then Some (XG (gbool b)) else None
  | XG (GInt _ _ z) => if String.eqb T "int64" then Some (XG (GInt "int64" Kint64 z)) else None
  | XG (GUint _ _ z) => if String.eqb T "uint64" then Some (XG (GUint "uint64" Kuint64 z)) else None
  | XG (GFloat _ true f) => if String.eqb T "float64" then Some (XG (gfloat (f32_to_f64 f))) else None
  | XG (GFloat _ false f) =>
      if String.eqb T "float64" then Some (XG (gfloat f))
      else if String.eqb T "int64" then Some (XG (GInt "int64" Kint64 (f64_to_int64 f)))
      else if String.eqb T "uint64" then Some (XG (GUint "uint64" Kuint64 (f64_to_uint64 f)))
      else None
  | _ => None
  end.
(** an assignment to a ValidFlag takes a bool constant; otherwise the value itself *)
Definition store (old v : mv) : option mv :=
  match old, v with
  | XFlag _, XG (GBool _ b) => Some (XFlag b)
  | XFlag _, _ => None
  | _, _ => Some v
  end.
Definition is_nil (v : mv) : option bool :=
  match v with
  | XNil | XType None => Some true
  | XErr _ | XStruct _ _ | XType (Some _) => Some false
  | _ => None
  end.
Definition rfc3339 := "2006-01-02T15:04:05Z07:00".

(** json.Marshal of a basic value; json.Unmarshal into a variable holding [old] *)
Definition to_json (g : gval) : option json :=
  match g with
  | GBool _ b => Some (JBool b)
  | GInt _ _ z | GUint _ _ z => Some (JInt z)
  | GFloat _ _ f => match f with S754_nan | S754_infinity _ => None | _ => Some (JFloat f) end
  | GStr _ s => Some (JStr (json_string s))
  | _ => None
  end.
Definition of_json (old : gval) (j : json) : option (option gval) :=
  match old with
  | GBool T _ => Some (option_map (GBool T) (dec_bool j))
  | GFloat T false _ => Some (option_map (GFloat T false) (dec_float j))
  | GInt T Kint64 _ => Some (option_map (GInt T Kint64) (dec_int min_int64 max_int64 j))
  | GUint T Kuint64 _ => Some (option_map (GUint T Kuint64) (dec_int 0 max_uint64 j))
  | GStr T _ => Some (option_map (GStr T) (dec_string j))
  | _ => None
  end.

(** ** The interpreter.  [None]: not understood, a panic, or out of fuel. *)
Section Run.
  Context (tp : string -> Z + string) (tf : Z -> string).

  (** a selector call p.f(args) of a package *)
  Definition package (p f : string) (args : list mv) : option (list mv) :=
    if String.eqb p "time" && String.eqb f "Parse" then
      match args with
      | [XG (GStr _ l); XG (GStr _ s)] =>
          if String.eqb l rfc3339
          then Some match tp s with inl t => [XG (GTime t); XNil] | inr e => [XG (GTime 0); XErr e] end
          else None
      | _ => None
      end
    else if String.eqb p "json" && String.eqb f "Marshal" then
      match args with
      | [XG g] => Some match to_json g with Some j => [XJson j; XNil] | None => [XNil; XErr "json.Marshal"] end
      | _ => None
      end
    else if String.eqb p "reflect" && String.eqb f "TypeOf" then
      match args with
      | [XG GNil] => Some [XType None]
      | [XG g] => Some [XType (Some (typ g))]
      | _ => None
      end
    else None.

  (** a method of a type of another package: result and new receiver *)
  Definition foreign (r : mv) (m : string) (args : list mv) : option (mv * list mv) :=
    match r, args with
    | XG (GTime t), [XG (GStr _ l)] => if String.eqb m "Format" && String.eqb l rfc3339 then Some (r, [XG (gstr (tf t))]) else None
    | XBuf b, [XG (GStr _ s)] => if String.eqb m "WriteString" then Some (XBuf (b +++ s), []) else None
    | XBuf b, [XG (GInt _ _ c)] =>
        if String.eqb m "WriteByte" then Some (XBuf (b +++ String (ascii_of_nat (Z.to_nat c)) ""), []) else None
    | XBuf b, [] => if String.eqb m "String" then Some (r, [XG (gstr b)]) else None
    | XType (Some t), [] => if String.eqb m "String" then Some (r, [XG (gstr t)]) else None
    | _, _ => None
    end.
  Definition type_of (r : mv) : option string :=
    match r with XFlag _ => Some "ValidFlag" | XStruct T _ => Some T | _ => None end.
  Definition field (r : mv) (f : string) : option mv :=
    match r with XStruct _ fs => assoc f fs | _ => None end.
  Definition set_field (r : mv) (f : string) (v : mv) : option mv :=
    match r with
    | XStruct T fs =>
        match assoc f fs with
        | Some old => option_map (fun w => XStruct T (upd f w fs)) (store old v)
        | None => None
        end
    | _ => None
    end.

  Definition one (o : option (env * list mv)) : option (env * mv) :=
    match o with Some (e, [v]) => Some (e, v) | _ => None end.
  Definition assign (l : expr) (v : mv) (e : env) : option env :=
    match l with
    | EId x => Some (upd x v e)
    | ESel (EId x) f =>
        match assoc x e with
        | Some r => option_map (fun w => upd x w e) (set_field r f v)
        | None => None
        end
    | EUn "*" (EId x) =>
        match assoc x e with
        | Some r => option_map (fun w => upd x w e) (store r v)
        | None => None
        end
    | _ => None
    end.
  Fixpoint assigns (ls : list expr) (vs : list mv) (e : env) : option env :=
    match ls, vs with
    | [], [] => Some e
    | l :: ls', v :: vs' => match assign l v e with Some e' => assigns ls' vs' e' | None => None end
    | _, _ => None
    end.

  (** the clause of a type switch on [g] *)
  Fixpoint tclause (g : gval) (cls : list (option (list ty) * list stmt)) (dflt : option (list stmt)) : option (list stmt) :=
    match cls with
    | [] => dflt
    | (None, b) :: r => tclause g r (Some b)
    | (Some ts, b) :: r =>
        if existsb (fun t => match ty_name t with Some T => has_type g T | None => false end) ts
        then Some b else tclause g r dflt
    end.
  (** the clause of a switch whose only case besides default is nil *)
  Fixpoint nclause (v : mv) (cls : list (option (list expr) * list stmt)) (dflt : option (list stmt)) : option (list stmt) :=
    match cls with
    | [] => dflt
    | (None, b) :: r => nclause v r (Some b)
    | (Some [EId "nil"], b) :: r =>
        match is_nil v with Some true => Some b | Some false => nclause v r dflt | None => None end
    | _ => None
    end.

  Fixpoint eval (n : nat) (e : env) (x : expr) {struct n} : option (env * list mv) :=
    match n with
    | O => None
    | S n =>
        match x with
        | EId "true" => Some (e, [XG (gbool true)])
        | EId "false" => Some (e, [XG (gbool false)])
        | EId "nil" => Some (e, [XNil])
        | EId x => option_map (fun v => (e, [v])) (assoc x e)
        | EStr s => Some (e, [XG (gstr s)])
        | EChr c => Some (e, [XG (GInt "uint8" Kint c)])
        | ESel (EId "time") "RFC3339" => Some (e, [XG (gstr rfc3339)])
        | ESel r f =>
            match one (eval n e r) with
            | Some (e', v) => option_map (fun w => (e', [w])) (field v f)
            | None => None
            end
        | EUn "!" c =>
            match one (eval n e c) with Some (e', XG (GBool _ b)) => Some (e', [XG (gbool (negb b))]) | _ => None end
        | EBin "!=" a (EId "nil") =>
            match one (eval n e a) with
            | Some (e', v) => option_map (fun b => (e', [XG (gbool (negb b))])) (is_nil v)
            | None => None
            end
        | EAs a (Some t) =>
            match one (eval n e a), ty_name t with
            | Some (e', XG g), Some T => if has_type g T then Some (e', [XG g]) else None
            | _, _ => None
            end
        | ELit (TQual "bytes" "Buffer") [] => Some (e, [XBuf ""])
        | ELit (TName T) [(Some f, a)] =>
            match one (eval n e a), fields_of T with
            | Some (e', v), [(f', _)] => if String.eqb f f' then Some (e', [XStruct T [(f, v)]]) else None
            | _, _ => None
            end
        | ECall (ESel (EId "json") "Unmarshal") [d; EUn "&" (EId x)] =>
            match one (eval n e d), assoc x e with
            | Some (e', XJson j), Some (XG old) =>
                match of_json old j with
                | Some (Some g) => Some (upd x (XG g) e', [XNil])
                | Some None => Some (e', [XErr "json.Unmarshal"])
                | None => None
                end
            | _, _ => None
            end
        | ECall (EId T) [a] =>
            match one (eval n e a) with
            | Some (e', v) => option_map (fun w => (e', [w])) (convert T v)
            | None => None
            end
        | ECall (ESel r m) args =>
            match evals n e args with
            | None => None
            | Some (e', vs) =>
                match match r with EId p => if mem p ["time"; "json"; "reflect"] then Some p else None | _ => None end with
                | Some p => option_map (fun ws => (e', ws)) (package p m vs)
                | None =>
                    match one (eval n e' r) with
                    | None => None
                    | Some (e2, rv) =>
                        match call n rv m vs with
                        | None => None
                        | Some (rv', ws) =>
                            match r with
                            | EId x => Some (upd x rv' e2, ws)   (* a variable is addressable *)
                            | _ => Some (e2, ws)
                            end
                        end
                    end
                end
            end
        | _ => None
        end
    end
  with evals (n : nat) (e : env) (l : list expr) {struct n} : option (env * list mv) :=
    match n with
    | O => None
    | S n =>
        match l with
        | [] => Some (e, [])
        | x :: r =>
            match one (eval n e x) with
            | None => None
            | Some (e', v) =>
                match evals n e' r with Some (e2, vs) => Some (e2, v :: vs) | None => None end
            end
        end
    end
  with exec (n : nat) (e : env) (s : stmt) {struct n} : option out :=
    match n with
    | O => None
    | S n =>
        match s with
        | SExpr x => match eval n e x with Some (e', _) => Some (ONext e') | None => None end
        | SVar x (Some t) None =>
            match ty_name t with
            | Some T => option_map (fun g => ONext (upd x (XG g) e)) (zero_of T)
            | None => None
            end
        | SAssign [EId a; EId b] ":=" [EAs c (Some t)] =>             (* v, ok := x.(T) *)
            match one (eval n e c), ty_name t with
            | Some (e', XG g), Some T =>
                if has_type g T then Some (ONext (upd b (XG (gbool true)) (upd a (XG g) e')))
                else option_map (fun z => ONext (upd b (XG (gbool false)) (upd a (XG z) e'))) (zero_of T)
            | _, _ => None
            end
        | SAssign ls _ [x] =>
            match eval n e x with
            | Some (e', vs) => option_map ONext (assigns ls vs e')
            | None => None
            end
        | SIf init c a b =>
            match match init with None => Some (ONext e) | Some i => exec n e i end with
            | Some (ONext e0) =>
                match one (eval n e0 c) with
                | Some (e', XG (GBool _ t)) => execs n e' (if t then a else b)
                | _ => None
                end
            | _ => None
            end
        | STSwitch x cls =>
            match one (eval n e x) with
            | Some (e', XG g) => match tclause g cls None with Some b => execs n e' b | None => Some (ONext e') end
            | _ => None
            end
        | SSwitch (Some x) cls =>
            match one (eval n e x) with
            | Some (e', v) => match nclause v cls None with Some b => execs n e' b | None => None end
            | None => None
            end
        | SReturn [x] => match eval n e x with Some (e', vs) => Some (ORet e' vs) | None => None end
        | _ => None
        end
    end
  with execs (n : nat) (e : env) (l : list stmt) {struct n} : option out :=
    match n with
    | O => None
    | S n =>
        match l with
        | [] => Some (ONext e)
        | s :: r =>
            match exec n e s with
            | Some (ONext e') => execs n e' r
            | o => o
            end
        end
    end
  (** r.m(args): the receiver afterwards and the results.  A method the type does not
      declare is looked for in the type of its embedded field. *)
  with call (n : nat) (r : mv) (m : string) (args : list mv) {struct n} : option (mv * list mv) :=
    match n with
    | O => None
    | S n =>
        match type_of r with
        | None => foreign r m args
        | Some T =>
            match funcs (T +++ "." +++ m), by_pointer (T +++ "." +++ m) with
            | Some f, Some ptr =>
                match fn_recv f with
                | None => None
                | Some (x, _) =>
                    let e := (x, r) :: combine (fn_params f) args in
                    if negb (Nat.eqb (length args) (length (fn_params f))) then None
                    else
                      let back e' vs := if ptr then option_map (fun r' => (r', vs)) (assoc x e') else Some (r, vs) in
                      match execs n e (fn_body f) with
                      | Some (ONext e') => back e' []
                      | Some (ORet e' vs) => back e' vs
                      | None => None
                      end
                end
            | _, _ =>
                match find (fun p => snd p) (fields_of T) with
                | Some (f, _) =>
                    match field r f with
                    | Some sub =>
                        match call n sub m args with
                        | Some (sub', vs) =>
                            match r with XStruct T fs => Some (XStruct T (upd f sub' fs), vs) | _ => None end
                        | None => None
                        end
                    | None => None
                    end
                | None => None
                end
            end
        end
    end.

  (** enough for every method of the file *)
  Definition depth : nat := 40.
  Definition method (r : mv) (m : string) (args : list mv) : option (mv * list mv) := call depth r m args.
  (** the text of an error value: of a struct, what its Error method returns *)
  Definition error_text (v : mv) : option string :=
    match v with
    | XErr s => Some s
    | XStruct _ _ => match method v "Error" [] with Some (_, [XG (GStr _ s)]) => Some s | _ => None end
    | _ => None
    end.
End Run.

(** ** A maybe of the model as the struct value maybe.go declares *)
Definition cell (m : maybe) : mv :=
  match m with
  | MBool f b => XStruct "MaybeBool" [("ValidFlag", XFlag f); ("Bool", XG (gbool b))]
  | MFloat f x => XStruct "MaybeFloat" [("ValidFlag", XFlag f); ("Float", XG (gfloat x))]
  | MInt f z => XStruct "MaybeInt" [("ValidFlag", XFlag f); ("Int", XG (GInt "int64" Kint64 z))]
  | MString f s => XStruct "MaybeString" [("ValidFlag", XFlag f); ("String", XG (gstr s))]
  | MTime f t => XStruct "MaybeTime" [("ValidFlag", XFlag f); ("Time", XG (GTime t))]
  | MUint f z => XStruct "MaybeUint" [("ValidFlag", XFlag f); ("Uint", XG (GUint "uint64" Kuint64 z))]
  end.
(** is this field value one of the declared type? *)
Definition of_type (v : mv) (t : ty) : bool :=
  match v, ty_name t with
  | XFlag _, Some T => String.eqb T "ValidFlag"
  | XG g, Some T => has_type g T
  | _, _ => false
  end.
