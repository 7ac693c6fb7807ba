(** An interpreter for the Go of the command line program (cmd/jsval/jsval.go) and of
    the playground server (server/server.go), over the syntax
    trees SrcSyntax.v reads out of the embedded file: block scopes, := and =, if with init,
    range loops, calls.  Packages and the values they hand out are given by a record of
    primitives.  Every function takes what to do next: a primitive may end the run. *)
From Verif Require Import Base SrcSyntax.
Open Scope Z_scope.
Open Scope string_scope.

(** values; [H]: what packages hand out *)
Inductive sv (H : Type) :=
| WStr (s : string) | WInt (z : Z) | WBool (b : bool) | WNil | WErr (m : string)
| WList (l : list (sv H))
| WRef (x : string) (v : sv H)       (* &x, with what x holds *)
| WH (h : H).
Arguments WStr {H}. Arguments WInt {H}. Arguments WBool {H}. Arguments WNil {H}. Arguments WErr {H}.
Arguments WList {H}. Arguments WRef {H}. Arguments WH {H}.

(** scopes, innermost first *)
Definition scopes (H : Type) := list (list (string * sv H)).
Section Env.
  Context {H : Type}.
  Fixpoint get1 (x : string) (f : list (string * sv H)) : option (sv H) :=
    match f with [] => None | (y, v) :: r => if String.eqb x y then Some v else get1 x r end.
  Fixpoint set1 (x : string) (v : sv H) (f : list (string * sv H)) : option (list (string * sv H)) :=
    match f with
    | [] => None
    | (y, w) :: r => if String.eqb x y then Some ((y, v) :: r) else option_map (cons (y, w)) (set1 x v r)
    end.
  Fixpoint get (x : string) (e : scopes H) : option (sv H) :=
    match e with [] => None | f :: r => match get1 x f with Some v => Some v | None => get x r end end.
  (** x = v *)
  Fixpoint put (x : string) (v : sv H) (e : scopes H) : option (scopes H) :=
    match e with
    | [] => None
    | f :: r => match set1 x v f with Some f' => Some (f' :: r) | None => option_map (cons f) (put x v r) end
    end.
  (** x := v: in the innermost scope, anew or again *)
  Definition declare (x : string) (v : sv H) (e : scopes H) : option (scopes H) :=
    if String.eqb x "_" then Some e
    else match e with
         | [] => None
         | f :: r => match set1 x v f with Some f' => Some (f' :: r) | None => Some (((x, v) :: f) :: r) end
         end.
  Fixpoint declares (xs : list expr) (vs : list (sv H)) (e : scopes H) : option (scopes H) :=
    match xs, vs with
    | [], [] => Some e
    | EId x :: xs', v :: vs' => match declare x v e with Some e' => declares xs' vs' e' | None => None end
    | _, _ => None
    end.
  Fixpoint puts (l : list (string * sv H)) (e : scopes H) : option (scopes H) :=
    match l with [] => Some e | (x, v) :: r => match put x v e with Some e' => puts r e' | None => None end end.
  Fixpoint set_nth (i : nat) (v : sv H) (l : list (sv H)) : option (list (sv H)) :=
    match l, i with
    | [], _ => None
    | _ :: r, O => Some (v :: r)
    | a :: r, S i => option_map (cons a) (set_nth i v r)
    end.
End Env.

Section Core.
  Context {H St R : Type}.
  Notation V := (sv H). Notation env := (scopes H).
  Record prims := {
    p_stuck : R;                                            (* no meaning *)
    p_const : string -> string -> option V;                 (* pkg.Name *)
    (** pkg.F(args): results, and what is written through the pointers passed *)
    p_call : string -> string -> list V -> St -> (St -> list V -> list (string * V) -> R) -> R;
    (** h.M(args), with the receiver afterwards *)
    p_meth : H -> string -> list V -> St -> (St -> H -> list V -> list (string * V) -> R) -> R;
    p_field : H -> string -> option V;
    p_setfield : H -> string -> V -> option H;
    p_zero : ty -> option V;
    p_assert : V -> ty -> option (V * bool)                 (* v, ok := x.(T) *)
  }.
  Context (p : prims) (fns : string -> option func).

  Definition compare_eq (a b : V) : option bool :=
    match a, b with
    | WStr x, WStr y => Some (String.eqb x y)
    | WInt x, WInt y => Some (Z.eqb x y)
    | WNil, WNil => Some true
    | WErr _, WNil => Some false
    | _, _ => None
    end.

  (** a range loop: the body is run in a scope of its own holding the key and the element *)
  Fixpoint loop (step : Z -> V -> env -> St -> (env -> St -> R) -> R) (l : list V) (i : Z) (e : env) (s : St) (k : env -> St -> R) : R :=
    match l with
    | [] => k e s
    | v :: r => step i v e s (fun e' s' => loop step r (i + 1) e' s' k)
    end.

  (** a method declared in the file *)
  Definition method (f : string) : option (string * func) :=
    match fns f with Some fn => match fn_recv fn with Some (self, _) => Some (self, fn) | None => None end | None => None end.
  (** the clause of a switch over strings: the first that names the tag, else the default *)
  Fixpoint names_tag (t : string) (l : list expr) : option bool :=
    match l with
    | [] => Some false
    | EStr u :: r => match names_tag t r with Some b => Some (String.eqb t u || b) | None => None end
    | _ :: _ => None
    end.
  Fixpoint pick_in (t : string) (other : list stmt) (cls : list (option (list expr) * list stmt)) : option (list stmt) :=
    match cls with
    | [] => Some other
    | (Some l, b) :: r => match names_tag t l with Some true => Some b | Some false => pick_in t other r | None => None end
    | (None, _) :: r => pick_in t other r
    end.
  Definition pick (t : string) (cls : list (option (list expr) * list stmt)) : option (list stmt) :=
    pick_in t (flat_map (fun c => match c with (None, b) => b | _ => [] end) cls) cls.

  Fixpoint eval (n : nat) (e : env) (s : St) (x : expr) (k : env -> St -> list V -> R) {struct n} : R :=
    match n with
    | O => p_stuck p
    | S n =>
        let one e s x (k : env -> St -> V -> R) := eval n e s x (fun e s vs => match vs with [v] => k e s v | _ => p_stuck p end) in
        match x with
        | EId x =>
            match get x e with
            | Some v => k e s [v]
            | None =>
                if String.eqb x "nil" then k e s [WNil]
                else if String.eqb x "true" then k e s [WBool true]
                else if String.eqb x "false" then k e s [WBool false]
                else p_stuck p
            end
        | EStr t => k e s [WStr t]
        | ENum z => k e s [WInt z]
        | EUn "!" a => one e s a (fun e s v => match v with WBool b => k e s [WBool (negb b)] | _ => p_stuck p end)
        | EUn "&" (EId x) => match get x e with Some v => k e s [WRef x v] | None => p_stuck p end
        | EUn "..." a => eval n e s a k
        | EBin "==" a b => one e s a (fun e s v => one e s b (fun e s w =>
            match compare_eq v w with Some t => k e s [WBool t] | None => p_stuck p end))
        | EBin "!=" a b => one e s a (fun e s v => one e s b (fun e s w =>
            match compare_eq v w with Some t => k e s [WBool (negb t)] | None => p_stuck p end))
        | EBin ">" a b => one e s a (fun e s v => one e s b (fun e s w =>
            match v, w with WInt y, WInt z => k e s [WBool (Z.gtb y z)] | _, _ => p_stuck p end))
        | EBin "&&" a b => one e s a (fun e s v =>
            match v with WBool true => eval n e s b k | WBool false => k e s [v] | _ => p_stuck p end)
        | EIdx a (ENum i) => one e s a (fun e s v =>
            match v with
            | WList l => match nth_error l (Z.to_nat i) with Some w => k e s [w] | None => p_stuck p end
            | _ => p_stuck p
            end)
        | ELit (TSlice _) [(None, a)] => one e s a (fun e s v => k e s [WList [v]])
        | ECall (EId "len") [a] => one e s a (fun e s v => match v with WList l => k e s [WInt (Z.of_nat (length l))] | _ => p_stuck p end)
        | ECall (EId "append") [a; b] => one e s a (fun e s v => one e s b (fun e s w =>
            match v with WList l => k e s [WList (app l [w])] | _ => p_stuck p end))
        | ECall (EId "make") [EType (TSlice _); a] => one e s a (fun e s v =>
            match v with WInt z => k e s [WList (repeat WNil (Z.to_nat z))] | _ => p_stuck p end)
        | ECall (EId "make") [EType (TMap _ _)] => p_call p "" "make" [] s (fun s vs _ => k e s vs)
        | ECall (EType (TSlice (TName t))) [a] => one e s a (fun e s v => p_call p "" t [v] s (fun s vs _ => k e s vs))     (* []t(a) *)
        | ELit t [] => match p_zero p t with Some v => k e s [v] | None => p_stuck p end
        | ECall (EId f) [] =>
            match fns f with
            | Some fn => execs n [[]] s (fn_body fn) (fun _ s => k e s []) (fun s vs => k e s vs)
            | None => p_stuck p
            end
        | ESel (EId x) f =>
            match get x e with
            | Some (WH h) => match p_field p h f with Some v => k e s [v] | None => p_stuck p end
            | Some _ => p_stuck p
            | None => match p_const p x f with Some v => k e s [v] | None => p_stuck p end
            end
        | ESel a f => one e s a (fun e s v => match v with WH h => match p_field p h f with Some w => k e s [w] | None => p_stuck p end | _ => p_stuck p end)
        | ECall (ESel r f) args =>
            let wr e s vs ws := match puts ws e with Some e' => k e' s vs | None => p_stuck p end in
            evals n e s args (fun e s vs =>
              match r with
              | EId x =>
                  match get x e with
                  | Some (WH h) =>
                      match method f with
                      | Some (self, fn) =>       (* a method of the file; receiver and parameters are pointers or not assigned to *)
                          execs n [(self, WH h) :: combine (fn_params fn) vs] s (fn_body fn) (fun _ s => k e s []) (fun s vs => k e s vs)
                      | None => p_meth p h f vs s (fun s h' rs ws => wr e s rs ((x, WH h') :: ws))
                      end
                  | Some (WErr m) => if String.eqb f "Error" then k e s [WStr m] else p_stuck p
                  | Some _ => p_stuck p
                  | None => p_call p x f vs s (wr e)
                  end
              | _ => one e s r (fun e s v =>
                  match v with WH h => p_meth p h f vs s (fun s _ rs ws => wr e s rs ws) | _ => p_stuck p end)
              end)
        | _ => p_stuck p
        end
    end
  with evals (n : nat) (e : env) (s : St) (l : list expr) (k : env -> St -> list V -> R) {struct n} : R :=
    match n with
    | O => p_stuck p
    | S n =>
        match l with
        | [] => k e s []
        | x :: r => eval n e s x (fun e s vs => match vs with [v] => evals n e s r (fun e s ws => k e s (v :: ws)) | _ => p_stuck p end)
        end
    end
  with exec (n : nat) (e : env) (s : St) (c : stmt) (k : env -> St -> R) (ret : St -> list V -> R) {struct n} : R :=
    match n with
    | O => p_stuck p
    | S n =>
        let block e s b k := execs n ([] :: e) s b (fun e s => k (tl e) s) ret in
        let put_ x v e s := match put x v e with Some e' => k e' s | None => p_stuck p end in
        match c with
        | SExpr x => eval n e s x (fun e s _ => k e s)
        | SVar x (Some t) None =>
            match p_zero p t with
            | Some v => match declare x v e with Some e' => k e' s | None => p_stuck p end
            | None => p_stuck p
            end
        | SAssign [EId a; EId b] ":=" [EAs x (Some t)] =>
            eval n e s x (fun e s vs =>
              match vs with
              | [v] => match p_assert p v t with
                       | Some (w, ok) => match declares [EId a; EId b] [w; WBool ok] e with Some e' => k e' s | None => p_stuck p end
                       | None => p_stuck p
                       end
              | _ => p_stuck p
              end)
        | SAssign xs ":=" [x] =>
            eval n e s x (fun e s vs => match declares xs vs e with Some e' => k e' s | None => p_stuck p end)
        | SAssign [EId y] "=" [x] => eval n e s x (fun e s vs => match vs with [v] => put_ y v e s | _ => p_stuck p end)
        | SAssign [ESel (EId y) f] "=" [x] =>
            eval n e s x (fun e s vs =>
              match vs, get y e with
              | [v], Some (WH h) => match p_setfield p h f v with Some h' => put_ y (WH h') e s | None => p_stuck p end
              | _, _ => p_stuck p
              end)
        | SAssign [EIdx (EId y) (EStr f)] "=" [x] =>
            eval n e s x (fun e s vs =>
              match vs, get y e with
              | [v], Some (WH h) => match p_setfield p h f v with Some h' => put_ y (WH h') e s | None => p_stuck p end
              | _, _ => p_stuck p
              end)
        | SSwitch (Some x) cls =>
            eval n e s x (fun e s vs =>
              match vs with
              | [WStr t] => match pick t cls with Some b => block e s b k | None => p_stuck p end
              | _ => p_stuck p
              end)
        | SAssign [EIdx (EId y) (EId i)] "=" [x] =>
            eval n e s x (fun e s vs =>
              match vs, get y e, get i e with
              | [v], Some (WList l), Some (WInt j) =>
                  match set_nth (Z.to_nat j) v l with Some l' => put_ y (WList l') e s | None => p_stuck p end
              | _, _, _ => p_stuck p
              end)
        | SIf init c a b =>
            let test e s k := eval n e s c (fun e s vs =>
              match vs with [WBool true] => block e s a k | [WBool false] => block e s b k | _ => p_stuck p end) in
            match init with
            | None => test e s k
            | Some i => exec n ([] :: e) s i (fun e s => test e s (fun e s => k (tl e) s)) ret
            end
        | SRange _ kx vx true x body =>
            eval n e s x (fun e s vs =>
              match vs with
              | [WList l] =>
                  loop (fun i v e s k =>
                          let f := app (match vx with Some y => [(y, v)] | None => [] end)
                                       (match kx with Some y => [(y, WInt i)] | None => [] end) in
                          execs n ([] :: f :: e) s body (fun e s => k (tl (tl e)) s) ret) l 0 e s k
              | _ => p_stuck p
              end)
        | SReturn [] => ret s []
        | SReturn [x] => eval n e s x (fun _ s vs => ret s vs)
        | SDefer (ECall (ESel (EId x) "Close") []) =>      (* closing a file at the end has no effect of its own *)
            match get x e with Some (WH _) => k e s | _ => p_stuck p end
        | _ => p_stuck p
        end
    end
  with execs (n : nat) (e : env) (s : St) (l : list stmt) (k : env -> St -> R) (ret : St -> list V -> R) {struct n} : R :=
    match n with
    | O => p_stuck p
    | S n =>
        match l with
        | [] => k e s
        | c :: r => exec n e s c (fun e s => execs n e s r k ret) ret
        end
    end.

  (** a function without parameters *)
  Definition run (n : nat) (f : string) (s : St) (k : St -> list V -> R) : R :=
    match fns f with
    | Some fn => execs n [[]] s (fn_body fn) (fun _ s => k s []) k
    | None => p_stuck p
    end.
End Core.
Arguments prims : clear implicits.
