(** A reader for the Go source of /repo: tokens (with automatic semicolons), expressions,
    statements, functions.  Follows the Go specification; nothing here is in /repo.  The
    texts it is applied to are in SrcText.v.  Anything it does not know is an error, with
    one exception: the inside of function literals, interface and struct types is skipped
    (SrcExec.v has no meaning for them). *)
From Verif Require Import Base Formats.
Open Scope string_scope.
Open Scope list_scope.
Open Scope Z_scope.

(** ** Tokens *)
Inductive tk := KId (s : string) | KKw (s : string) | KStr (s : string) | KNum (z : Z) | KChr (z : Z) | KOp (s : string).
(** token and line number *)
Definition tok := (tk * Z)%type.

Definition keyword (s : string) : bool := mem s ["break"; "case"; "chan"; "const"; "continue"; "default"; "defer"; "else";
  "fallthrough"; "for"; "func"; "go"; "goto"; "if"; "import"; "interface"; "map"; "package"; "range"; "return"; "select";
  "struct"; "switch"; "type"; "var"].
(** operators, and the prefixes of operators that are none themselves *)
Definition operator (s : string) : bool := mem s ["+"; "-"; "*"; "/"; "%"; "&"; "|"; "^"; "<<"; ">>"; "&^"; "+="; "-="; "*="; "/=";
  "&&"; "||"; "<-"; "++"; "--"; "=="; "<"; ">"; "="; "!"; "!="; "<="; ">="; ":="; ".."; "..."; "("; ")"; "["; "]"; "{"; "}"; ","; ";"; "."; ":"].
Definition one (c : ascii) : string := String c "".

(** a newline after this token ends the statement *)
Definition ends (t : tk) : bool :=
  match t with
  | KId _ | KStr _ | KNum _ | KChr _ => true
  | KKw s => mem s ["break"; "continue"; "fallthrough"; "return"]
  | KOp s => mem s ["++"; "--"; ")"; "]"; "}"]
  end.

Inductive lst :=
| LNone | LId (acc : string) | LNum (acc : string) | LOp (acc : string)
| LStr (acc : string) | LEsc (acc : string) | LRaw (acc : string)
| LChr | LChrEnd (z : Z) | LComment.

Definition hex_digit (c : ascii) : option Z :=
  let b := byte c in
  if (48 <=? b) && (b <=? 57) then Some (b - 48)
  else if (97 <=? b) && (b <=? 102) then Some (b - 87)
  else if (65 <=? b) && (b <=? 70) then Some (b - 55)
  else None.
Fixpoint digits (base acc : Z) (s : string) : option Z :=
  match s with
  | EmptyString => Some acc
  | String c r => match hex_digit c with Some d => if d <? base then digits base (base * acc + d) r else None | None => None end
  end.
Definition number (s : string) : option Z :=
  match s with
  | String "0" (String "x" (String _ _ as r)) => digits 16 0 r
  | String "0" EmptyString => Some 0
  | String "0" _ => None
  | _ => digits 10 0 s
  end.

Definition escape (c : ascii) : option ascii :=
  if Ascii.eqb c "n" then Some "010"%char else if Ascii.eqb c "t" then Some "009"%char
  else if Ascii.eqb c "\" then Some "\"%char else if Ascii.eqb c "034" then Some "034"%char else None.

Definition begin (c : ascii) : option lst :=
  if existsb (Ascii.eqb c) [" "; "009"]%char then Some LNone
  else if letter_ c then Some (LId (one c))
  else if digit c then Some (LNum (one c))
  else if Ascii.eqb c "034" then Some (LStr "")
  else if Ascii.eqb c "`" then Some (LRaw "")
  else if Ascii.eqb c "'" then Some LChr
  else if operator (one c) then Some (LOp (one c))
  else None.
Definition word (s : string) : tk := if keyword s then KKw s else KId s.

Definition step (st : lst) (c : ascii) : option (list tk * lst) :=
  let emit (t : option tk) := match t, begin c with Some t, Some st' => Some ([t], st') | _, _ => None end in
  match st with
  | LNone => match begin c with Some st' => Some ([], st') | None => None end
  | LId acc => if letter_ c || digit c then Some ([], LId (acc +++ one c)) else emit (Some (word acc))
  | LNum acc => if letter_ c || digit c then Some ([], LNum (acc +++ one c)) else emit (option_map KNum (number acc))
  | LOp acc =>
      if String.eqb acc "/" && Ascii.eqb c "/" then Some ([], LComment)
      else if String.eqb acc "/" && Ascii.eqb c "*" then None
      else if operator (acc +++ one c) then Some ([], LOp (acc +++ one c)) else emit (Some (KOp acc))
  | LStr acc =>
      if Ascii.eqb c "034" then Some ([KStr acc], LNone)
      else if Ascii.eqb c "\" then Some ([], LEsc acc) else Some ([], LStr (acc +++ one c))
  | LEsc acc => match escape c with Some d => Some ([], LStr (acc +++ one d)) | None => None end
  | LRaw acc => if Ascii.eqb c "`" then Some ([KStr acc], LNone) else Some ([], LRaw (acc +++ one c))
  | LChr => if Ascii.eqb c "\" then None else Some ([], LChrEnd (byte c))
  | LChrEnd z => if Ascii.eqb c "'" then Some ([KChr z], LNone) else None
  | LComment => Some ([], LComment)
  end.

Definition flush (st : lst) : option (list tk) :=
  match st with
  | LNone | LComment => Some []
  | LId acc => Some [word acc]
  | LNum acc => option_map (fun z => [KNum z]) (number acc)
  | LOp acc => Some [KOp acc]
  | _ => None
  end.

Fixpoint lex_line (st : lst) (s : string) : option (list tk) :=
  match s with
  | EmptyString => flush st
  | String c r =>
      match step st c with
      | None => None
      | Some (ts, st') => match lex_line st' r with Some ts' => Some (ts ++ ts') | None => None end
      end
  end.

Definition semi (ts : list tk) : list tk :=
  match last ts (KOp ";") with t => if ends t then ts ++ [KOp ";"] else ts end.

Fixpoint lex (line : Z) (ls : list string) : option (list tok) :=
  match ls with
  | [] => Some []
  | l :: r =>
      match lex_line LNone l, lex (line + 1) r with
      | Some ts, Some ts' => Some (map (fun t => (t, line)) (semi ts) ++ ts')
      | _, _ => None
      end
  end.

(** ** Syntax *)
Inductive ty :=
| TName (x : string) | TQual (p x : string) | TPtr (t : ty) | TSlice (t : ty) | TMap (k v : ty)
| TStruct | TIface | TFunc | TDots (t : ty).

Inductive expr :=
| EId (x : string)
| EStr (s : string)
| ENum (z : Z)
| EChr (z : Z)
| ESel (e : expr) (x : string)
| ECall (f : expr) (l : list expr)
| EIdx (e i : expr)
| ESub (e : expr) (lo hi : option expr)            (* e[lo:hi] *)
| EUn (op : string) (e : expr)
| EBin (op : string) (a b : expr)
| EAs (e : expr) (t : option ty)                   (* e.(t); None: e.(type) *)
| ELit (t : ty) (l : list (option string * expr))  (* composite literal *)
| EType (t : ty)
| EFunc.                                           (* function literal, body skipped *)

Inductive stmt :=
| SExpr (e : expr)
| SAssign (lhs : list expr) (op : string) (rhs : list expr)
| SInc (e : expr) (op : string)
| SVar (x : string) (t : option ty) (e : option expr)
| SIf (init : option stmt) (c : expr) (a b : list stmt)
| SFor (line : Z) (init : option stmt) (c : option expr) (post : option stmt) (body : list stmt)
| SRange (line : Z) (k v : option string) (def : bool) (e : expr) (body : list stmt)
| SSwitch (tag : option expr) (cls : list (option (list expr) * list stmt))
| STSwitch (e : expr) (cls : list (option (list ty) * list stmt))
| SReturn (l : list expr)
| SBreak | SContinue
| SDefer (e : expr).

Record func := {
  fn_recv : option (string * string);       (* receiver variable and type name *)
  fn_name : string;
  fn_params : list string;
  fn_types : list ty;                       (* of the parameters *)
  fn_results : list string;                 (* named results *)
  fn_body : list stmt
}.
Inductive decl := DFunc (f : func) | DVar (x : string) (e : option expr) | DOther.

(** ** Parser: every function returns the value read and the remaining tokens *)
Definition P (A : Type) := list tok -> option (A * list tok).
Definition ret {A} (a : A) : P A := fun ts => Some (a, ts).
Definition bind {A B} (p : P A) (f : A -> P B) : P B :=
  fun ts => match p ts with Some (a, r) => f a r | None => None end.
Notation "x <- p ;; q" := (bind p (fun x => q)) (at level 61, p at next level, right associativity).
Notation "p ;; q" := (bind p (fun _ => q)) (at level 61, right associativity).
Definition fail {A} : P A := fun _ => None.

Definition peek : P (option tk) := fun ts => Some (match ts with (t, _) :: _ => Some t | [] => None end, ts).
Definition peek2 : P (option tk) := fun ts => Some (match ts with _ :: (t, _) :: _ => Some t | _ => None end, ts).
Definition here : P Z := fun ts => Some (match ts with (_, n) :: _ => n | [] => 0 end, ts).
Definition tk_eqb (a b : tk) : bool :=
  match a, b with KKw x, KKw y | KOp x, KOp y => String.eqb x y | _, _ => false end.
Definition is_tok (t : tk) (o : option tk) : bool := match o with Some u => tk_eqb t u | None => false end.
Definition want (t : tk) : P unit := fun ts => match ts with (u, _) :: r => if tk_eqb t u then Some (tt, r) else None | [] => None end.
Definition op (s : string) : P unit := want (KOp s).
Definition kw (s : string) : P unit := want (KKw s).
Definition ident : P string := fun ts => match ts with (KId x, _) :: r => Some (x, r) | _ => None end.
(** consume the token if it is there *)
Definition maybe_op (s : string) : P bool := o <- peek;; if is_tok (KOp s) o then op s;; ret true else ret false.

(** skip to the bracket closing the one just read *)
Definition opener (t : tk) : bool := match t with KOp s => mem s ["("; "["; "{"] | _ => false end.
Definition closer (t : tk) : bool := match t with KOp s => mem s [")"; "]"; "}"] | _ => false end.
Fixpoint skip (depth : nat) (ts : list tok) : option (unit * list tok) :=
  match ts with
  | [] => None
  | (t, _) :: r =>
      if opener t then skip (S depth) r
      else if closer t then match depth with O => Some (tt, r) | S d => skip d r end
      else skip depth r
  end.
(** skip a top-level declaration: to the semicolon outside brackets *)
Fixpoint skip_decl (depth : nat) (ts : list tok) : option (unit * list tok) :=
  match ts with
  | [] => None
  | (t, _) :: r =>
      if opener t then skip_decl (S depth) r
      else if closer t then skip_decl (pred depth) r
      else if tk_eqb t (KOp ";") && Nat.eqb depth 0 then Some (tt, r)
      else skip_decl depth r
  end.

Fixpoint p_type (n : nat) : P ty :=
  match n with
  | O => fail
  | S n' =>
      o <- peek;;
      match o with
      | Some (KId x) =>
          ident;;
          d <- maybe_op ".";;
          if d then y <- ident;; ret (TQual x y) else ret (TName x)
      | Some (KOp "*") => op "*";; t <- p_type n';; ret (TPtr t)
      | Some (KOp "[") => op "[";; op "]";; t <- p_type n';; ret (TSlice t)
      | Some (KOp "...") => op "...";; t <- p_type n';; ret (TDots t)
      | Some (KKw "map") => kw "map";; op "[";; k <- p_type n';; op "]";; v <- p_type n';; ret (TMap k v)
      | Some (KKw "struct") => kw "struct";; op "{";; skip 0;; ret TStruct
      | Some (KKw "interface") => kw "interface";; op "{";; skip 0;; ret TIface
      | Some (KKw "func") => kw "func";; op "(";; skip 0;; ret TFunc
      | _ => fail
      end
  end.

Definition prec (s : string) : Z :=
  if String.eqb s "||" then 1 else if String.eqb s "&&" then 2
  else if mem s ["=="; "!="; "<"; "<="; ">"; ">="] then 3
  else if mem s ["+"; "-"; "|"; "^"] then 4
  else if mem s ["*"; "/"; "%"; "<<"; ">>"; "&"; "&^"] then 5 else 0.

(** [lit]: may a brace start a composite literal here? *)
Fixpoint p_expr (n : nat) (lit : bool) (lvl : Z) : P expr :=
  match n with
  | O => fail
  | S n' => a <- p_unary n' lit;; p_bin n' lit lvl a
  end
(** operators of at least this level after a *)
with p_bin (n : nat) (lit : bool) (lvl : Z) (a : expr) : P expr :=
  match n with
  | O => fail
  | S n' =>
      o <- peek;;
      match o with
      | Some (KOp s) =>
          if (0 <? prec s) && (lvl <=? prec s)
          then op s;; b <- p_expr n' lit (prec s + 1);; p_bin n' lit lvl (EBin s a b)
          else ret a
      | _ => ret a
      end
  end
with p_unary (n : nat) (lit : bool) : P expr :=
  match n with
  | O => fail
  | S n' =>
      o <- peek;;
      match o with
      | Some (KOp s) =>
          if mem s ["-"; "!"; "&"; "*"; "+"] then op s;; e <- p_unary n' lit;; ret (EUn s e)
          else a <- p_operand n' lit;; p_suffix n' lit a
      | _ => a <- p_operand n' lit;; p_suffix n' lit a
      end
  end
with p_operand (n : nat) (lit : bool) : P expr :=
  match n with
  | O => fail
  | S n' =>
      o <- peek;;
      match o with
      | Some (KId x) => ident;; ret (EId x)
      | Some (KStr s) => fun ts => Some (EStr s, tl ts)
      | Some (KNum z) => fun ts => Some (ENum z, tl ts)
      | Some (KChr z) => fun ts => Some (EChr z, tl ts)
      | Some (KOp "(") => op "(";; e <- p_expr n' true 1;; op ")";; ret e
      | Some (KKw "func") =>
          kw "func";; op "(";; skip 0;; op "{";; skip 0;; ret EFunc
      | Some (KKw "map") | Some (KKw "struct") | Some (KOp "[") =>
          t <- p_type n';;
          o2 <- peek;;
          if is_tok (KOp "{") o2 then op "{";; l <- p_elems n';; ret (ELit t l) else ret (EType t)
      | Some (KKw "interface") => t <- p_type n';; ret (EType t)
      | _ => fail
      end
  end
with p_suffix (n : nat) (lit : bool) (a : expr) : P expr :=
  match n with
  | O => fail
  | S n' =>
      o <- peek;;
      match o with
      | Some (KOp ".") =>
          op ".";;
          o2 <- peek;;
          match o2 with
          | Some (KId x) => ident;; p_suffix n' lit (ESel a x)
          | Some (KOp "(") =>
              op "(";;
              o3 <- peek;;
              (if is_tok (KKw "type") o3 then kw "type";; op ")";; p_suffix n' lit (EAs a None)
               else t <- p_type n';; op ")";; p_suffix n' lit (EAs a (Some t)))
          | _ => fail
          end
      | Some (KOp "(") => op "(";; l <- p_args n';; p_suffix n' lit (ECall a l)
      | Some (KOp "[") =>
          op "[";;
          c <- maybe_op ":";;
          (if c then hi <- p_expr n' true 1;; op "]";; p_suffix n' lit (ESub a None (Some hi))
           else i <- p_expr n' true 1;;
                c2 <- maybe_op ":";;
                if c2 then
                  e <- maybe_op "]";;
                  (if e then p_suffix n' lit (ESub a (Some i) None)
                   else hi <- p_expr n' true 1;; op "]";; p_suffix n' lit (ESub a (Some i) (Some hi)))
                else op "]";; p_suffix n' lit (EIdx a i))
      | Some (KOp "{") =>
          match lit, a with
          | true, EId x => op "{";; l <- p_elems n';; p_suffix n' lit (ELit (TName x) l)
          | true, ESel (EId p) x => op "{";; l <- p_elems n';; p_suffix n' lit (ELit (TQual p x) l)
          | _, _ => ret a
          end
      | _ => ret a
      end
  end
(** arguments up to the closing parenthesis; an argument may be a type, or end in dots *)
with p_args (n : nat) : P (list expr) :=
  match n with
  | O => fail
  | S n' =>
      c <- maybe_op ")";;
      if c then ret []
      else
        e <- p_expr n' true 1;;
        d <- maybe_op "...";;
        let e := if d then EUn "..." e else e in
        o <- peek;;
        if is_tok (KOp ",") o then op ",";; l <- p_args n';; ret (e :: l)
        else op ")";; ret [e]
  end
(** elements of a composite literal up to the closing brace; newlines may have left
    semicolons only where a comma must stand, so none occur here *)
with p_elems (n : nat) : P (list (option string * expr)) :=
  match n with
  | O => fail
  | S n' =>
      c <- maybe_op "}";;
      if c then ret []
      else
        e <- p_expr n' true 1;;
        col <- maybe_op ":";;
        p <- (if col then v <- p_expr n' true 1;; match e with EId k => ret (Some k, v) | _ => fail end else ret (None, e));;
        o <- peek;;
        if is_tok (KOp ",") o then op ",";; l <- p_elems n';; ret (p :: l)
        else op "}";; ret [p]
  end.

Fixpoint p_list (n : nat) (lit : bool) : P (list expr) :=
  match n with
  | O => fail
  | S n' =>
      e <- p_expr n' lit 1;;
      c <- maybe_op ",";;
      if c then l <- p_list n' lit;; ret (e :: l) else ret [e]
  end.

Definition assign_op (s : string) : bool := mem s ["="; ":="; "+="; "-="; "*="; "/="].

(** assignment, increment or expression (no keyword in front); with [range] allowed on the
    right the result is the range clause *)
Inductive simple := Plain (s : stmt) | Ranging (k v : option string) (def : bool) (e : expr) | TypeSw (e : expr).
Definition var_of (e : expr) : option (option string) :=
  match e with EId "_" => Some None | EId x => Some (Some x) | _ => None end.

Definition p_simple (n : nat) (lit : bool) : P simple :=
  o <- peek;;
  if is_tok (KKw "range") o then kw "range";; e <- p_expr n lit 1;; ret (Ranging None None false e)
  else
    l <- p_list n lit;;
    o <- peek;;
    match o with
    | Some (KOp s) =>
        if assign_op s then
          op s;;
          o2 <- peek;;
          if is_tok (KKw "range") o2 then
            kw "range";; e <- p_expr n lit 1;;
            match l with
            | [k] => match var_of k with Some k => ret (Ranging k None (String.eqb s ":=") e) | _ => fail end
            | [k; v] => match var_of k, var_of v with Some k, Some v => ret (Ranging k v (String.eqb s ":=") e) | _, _ => fail end
            | _ => fail
            end
          else
            r <- p_list n lit;; ret (Plain (SAssign l s r))
        else if mem s ["++"; "--"] then
          op s;; match l with [e] => ret (Plain (SInc e s)) | _ => fail end
        else match l with [EAs e None] => ret (TypeSw e) | [e] => ret (Plain (SExpr e)) | _ => fail end
    | _ => match l with [e] => ret (Plain (SExpr e)) | _ => fail end
    end.
Definition plain (s : simple) : P stmt := match s with Plain s => ret s | _ => fail end.

Fixpoint p_types (n : nat) : P (list ty) :=
  match n with
  | O => fail
  | S n' => t <- p_type n';; c <- maybe_op ",";; if c then l <- p_types n';; ret (t :: l) else ret [t]
  end.

Fixpoint p_stmt (n : nat) : P stmt :=
  match n with
  | O => fail
  | S n' =>
      line <- here;;
      o <- peek;;
      match o with
      | Some (KKw "return") =>
          kw "return";;
          o2 <- peek;;
          if is_tok (KOp ";") o2 || is_tok (KOp "}") o2 then ret (SReturn []) else l <- p_list n' true;; ret (SReturn l)
      | Some (KKw "break") => kw "break";; ret SBreak
      | Some (KKw "continue") => kw "continue";; ret SContinue
      | Some (KKw "defer") => kw "defer";; e <- p_expr n' true 1;; ret (SDefer e)
      | Some (KKw "var") =>
          kw "var";; x <- ident;;
          o2 <- peek;;
          t <- (if is_tok (KOp "=") o2 then ret None else t <- p_type n';; ret (Some t));;
          c <- maybe_op "=";;
          e <- (if c then e <- p_expr n' true 1;; ret (Some e) else ret None);;
          ret (SVar x t e)
      | Some (KKw "if") => kw "if";; p_if n'
      | Some (KKw "for") =>
          kw "for";;
          o2 <- peek;;
          if is_tok (KOp "{") o2 then op "{";; b <- p_block n';; ret (SFor line None None None b)
          else
            i <- (if is_tok (KOp ";") o2 then ret None else i <- p_simple n' false;; ret (Some i));;
            match i with
            | Some (Ranging k v d e) => op "{";; b <- p_block n';; ret (SRange line k v d e b)
            | _ =>
                o3 <- peek;;
                if is_tok (KOp "{") o3 then
                  match i with
                  | Some (Plain (SExpr c)) => op "{";; b <- p_block n';; ret (SFor line None (Some c) None b)
                  | _ => fail
                  end
                else
                  i <- match i with Some (Plain s) => ret (Some s) | None => ret None | _ => fail end;;
                  op ";";;
                  o4 <- peek;;
                  c <- (if is_tok (KOp ";") o4 then ret None else c <- p_expr n' false 1;; ret (Some c));;
                  op ";";;
                  o5 <- peek;;
                  p <- (if is_tok (KOp "{") o5 then ret None else s <- p_simple n' false;; s <- plain s;; ret (Some s));;
                  op "{";; b <- p_block n';;
                  ret (SFor line i c p b)
            end
      | Some (KKw "switch") =>
          kw "switch";;
          o2 <- peek;;
          t <- (if is_tok (KOp "{") o2 then ret None else t <- p_simple n' false;; ret (Some t));;
          op "{";;
          match t with
          | Some (TypeSw e) => cls <- p_tclauses n';; ret (STSwitch e cls)
          | Some (Plain (SExpr e)) => cls <- p_clauses n';; ret (SSwitch (Some e) cls)
          | None => cls <- p_clauses n';; ret (SSwitch None cls)
          | _ => fail
          end
      | _ => s <- p_simple n' true;; plain s
      end
  end
(** after the keyword *)
with p_if (n : nat) : P stmt :=
  match n with
  | O => fail
  | S n' =>
      s <- p_simple n' false;; s <- plain s;;
      semi <- maybe_op ";";;
      ic <- (if semi then c <- p_expr n' false 1;; ret (Some s, c)
             else match s with SExpr c => ret (None, c) | _ => fail end);;
      op "{";; a <- p_block n';;
      o <- peek;;
      if is_tok (KKw "else") o then
        kw "else";;
        o2 <- peek;;
        if is_tok (KKw "if") o2 then kw "if";; b <- p_if n';; ret (SIf (fst ic) (snd ic) a [b])
        else op "{";; b <- p_block n';; ret (SIf (fst ic) (snd ic) a b)
      else ret (SIf (fst ic) (snd ic) a [])
  end
(** statements up to and including the closing brace *)
with p_block (n : nat) : P (list stmt) :=
  match n with
  | O => fail
  | S n' =>
      c <- maybe_op "}";;
      if c then ret []
      else
        sc <- maybe_op ";";;
        if sc then p_block n'
        else
          s <- p_stmt n';;
          o <- peek;;
          if is_tok (KOp "}") o then op "}";; ret [s]
          else op ";";; l <- p_block n';; ret (s :: l)
  end
(** statements of a clause, up to the next clause or the closing brace *)
with p_stmts (n : nat) : P (list stmt) :=
  match n with
  | O => fail
  | S n' =>
      o <- peek;;
      if is_tok (KOp "}") o || is_tok (KKw "case") o || is_tok (KKw "default") o then ret []
      else
        sc <- maybe_op ";";;
        if sc then p_stmts n' else s <- p_stmt n';; l <- p_stmts n';; ret (s :: l)
  end
with p_clauses (n : nat) : P (list (option (list expr) * list stmt)) :=
  match n with
  | O => fail
  | S n' =>
      o <- peek;;
      match o with
      | Some (KOp "}") => op "}";; ret []
      | Some (KKw "case") =>
          kw "case";; l <- p_list n' true;; op ":";; b <- p_stmts n';; r <- p_clauses n';; ret ((Some l, b) :: r)
      | Some (KKw "default") =>
          kw "default";; op ":";; b <- p_stmts n';; r <- p_clauses n';; ret ((None, b) :: r)
      | _ => fail
      end
  end
with p_tclauses (n : nat) : P (list (option (list ty) * list stmt)) :=
  match n with
  | O => fail
  | S n' =>
      o <- peek;;
      match o with
      | Some (KOp "}") => op "}";; ret []
      | Some (KKw "case") =>
          kw "case";; l <- p_types n';; op ":";; b <- p_stmts n';; r <- p_tclauses n';; ret ((Some l, b) :: r)
      | Some (KKw "default") =>
          kw "default";; op ":";; b <- p_stmts n';; r <- p_tclauses n';; ret ((None, b) :: r)
      | _ => fail
      end
  end.

(** a parameter list after its opening parenthesis: names are given to all or to none *)
Fixpoint p_params (n : nat) : P (list (ty * option ty)) :=
  match n with
  | O => fail
  | S n' =>
      c <- maybe_op ")";;
      if c then ret []
      else
        t <- p_type n;;
        o <- peek;;
        u <- (if is_tok (KOp ",") o || is_tok (KOp ")") o then ret None else u <- p_type n;; ret (Some u));;
        o2 <- peek;;
        if is_tok (KOp ",") o2 then op ",";; l <- p_params n';; ret ((t, u) :: l)
        else op ")";; ret [(t, u)]
  end.
Definition names (l : list (ty * option ty)) : list string :=
  if existsb (fun p => match snd p with Some _ => true | None => false end) l
  then flat_map (fun p => match fst p with TName x => [x] | _ => [] end) l else [].

(** the types of named parameters: "a, b T" declares two of type T *)
Fixpoint types_of (l : list (ty * option ty)) : list ty :=
  match l with
  | [] => []
  | (_, Some t) :: r => t :: types_of r
  | (t, None) :: r => match types_of r with u :: _ as ts => u :: ts | [] => [t] end
  end.

Definition p_func (n : nat) : P func :=
  kw "func";;
  r <- maybe_op "(";;
  recv <- (if r then
             x <- ident;; t <- p_type n;; op ")";;
             match t with TPtr (TName y) | TName y => ret (Some (x, y)) | _ => fail end
           else ret None);;
  f <- ident;;
  op "(";; ps <- p_params n;;
  o <- peek;;
  rs <- (match o with
         | Some (KOp "{") => ret []
         | Some (KOp "(") => op "(";; l <- p_params n;; ret (names l)
         | _ => p_type n;; ret []
         end);;
  op "{";; b <- p_block n;;
  ret {| fn_recv := recv; fn_name := f; fn_params := names ps; fn_types := types_of ps; fn_results := rs; fn_body := b |}.

Definition p_decl (n : nat) : P decl :=
  o <- peek;;
  match o with
  | Some (KKw "func") => f <- p_func n;; ret (DFunc f)
  | Some (KKw "var") =>
      o2 <- peek2;;
      match o2 with
      | Some (KId _) =>
          kw "var";; x <- ident;;
          o3 <- peek;;
          (if is_tok (KOp "=") o3 then ret tt else p_type n;; ret tt);;
          c <- maybe_op "=";;
          e <- (if c then e <- p_expr n true 1;; ret (Some e) else ret None);;
          ret (DVar x e)
      | _ => skip_decl 0;; ret DOther
      end
  | _ => skip_decl 0;; ret DOther
  end.

Fixpoint p_file (n k : nat) : P (list decl) :=
  match k with
  | O => fail
  | S k' =>
      o <- peek;;
      match o with
      | None => ret []
      | Some (KOp ";") => op ";";; p_file n k'
      | _ => d <- p_decl n;; l <- p_file n k';; ret (d :: l)
      end
  end.

(** the declarations of a file, given as its lines; numbering starts at 1 *)
Definition parse_file (ls : list string) : option (list decl) :=
  match lex 1 ls with
  | Some ts => match p_file 200 (S (length ts)) ts with Some (ds, []) => Some ds | _ => None end
  | None => None
  end.

(** function [f] with receiver type [r] ("" for none) *)
Definition is_func (r f : string) (d : decl) : option func :=
  match d with
  | DFunc g =>
      if String.eqb (fn_name g) f
         && match fn_recv g with Some (_, t) => String.eqb t r | None => String.eqb r "" end
      then Some g else None
  | _ => None
  end.
Fixpoint find_func (r f : string) (ds : list decl) : option func :=
  match ds with
  | [] => None
  | d :: ds' => match is_func r f d with Some g => Some g | None => find_func r f ds' end
  end.
