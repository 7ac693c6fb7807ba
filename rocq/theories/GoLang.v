(** The part of the Go language the generated code uses: tokens (with automatic semicolons),
    expressions, and a file made of variable declarations and one init function.  Follows
    the Go specification; nothing here is in /repo.  Anything outside this part (comments,
    octal escapes, raw strings, other number syntax, other statements) is rejected. *)
From Coq Require Import DecimalString.
From Verif Require Import Base GoFloat GoValue Formats GoText.
Open Scope Z_scope.

(** ** Tokens *)
Inductive tok := TId (s : string) | TStr (s : string) | TNum (s : string) | TP (c : ascii) | TSemi.

Definition id_start (c : ascii) : bool := letter_ c.
Definition id_char (c : ascii) : bool := letter_ c || digit c.
Definition keyword (s : string) : bool := mem s ["var"; "func"; "type"; "return"; "if"; "for"; "package"; "import";
  "break"; "case"; "chan"; "const"; "continue"; "default"; "defer"; "else"; "fallthrough"; "go"; "goto"; "interface";
  "map"; "range"; "select"; "struct"; "switch"]%string.
Definition punct (c : ascii) : bool := existsb (Ascii.eqb c) ["."; ","; "("; ")"; "{"; "}"; "["; "]"; "="; "*"; "&"; "-"; "+"; ";"]%char.
(** a newline after one of these ends the statement *)
Definition closing (c : ascii) : bool := existsb (Ascii.eqb c) [")"; "]"; "}"]%char.
Definition newline : ascii := "010"%char.

(** lexer states: between tokens (would a newline insert a semicolon?), in an identifier, in a
    number, in a string, after a backslash, in a \x \u \U escape (digits to go, value, is it a byte) *)
Inductive lst := LNone (nl : bool) | LId (acc : string) | LNum (acc : string)
               | LStr (acc : string) | LEsc (acc : string) | LHex (acc : string) (n : nat) (v : Z) (isbyte : bool).

Definition fresh (nl : bool) (c : ascii) : option (list tok * lst) :=
  if Ascii.eqb c newline then Some (if nl then [TSemi] else [], LNone false)
  else if existsb (Ascii.eqb c) [" "; "009"; "013"]%char then Some ([], LNone nl)
  else if id_start c then Some ([], LId (String c ""))
  else if digit c then Some ([], LNum (String c ""))
  else if Ascii.eqb c "034" then Some ([], LStr "")
  else if punct c then Some ([TP c], LNone (closing c))
  else None.

Definition with_tok (t : tok) (r : option (list tok * lst)) : option (list tok * lst) :=
  match r with Some (ts, st) => Some (t :: ts, st) | None => None end.

Definition hexval (c : ascii) : option Z :=
  let b := byte c in
  if (48 <=? b) && (b <=? 57) then Some (b - 48)
  else if (97 <=? b) && (b <=? 102) then Some (b - 87)
  else if (65 <=? b) && (b <=? 70) then Some (b - 55)
  else None.

Definition simple_escape (c : ascii) : option Z :=
  if Ascii.eqb c "a" then Some 7 else if Ascii.eqb c "b" then Some 8 else if Ascii.eqb c "f" then Some 12
  else if Ascii.eqb c "n" then Some 10 else if Ascii.eqb c "r" then Some 13 else if Ascii.eqb c "t" then Some 9
  else if Ascii.eqb c "v" then Some 11 else if Ascii.eqb c "\" then Some 92 else if Ascii.eqb c "034" then Some 34
  else None.

Definition valid_rune (r : Z) : bool := (r <? 55296) || ((57343 <? r) && (r <? 1114112)).

Definition step (st : lst) (c : ascii) : option (list tok * lst) :=
  match st with
  | LNone nl => fresh nl c
  | LId acc =>
      if id_char c then Some ([], LId (acc +++ String c ""))
      else with_tok (TId acc) (fresh (negb (keyword acc)) c)
  | LNum acc =>
      if digit c || Ascii.eqb c "." then Some ([], LNum (acc +++ String c ""))
      else if id_char c then None
      else with_tok (TNum acc) (fresh true c)
  | LStr acc =>
      if Ascii.eqb c "034" then Some ([TStr acc], LNone true)
      else if Ascii.eqb c "\" then Some ([], LEsc acc)
      else if Ascii.eqb c newline then None
      else Some ([], LStr (acc +++ String c ""))
  | LEsc acc =>
      if Ascii.eqb c "x" then Some ([], LHex acc 2 0 true)
      else if Ascii.eqb c "u" then Some ([], LHex acc 4 0 false)
      else if Ascii.eqb c "U" then Some ([], LHex acc 8 0 false)
      else match simple_escape c with Some z => Some ([], LStr (acc +++ one z)) | None => None end
  | LHex acc n v isbyte =>
      match hexval c with
      | None => None
      | Some d =>
          let v' := 16 * v + d in
          match n with
          | S (S m) => Some ([], LHex acc (S m) v' isbyte)
          | _ =>
              if isbyte then Some ([], LStr (acc +++ one v'))
              else if valid_rune v' then Some ([], LStr (acc +++ encode_rune v')) else None
          end
      end
  end.

Fixpoint run (st : lst) (s : string) : option (list tok * lst) :=
  match s with
  | EmptyString => Some ([], st)
  | String c r =>
      match step st c with
      | None => None
      | Some (ts, st') => match run st' r with Some (ts', st'') => Some (ts ++ ts', st'') | None => None end
      end
  end.

(** end of the file *)
Definition finish (st : lst) : option (list tok) :=
  match st with
  | LNone nl => Some (if nl then [TSemi] else [])
  | LId acc => Some (TId acc :: if keyword acc then [] else [TSemi])
  | LNum acc => Some [TNum acc; TSemi]
  | _ => None
  end.
Definition lex (s : string) : option (list tok) :=
  match run (LNone false) s with
  | None => None
  | Some (ts, st) => match finish st with None => None | Some ts' => Some (ts ++ ts') end
  end.

(** ** Expressions *)
Inductive expr :=
| EId (x : string)
| EStr (s : string)
| ENum (s : string)
| ENeg (e : expr)
| ESel (e : expr) (x : string)               (* e.x *)
| ECall (f : expr) (l : list expr)           (* f(l) *)
| ESlice (pkg ty : string) (l : list expr)   (* []pkg.ty{l} *)
| EAddr (pkg ty : string).                   (* &pkg.ty{} *)

(** expressions, what may follow a primary expression, and lists up to a closing token *)
Fixpoint pexpr (n : nat) (ts : list tok) : option (expr * list tok) :=
  match n with
  | O => None
  | S n' =>
      match ts with
      | TId x :: r => if keyword x then None else ppost n' (EId x) r
      | TStr s :: r => ppost n' (EStr s) r
      | TNum s :: r => ppost n' (ENum s) r
      | TP "-" :: r => match pexpr n' r with Some (e, r') => Some (ENeg e, r') | None => None end
      | TP "[" :: TP "]" :: TId p :: TP "." :: TId t :: TP "{" :: r =>
          match plist n' "}"%char r with Some (l, r') => ppost n' (ESlice p t l) r' | None => None end
      | TP "&" :: TId p :: TP "." :: TId t :: TP "{" :: TP "}" :: r => Some (EAddr p t, r)
      | _ => None
      end
  end
with ppost (n : nat) (e : expr) (ts : list tok) : option (expr * list tok) :=
  match n with
  | O => None
  | S n' =>
      match ts with
      | TP "." :: TId x :: r => if keyword x then None else ppost n' (ESel e x) r
      | TP "(" :: r =>
          match plist n' ")"%char r with Some (l, r') => ppost n' (ECall e l) r' | None => None end
      | _ => Some (e, ts)
      end
  end
with plist (n : nat) (close : ascii) (ts : list tok) : option (list expr * list tok) :=
  match n with
  | O => None
  | S n' =>
      match ts with
      | TP c :: r =>
          if Ascii.eqb c close then Some ([], r)
          else match pexpr n' ts with Some (e, r1) => pmore n' close e r1 | None => None end
      | _ => match pexpr n' ts with Some (e, r1) => pmore n' close e r1 | None => None end
      end
  end
with pmore (n : nat) (close : ascii) (e : expr) (ts : list tok) : option (list expr * list tok) :=
  match n with
  | O => None
  | S n' =>
      match ts with
      | TP "," :: r => match plist n' close r with Some (l, r') => Some (e :: l, r') | None => None end
      | TP c :: r => if Ascii.eqb c close then Some ([e], r) else None
      | _ => None
      end
  end.

(** ** Files: declarations, then "func init() { ... }" *)
Inductive stmt := SAssign (l r : expr) | SExpr (e : expr).
Record decl := { d_name : string; d_ptr : bool; d_pkg : string; d_type : string }.
Record file := { f_decls : list decl; f_body : list stmt }.

Definition is_semi (t : tok) : bool := match t with TSemi => true | TP ";" => true | _ => false end.

(** statements up to the closing brace; each is ended by a semicolon or by the brace *)
Fixpoint pstmts (n : nat) (ts : list tok) : option (list stmt * list tok) :=
  match n with
  | O => None
  | S n' =>
      match ts with
      | TP "}" :: r => Some ([], r)
      | TSemi :: r | TP ";" :: r => pstmts n' r
      | _ =>
          let fin st r :=
            match r with
            | TP "}" :: r' => Some ([st], r')
            | t :: r' => if is_semi t then match pstmts n' r' with Some (l, r2) => Some (st :: l, r2) | None => None end else None
            | [] => None
            end in
          match pexpr n' ts with
          | Some (e, TP "=" :: r) => match pexpr n' r with Some (e2, r2) => fin (SAssign e e2) r2 | None => None end
          | Some (e, r) => fin (SExpr e) r
          | None => None
          end
      end
  end.

Fixpoint pdecls (n : nat) (ts : list tok) : option (list decl * list tok) :=
  match n with
  | O => None
  | S n' =>
      let more d r :=
        match r with
        | t :: r' => if is_semi t then match pdecls n' r' with Some (l, r2) => Some (d :: l, r2) | None => None end else None
        | [] => None
        end in
      match ts with
      | TId "var" :: TId x :: TP "*" :: TId p :: TP "." :: TId t :: r =>
          if keyword x then None else more {| d_name := x; d_ptr := true; d_pkg := p; d_type := t |} r
      | TId "var" :: TId x :: TId p :: TP "." :: TId t :: r =>
          if keyword x then None else more {| d_name := x; d_ptr := false; d_pkg := p; d_type := t |} r
      | _ => Some ([], ts)
      end
  end.

Definition parse (n : nat) (ts : list tok) : option file :=
  match pdecls n ts with
  | Some (ds, TId "func" :: TId "init" :: TP "(" :: TP ")" :: TP "{" :: r) =>
      match pstmts n r with
      | Some (ss, r') => if forallb is_semi r' then Some {| f_decls := ds; f_body := ss |} else None
      | None => None
      end
  | _ => None
  end.

(** the file a text is; the fuel is enough for every text (each step of the parser consumes
    a token or ends) *)
Definition parse_go (s : string) : option file :=
  match lex s with
  | None => None
  | Some ts => parse (4 * List.length ts + 8) ts
  end.
