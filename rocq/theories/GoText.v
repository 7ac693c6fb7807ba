(** Text functions of the Go standard library used by the code generator: strconv.Quote,
    fmt verbs %d and %f, and Fprintf with a format string and no arguments.  None of this is
    in /repo; it follows the documentation of Go's strconv, fmt and unicode/utf8. *)
From Coq Require Import DecimalString.
From Verif Require Import Base GoFloat GoValue Formats.
Open Scope Z_scope.

Definition chr (z : Z) : ascii := ascii_of_N (Z.to_N z).
Definition one (z : Z) : string := String (chr z) EmptyString.

(** unicode/utf8 EncodeRune of a valid rune *)
Definition encode_rune (r : Z) : string :=
  if r <? 128 then one r
  else if r <? 2048 then one (192 + r / 64) +++ one (128 + r mod 64)
  else if r <? 65536 then one (224 + r / 4096) +++ one (128 + r / 64 mod 64) +++ one (128 + r mod 64)
  else one (240 + r / 262144) +++ one (128 + r / 4096 mod 64) +++ one (128 + r / 64 mod 64) +++ one (128 + r mod 64).

(** hexadecimal, lower case, n digits *)
Definition hexdigit (d : Z) : ascii := chr (if d <? 10 then 48 + d else 87 + d).
Fixpoint hex (n : nat) (v : Z) : string :=
  match n with
  | O => EmptyString
  | S n' => String (hexdigit (v / 16 ^ Z.of_nat n' mod 16)) (hex n' v)
  end.

(** strconv.Quote.  [pr]: unicode.IsPrint for runes from 0x80 on (a table in the standard
    library; a parameter here).  One rune: *)
Definition escape (r : Z) : string :=
  if r =? 7 then "\a" else if r =? 8 then "\b" else if r =? 12 then "\f"
  else if r =? 10 then "\n" else if r =? 13 then "\r" else if r =? 9 then "\t" else if r =? 11 then "\v"
  else if (r <? 32) || (r =? 127) then "\x" +++ hex 2 r
  else if r <? 65536 then "\u" +++ hex 4 r
  else "\U" +++ hex 8 r.
Definition is_print (pr : Z -> bool) (r : Z) : bool :=
  if r <? 128 then (32 <=? r) && (r <? 127) else pr r.

(** the runes of the string one after the other; [skip] bytes belong to the rune just
    treated, [copy]: they are to be copied *)
Fixpoint quote_from (pr : Z -> bool) (copy : bool) (skip : nat) (s : string) : string :=
  match s with
  | EmptyString => EmptyString
  | String c r =>
      match skip with
      | S k => if copy then String c (quote_from pr copy k r) else quote_from pr copy k r
      | O =>
          let '(rn, k) := decode1 c r in
          if (rn =? rune_error) && Nat.eqb k 0
          then "\x" +++ hex 2 (byte c) +++ quote_from pr false 0 r
          else if (rn =? 34) || (rn =? 92) then "\" +++ String c (quote_from pr false 0 r)
          else if is_print pr rn then String c (quote_from pr true k r)
          else escape rn +++ quote_from pr false k r
      end
  end.
Definition dquote : string := one 34.
Definition quote (pr : Z -> bool) (s : string) : string := dquote +++ quote_from pr false 0 s +++ dquote.

(** ** fmt verbs *)
(** %f: six digits after the point, the exact value rounded to even (strconv.FormatFloat).
    [scaled]: the absolute value times 10^6, rounded *)
Definition million : Z := 1000000.
Definition scaled (m : positive) (e : Z) : Z :=
  if 0 <=? e then Zpos m * 2 ^ e * million
  else
    let d := 2 ^ (- e) in
    let q := Zpos m * million / d in
    let r := Zpos m * million mod d in
    if (2 * r <? d) || ((2 * r =? d) && Z.even q) then q else q + 1.
(** n decimal digits *)
Fixpoint decs (n : nat) (v : Z) : string :=
  match n with
  | O => EmptyString
  | S n' => String (chr (48 + v / 10 ^ Z.of_nat n' mod 10)) (decs n' v)
  end.
Definition fixed6 (n : Z) : string := dec_Z (n / million) +++ "." +++ decs 6 (n mod million).
Definition fmt_f (f : f64) : string :=
  match f with
  | S754_zero s => (if s then "-" else "") +++ fixed6 0
  | S754_infinity s => if s then "-Inf" else "+Inf"
  | S754_nan => "NaN"
  | S754_finite s m e => (if s then "-" else "") +++ fixed6 (scaled m e)
  end.

(** Fprintf(out, s): s is taken as a format, and there are no arguments.  Simplified: a
    bracketed argument index after '%' is not treated specially. *)
Inductive fst_ := FPlain | FFlags | FWidth | FStar | FDot | FPrec | FVerb.
Definition flag (c : ascii) : bool := existsb (Ascii.eqb c) ["+"; "-"; "#"; " "; "0"]%char.
Definition verb (c : ascii) : string :=
  if Ascii.eqb c "%" then "%" else "%!" +++ String c "(MISSING)".
(** one character: what is printed and the next state *)
Definition fstep (st : fst_) (c : ascii) : string * fst_ :=
  let v := (verb c, FPlain) in
  let dot_or_verb := if Ascii.eqb c "." then (""%string, FDot) else v in
  match st with
  | FPlain => if Ascii.eqb c "%" then (""%string, FFlags) else (String c "", FPlain)
  | FFlags =>
      if flag c then (""%string, FFlags)
      else if Ascii.eqb c "*" then ("%!(BADWIDTH)"%string, FStar)
      else if digit c then (""%string, FWidth)
      else dot_or_verb
  | FWidth => if digit c then (""%string, FWidth) else dot_or_verb
  | FStar => dot_or_verb
  | FDot =>
      if Ascii.eqb c "*" then ("%!(BADPREC)"%string, FVerb)
      else if digit c then (""%string, FPrec) else v
  | FPrec => if digit c then (""%string, FPrec) else v
  | FVerb => v
  end.
Fixpoint fprintf0_from (st : fst_) (s : string) : string :=
  match s with
  | EmptyString => match st with FPlain => "" | _ => "%!(NOVERB)" end
  | String c r => let '(o, st') := fstep st c in o +++ fprintf0_from st' r
  end.
Definition fprintf0 (s : string) : string := fprintf0_from FPlain s.

(** strings.TrimSuffix *)
Fixpoint trim_suffix (suf s : string) : string :=
  if String.eqb s suf then EmptyString
  else match s with EmptyString => EmptyString | String c r => String c (trim_suffix suf r) end.

(** sort.Strings *)
Fixpoint insert_s (x : string) (l : list string) : list string :=
  match l with
  | [] => [x]
  | y :: r => match String.compare x y with Gt => y :: insert_s x r | _ => x :: l end
  end.
Definition sort_s (l : list string) : list string := fold_right insert_s [] l.
