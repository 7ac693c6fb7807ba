(** maybe.go: the six Maybe types and their Valid/Value/Set/Reset/JSON methods. *)
From Verif Require Import Base GoFloat GoValue Formats.
Open Scope Z_scope.

(** zero values of the six struct types (var x MaybeBool; ...) *)
Definition zero_MBool := MBool false false.
Definition zero_MFloat := MFloat false fzero.
Definition zero_MInt := MInt false 0.
Definition zero_MString := MString false "".
(** the zero time.Time; instants are abstract integers, 0 stands for the zero Time *)
Definition zero_MTime := MTime false 0.
Definition zero_MUint := MUint false 0.

(** maybe.go:63-65 ValidFlag.Valid *)
Definition m_valid (m : maybe) : bool :=
  match m with
  | MBool v _ | MFloat v _ | MInt v _ | MString v _ | MTime v _ | MUint v _ => v
  end.

(** maybe.go:59-61 ValidFlag.Reset *)
Definition m_reset (m : maybe) : maybe :=
  match m with
  | MBool _ x => MBool false x | MFloat _ x => MFloat false x | MInt _ x => MInt false x
  | MString _ x => MString false x | MTime _ x => MTime false x | MUint _ x => MUint false x
  end.

(** maybe.go:82-84,116-118,158-160,189-191,228-230,275-277 Value *)
Definition m_value (m : maybe) : gval :=
  match m with
  | MBool _ b => gbool b
  | MFloat _ f => gfloat f
  | MInt _ z => GInt "int64" Kint64 z
  | MString _ s => gstr s
  | MTime _ t => GTime t
  | MUint _ z => GUint "uint64" Kuint64 z
  end.

(** maybe.go:14-28 ErrInvalidMaybeValue.Error *)
Definition err_invalid_maybe (x : gval) : string :=
  match x with
  | GNil => "invalid Maybe value: (nil)"
  | _ => "invalid Maybe value: (" +++ typ x +++ ")"
  end.

(** exact dynamic type of a basic type, as matched by a type switch *)
Definition is_T (x : gval) (T : string) : bool := String.eqb (typ x) T.

(** maybe.go:72-80,103-114,137-156,179-187,210-226,254-273 Set.  [tp] is
    time.Parse(time.RFC3339, .): inl the instant or inr the error text. *)
Definition m_set (tp : string -> Z + string) (m : maybe) (x : gval) : maybe + string :=
  match m with
  | MBool _ _ =>
      match x with
      | GBool T b => if String.eqb T "bool" then inl (MBool true b) else inr (err_invalid_maybe x)
      | _ => inr (err_invalid_maybe x)
      end
  | MFloat _ _ =>
      match x with
      | GFloat T true f => if String.eqb T "float32" then inl (MFloat true (f32_to_f64 f)) else inr (err_invalid_maybe x)
      | GFloat T false f => if String.eqb T "float64" then inl (MFloat true f) else inr (err_invalid_maybe x)
      | _ => inr (err_invalid_maybe x)
      end
  | MInt _ _ =>
      match x with
      | GInt T k z => if String.eqb T (ikind_s k) then inl (MInt true z) else inr (err_invalid_maybe x)
      | GFloat T false f => if String.eqb T "float64" then inl (MInt true (f64_to_int64 f)) else inr (err_invalid_maybe x)
      | _ => inr (err_invalid_maybe x)
      end
  | MString _ _ =>
      match x with
      | GStr T s => if String.eqb T "string" then inl (MString true s) else inr (err_invalid_maybe x)
      | _ => inr (err_invalid_maybe x)
      end
  | MTime _ _ =>
      match x with
      | GStr T s =>
          if String.eqb T "string"
          then match tp s with inl t => inl (MTime true t) | inr e => inr e end
          else inr (err_invalid_maybe x)
      | GTime t => inl (MTime true t)
      | _ => inr (err_invalid_maybe x)
      end
  | MUint _ _ =>
      match x with
      | GUint T k z =>
          if String.eqb T (ukind_s k) && negb (String.eqb T "uintptr")
          then inl (MUint true z) else inr (err_invalid_maybe x)
      | GFloat T false f => if String.eqb T "float64" then inl (MUint true (f64_to_uint64 f)) else inr (err_invalid_maybe x)
      | _ => inr (err_invalid_maybe x)
      end
  end.

(** JSON values; the text layer is encoding/json and is not modelled.  Numbers are
    integers or floats as written by json.Marshal. *)
Inductive json := JNull | JBool (b : bool) | JInt (z : Z) | JFloat (f : f64) | JStr (s : string)
                | JArr (l : list json) | JObj (m : list (string * json)).

(** json.Unmarshal into a variable of the given Go type: null leaves the zero value
    (encoding/json), otherwise the kinds must match.  [None]: an error. *)
Definition dec_bool (j : json) : option bool :=
  match j with JNull => Some false | JBool b => Some b | _ => None end.
Definition dec_float (j : json) : option f64 :=
  match j with JNull => Some fzero | JFloat f => Some f | JInt z => Some (f64_of_Z z) | _ => None end.
Definition dec_int (lo hi : Z) (j : json) : option Z :=
  match j with
  | JNull => Some 0
  | JInt z => if (lo <=? z) && (z <=? hi) then Some z else None
  | _ => None
  end.
Definition dec_string (j : json) : option string :=
  match j with JNull => Some ""%string | JStr s => Some s | _ => None end.

(** json.Marshal of a string, seen through json.Unmarshal: every byte that is not part of
    valid UTF-8 becomes U+FFFD (encoding/json; escapes decode to what they stand for) *)
Fixpoint json_string_from (skip : nat) (s : string) : string :=
  match s with
  | EmptyString => EmptyString
  | String c r =>
      match skip with
      | S k => String c (json_string_from k r)
      | O =>
          let '(rn, k) := decode1 c r in
          if (rn =? rune_error) && Nat.eqb k 0
          then String "239" (String "191" (String "189" (json_string_from 0 r)))
          else String c (json_string_from k r)
      end
  end.
Definition json_string (s : string) : string := json_string_from 0 s.

(** maybe.go:86-88,120-122,162-164,193-195,232-234,279-281 MarshalJSON: the flag is
    ignored.  [tf] is Format(time.RFC3339).  json.Marshal fails on NaN and infinities. *)
Definition m_marshal (tf : Z -> string) (m : maybe) : option json :=
  match m with
  | MBool _ b => Some (JBool b)
  | MFloat _ f => match f with S754_nan | S754_infinity _ => None | _ => Some (JFloat f) end
  | MInt _ z | MUint _ z => Some (JInt z)
  | MString _ s => Some (JStr (json_string s))
  | MTime _ t => Some (JStr (json_string (tf t)))
  end.

(** maybe.go:90-96,124-130,166-172,197-203,236-247,283-289 UnmarshalJSON.  MaybeTime
    assigns v.Time without touching the flag. *)
Definition m_unmarshal (tp : string -> Z + string) (m : maybe) (j : json) : option maybe :=
  match m with
  | MBool _ _ => option_map (MBool true) (dec_bool j)
  | MFloat _ _ => option_map (MFloat true) (dec_float j)
  | MInt _ _ => option_map (MInt true) (dec_int min_int64 max_int64 j)
  | MString _ _ => option_map (MString true) (dec_string j)
  | MTime v _ =>
      match dec_string j with
      | Some s => match tp s with inl t => Some (MTime v t) | inr _ => None end
      | None => None
      end
  | MUint _ _ => option_map (MUint true) (dec_int 0 max_uint64 j)
  end.

(** pointer types to the Maybe structs *)
Definition maybe_ptr_T (T : string) : bool :=
  mem T ["*jsval.MaybeBool"; "*jsval.MaybeFloat"; "*jsval.MaybeInt";
         "*jsval.MaybeString"; "*jsval.MaybeTime"; "*jsval.MaybeUint"]%string.

(** "t.Implements(maybeif) || reflect.PtrTo(t).Implements(maybeif)" for the static type
    of a Value (structinfo.go:139, object.go:384).  Interface-typed Values do not. *)
Definition is_maybe (r : rval) : bool :=
  match r with
  | RV false (GMaybe _) => true
  | RV false (GPtr T _ _) => maybe_ptr_T T
  | _ => false
  end.

(** MethodByName("Valid").Call(nil) / MethodByName("Value").Call(nil) on a Value;
    None: panic (no such method, zero Value, or nil pointer receiver) *)
Definition maybe_of (r : rval) : option maybe :=
  match r with
  | RV false (GMaybe m) => Some m
  | RV false (GPtr T _ (Some (false, GMaybe m))) => if maybe_ptr_T T then Some m else None
  | _ => None
  end.
