(** Mathematical meaning of floats, independent of the operations in GoFloat.v:
    extended rationals. *)
From Coq Require Export QArith.
From Coq Require Import SpecFloat ZArith.

Inductive xval := XNaN | XNegInf | XPosInf | XQ (q : Q).

(** (-1)^s * m * 2^e *)
Definition Qfin (s : bool) (m : positive) (e : Z) : Q :=
  (inject_Z (if s then Zneg m else Zpos m) * Qpower 2 e)%Q.

Definition fval (f : spec_float) : xval :=
  match f with
  | S754_zero _ => XQ 0
  | S754_infinity true => XNegInf
  | S754_infinity false => XPosInf
  | S754_nan => XNaN
  | S754_finite s m e => XQ (Qfin s m e)
  end.

(** strict and non-strict order on extended values; nothing is related to NaN *)
Definition xlt (a b : xval) : Prop :=
  match a, b with
  | XNaN, _ | _, XNaN => False
  | XNegInf, XNegInf => False
  | XNegInf, _ => True
  | _, XNegInf => False
  | XPosInf, _ => False
  | XQ _, XPosInf => True
  | XQ p, XQ q => (p < q)%Q
  end.

Definition xeq (a b : xval) : Prop :=
  match a, b with
  | XNegInf, XNegInf | XPosInf, XPosInf => True
  | XQ p, XQ q => (p == q)%Q
  | _, _ => False
  end.

Definition xle (a b : xval) : Prop := xlt a b \/ xeq a b.

(** the value of an integer *)
Definition xZ (z : Z) : xval := XQ (inject_Z z).
