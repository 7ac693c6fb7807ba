(** Go's float64/float32 arithmetic as used by number.go, maybe.go and
    builder.go.  A float is a [spec_float] (Coq's IEEE-754 datatype: signed
    zeros, infinities, one NaN, finite sign/mantissa/exponent).  Only the
    operations the code uses are defined. *)
From Coq Require Export SpecFloat.
From Verif Require Import Base.
Open Scope Z_scope.

Definition f64 := spec_float.

(** Go [==], [<], [<=] on float64 (IEEE: false when an operand is NaN). *)
Definition feq : f64 -> f64 -> bool := SFeqb.
Definition flt : f64 -> f64 -> bool := SFltb.
Definition fle : f64 -> f64 -> bool := SFleb.

Definition fzero : f64 := S754_zero false.

(** float64(n) for an integer n: round to nearest, ties to even
    (number.go:215,217; object.go:218 via reflect Convert). *)
Definition f64_of_Z (z : Z) : f64 := binary_normalize 53 1024 z 0 false.

(** reflect.Value.Float() of a float32 (exact widening). *)
Definition f32_to_f64 (f : spec_float) : f64 :=
  match f with
  | S754_finite s m e => binary_normalize 53 1024 (cond_Zopp s (Zpos m)) e s
  | _ => f
  end.

(** math.Floor (number.go:220, builder/builder.go:451). *)
Definition ffloor (f : f64) : f64 :=
  match f with
  | S754_finite s m e =>
      if 0 <=? e then f
      else binary_normalize 53 1024 (cond_Zopp s (Zpos m) / 2 ^ (- e)) 0 s
  | _ => f
  end.

(** math.Mod (number.go:124): exact remainder with the sign of x. *)
Definition fmod (x y : f64) : f64 :=
  match x, y with
  | S754_nan, _ | _, S754_nan | S754_infinity _, _ | _, S754_zero _ => S754_nan
  | _, S754_infinity _ => x
  | S754_zero _, _ => x
  | S754_finite sx mx ex, S754_finite _ my ey =>
      let e := Z.min ex ey in
      let r := (Zpos mx * 2 ^ (ex - e)) mod (Zpos my * 2 ^ (ey - e)) in
      binary_normalize 53 1024 (cond_Zopp sx r) e sx
  end.

(** int64(f) / uint64(f): truncation toward zero (maybe.go:142,258).  For values
    out of range, NaN and infinities the Go specification leaves the result
    implementation-defined; the model returns [undef] there. *)
Definition ftrunc (undef : Z) (lo hi : Z) (f : f64) : Z :=
  match f with
  | S754_zero _ => 0
  | S754_finite s m e =>
      let a := if 0 <=? e then Zpos m * 2 ^ e else Zpos m / 2 ^ (- e) in
      let z := cond_Zopp s a in
      if (lo <=? z) && (z <=? hi) then z else undef
  | _ => undef
  end.

Definition min_int64 := - 2 ^ 63.
Definition max_int64 := 2 ^ 63 - 1.
Definition max_uint64 := 2 ^ 64 - 1.
(** amd64 result of an out-of-range conversion *)
Definition f64_to_int64 (f : f64) : Z := ftrunc min_int64 min_int64 max_int64 f.
Definition f64_to_uint64 (f : f64) : Z := ftrunc (2 ^ 63) 0 max_uint64 f.

(** Well-formed binary64 / binary32 data *)
Definition valid64 (f : spec_float) : bool := valid_binary 53 1024 f.
Definition valid32 (f : spec_float) : bool := valid_binary 24 128 f.
