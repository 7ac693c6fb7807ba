(** Dynamic Go values as seen by Validate through interface{} and package reflect.

    Modelled: nil, scalars of every kind with an arbitrary (possibly named) type,
    slices, maps, pointers, structs with field descriptors, the six Maybe types of
    maybe.go, time.Time, and opaque values of the remaining kinds.
    Simplified: values are trees (no sharing between two places of one document);
    a type is identified by its name string; fields or map elements whose static type
    is an interface are only told apart from non-interface ones (the static interface
    is taken to be one that does not include the Maybe methods, e.g. interface{});
    struct types with GetPropNames/GetPropValue/SetPropValue methods are left to Custom.v,
    user-written Maybe implementations are not modelled. *)
From Verif Require Import Base GoFloat.
Open Scope Z_scope.

Inductive ikind := Kint | Kint8 | Kint16 | Kint32 | Kint64.
Inductive ukind := Kuint | Kuint8 | Kuint16 | Kuint32 | Kuint64 | Kuintptr.
Inductive okind := Karray | Kchan | Kfunc | Kcomplex64 | Kcomplex128 | Kunsafe.

(** map key types: string, a defined string type, an interface type, anything else *)
Inductive keykind := KString | KNamedString | KIface | KOther.

(** reflect.StructField as used by structinfo.go:114-165 *)
Record finfo := {
  f_name : string;      (* StructField.Name *)
  f_exported : bool;    (* PkgPath == "" *)
  f_anon : bool;        (* Anonymous *)
  f_tag : string;       (* Tag.Get("json") *)
  f_iface : bool        (* static type is an interface type *)
}.

(** maybe.go:67-289: the six Maybe structs; the boolean is the ValidFlag *)
Inductive maybe :=
| MBool (valid : bool) (b : bool)
| MFloat (valid : bool) (f : f64)
| MInt (valid : bool) (z : Z)
| MString (valid : bool) (s : string)
| MTime (valid : bool) (t : Z)
| MUint (valid : bool) (z : Z).

Inductive gval :=
| GNil                                             (* interface{}(nil) *)
| GBool (T : string) (b : bool)
| GInt (T : string) (k : ikind) (z : Z)
| GUint (T : string) (k : ukind) (z : Z)
| GFloat (T : string) (is32 : bool) (f : f64)
| GStr (T : string) (s : string)
| GSlice (T : string) (ifc : bool) (l : option (list gval))   (* None = nil slice; ifc: element type is an interface *)
| GMap (T : string) (kk : keykind) (ifc : bool) (ET : string)
       (m : option (list (string * gval)))         (* None = nil map; ET element type name *)
| GPtr (T : string) (addr : Z) (p : option (bool * gval))  (* None = nil; the bool: pointee's static type is an interface *)
| GStruct (T : string) (fs : list (finfo * gval))
| GMaybe (m : maybe)
| GTime (t : Z)                                    (* time.Time, abstract instants *)
| GOther (T : string) (k : okind) (isnil : bool) (id : Z).

Section gval_rect.
  Variable P : gval -> Prop.
  Hypothesis Hnil : P GNil.
  Hypothesis Hbool : forall T b, P (GBool T b).
  Hypothesis Hint : forall T k z, P (GInt T k z).
  Hypothesis Huint : forall T k z, P (GUint T k z).
  Hypothesis Hfloat : forall T k f, P (GFloat T k f).
  Hypothesis Hstr : forall T s, P (GStr T s).
  Hypothesis Hslicenil : forall T i, P (GSlice T i None).
  Hypothesis Hslice : forall T i l, Forall P l -> P (GSlice T i (Some l)).
  Hypothesis Hmapnil : forall T k i ET, P (GMap T k i ET None).
  Hypothesis Hmap : forall T k i ET m, Forall (fun e => P (snd e)) m -> P (GMap T k i ET (Some m)).
  Hypothesis Hptrnil : forall T a, P (GPtr T a None).
  Hypothesis Hptr : forall T a i x, P x -> P (GPtr T a (Some (i, x))).
  Hypothesis Hstruct : forall T fs, Forall (fun e => P (snd e)) fs -> P (GStruct T fs).
  Hypothesis Hmaybe : forall m, P (GMaybe m).
  Hypothesis Htime : forall t, P (GTime t).
  Hypothesis Hother : forall T k n i, P (GOther T k n i).

  Fixpoint gval_ind' (v : gval) : P v :=
    let list_ind := fix go (l : list gval) : Forall P l :=
      match l with [] => Forall_nil _ | x :: r => Forall_cons x (gval_ind' x) (go r) end in
    match v with
    | GNil => Hnil
    | GBool T b => Hbool T b
    | GInt T k z => Hint T k z
    | GUint T k z => Huint T k z
    | GFloat T k f => Hfloat T k f
    | GStr T s => Hstr T s
    | GSlice T i None => Hslicenil T i
    | GSlice T i (Some l) => Hslice T i l (list_ind l)
    | GMap T k i ET None => Hmapnil T k i ET
    | GMap T k i ET (Some m) =>
        Hmap T k i ET m
          ((fix go (m : list (string * gval)) : Forall (fun e => P (snd e)) m :=
              match m with
              | [] => Forall_nil _
              | e :: r => Forall_cons e (gval_ind' (snd e)) (go r)
              end) m)
    | GPtr T a None => Hptrnil T a
    | GPtr T a (Some (i, x)) => Hptr T a i x (gval_ind' x)
    | GStruct T fs =>
        Hstruct T fs
          ((fix go (m : list (finfo * gval)) : Forall (fun e => P (snd e)) m :=
              match m with
              | [] => Forall_nil _
              | e :: r => Forall_cons e (gval_ind' (snd e)) (go r)
              end) fs)
    | GMaybe m => Hmaybe m
    | GTime t => Htime t
    | GOther T k n i => Hother T k n i
    end.
End gval_rect.

(** reflect.Kind.String() *)
Definition ikind_s (k : ikind) : string :=
  match k with Kint => "int" | Kint8 => "int8" | Kint16 => "int16" | Kint32 => "int32" | Kint64 => "int64" end.
Definition ukind_s (k : ukind) : string :=
  match k with Kuint => "uint" | Kuint8 => "uint8" | Kuint16 => "uint16" | Kuint32 => "uint32"
             | Kuint64 => "uint64" | Kuintptr => "uintptr" end.
Definition okind_s (k : okind) : string :=
  match k with Karray => "array" | Kchan => "chan" | Kfunc => "func" | Kcomplex64 => "complex64"
             | Kcomplex128 => "complex128" | Kunsafe => "unsafe.Pointer" end.

(** type names of the Maybe structs *)
Definition maybe_T (m : maybe) : string :=
  match m with
  | MBool _ _ => "jsval.MaybeBool" | MFloat _ _ => "jsval.MaybeFloat" | MInt _ _ => "jsval.MaybeInt"
  | MString _ _ => "jsval.MaybeString" | MTime _ _ => "jsval.MaybeTime" | MUint _ _ => "jsval.MaybeUint"
  end.

(** reflect.Type.String() of the dynamic type; "" for nil *)
Definition typ (v : gval) : string :=
  match v with
  | GNil => ""
  | GBool T _ | GInt T _ _ | GUint T _ _ | GFloat T _ _ | GStr T _ | GSlice T _ _
  | GMap T _ _ _ _ | GPtr T _ _ | GStruct T _ | GOther T _ _ _ => T
  | GMaybe m => maybe_T m
  | GTime _ => "time.Time"
  end.

(** ** reflect.Value *)
(** [RV true x]: a Value of Kind Interface holding x; [RV false x]: a Value of x's own kind *)
Inductive rval := RZero | RV (ifc : bool) (g : gval).

Definition kind (r : rval) : string :=
  match r with
  | RZero => "invalid"
  | RV true _ => "interface"
  | RV false g =>
      match g with
      | GNil => "invalid"
      | GBool _ _ => "bool"
      | GInt _ k _ => ikind_s k
      | GUint _ k _ => ukind_s k
      | GFloat _ true _ => "float32"
      | GFloat _ false _ => "float64"
      | GStr _ _ => "string"
      | GSlice _ _ _ => "slice"
      | GMap _ _ _ _ _ => "map"
      | GPtr _ _ _ => "ptr"
      | GStruct _ _ | GMaybe _ | GTime _ => "struct"
      | GOther _ k _ _ => okind_s k
      end
  end.

(** reflect.ValueOf *)
Definition valueOf (v : gval) : rval := match v with GNil => RZero | _ => RV false v end.

(** "switch rv.Kind() { case reflect.Ptr, reflect.Interface: rv = rv.Elem() }"
    (object.go:164-167, 211-213, 236-239, 337-340; number.go:78-81, 210-213; string.go:42-45) *)
Definition elem (r : rval) : rval :=
  match r with
  | RV true GNil => RZero
  | RV true x => RV false x
  | RV false (GPtr _ _ None) => RZero
  | RV false (GPtr _ _ (Some (i, x))) => RV i x
  | _ => r
  end.

Definition deref1 (v : gval) : rval := elem (valueOf v).

(** reflect.Value.Interface(); None: panics on the zero Value *)
Definition interface (r : rval) : option gval :=
  match r with RZero => None | RV _ g => Some g end.

(** ** Interface equality e == v (enum.go:27).  None: run-time panic (comparing two
    values of one uncomparable type) *)
Definition maybe_eqb (a b : maybe) : bool :=
  match a, b with
  | MBool v x, MBool w y => Bool.eqb v w && Bool.eqb x y
  | MFloat v x, MFloat w y => Bool.eqb v w && feq x y
  | MInt v x, MInt w y | MTime v x, MTime w y | MUint v x, MUint w y => Bool.eqb v w && (x =? y)
  | MString v x, MString w y => Bool.eqb v w && String.eqb x y
  | _, _ => false
  end.

(** a value whose static type has no == (slice, map, func or a struct containing one) *)
Fixpoint uncomparable (v : gval) : bool :=
  match v with
  | GSlice _ _ _ | GMap _ _ _ _ _ | GOther _ Kfunc _ _ => true
  | GStruct _ fs =>
      (fix go (l : list (finfo * gval)) : bool :=
         match l with
         | [] => false
         | (fi, x) :: r => (negb (f_iface fi) && uncomparable x) || go r
         end) fs
  | _ => false
  end.

Definition is_gnil (v : gval) : bool := match v with GNil => true | _ => false end.

Fixpoint ieq (a b : gval) : option bool :=
    if is_gnil a then Some (is_gnil b)
    else if is_gnil b then Some false
    else if negb (String.eqb (typ a) (typ b)) then Some false
    else if uncomparable a then None
    else match a, b with
    | GBool _ x, GBool _ y => Some (Bool.eqb x y)
    | GInt _ _ x, GInt _ _ y => Some (x =? y)
    | GUint _ _ x, GUint _ _ y => Some (x =? y)
    | GFloat _ _ x, GFloat _ _ y => Some (feq x y)
    | GStr _ x, GStr _ y => Some (String.eqb x y)
    | GPtr _ x px, GPtr _ y py =>
        Some (match px, py with
              | None, None => true
              | Some _, Some _ => x =? y
              | _, _ => false
              end)
    | GStruct _ fs, GStruct _ gs =>
        (fix go (l k : list (finfo * gval)) {struct l} : option bool :=
           match l, k with
           | [], [] => Some true
           | (_, x) :: l', (_, y) :: k' =>
               match ieq x y with
               | Some true => go l' k'
               | r => r
               end
           | _, _ => Some false
           end) fs gs
    | GMaybe x, GMaybe y => Some (maybe_eqb x y)
    | GTime x, GTime y => Some (x =? y)
    | GOther _ _ n x, GOther _ _ m y => Some (Bool.eqb n m && (x =? y))
    | _, _ => Some false
    end.

(** ** Documents: what encoding/json produces when decoding into interface{} *)
Definition gstr (s : string) : gval := GStr "string" s.
Definition gbool (b : bool) : gval := GBool "bool" b.
Definition gfloat (f : f64) : gval := GFloat "float64" false f.
Definition gint (z : Z) : gval := GInt "int" Kint z.
Definition gslice (l : list gval) : gval := GSlice "[]interface {}" true (Some l).
Definition gmap (m : list (string * gval)) : gval :=
  GMap "map[string]interface {}" KString true "interface {}" (Some m).
