(** The Validate methods of all constraints (array.go, basic.go, bool.go,
    combinations.go, enum.go, number.go, object.go, reference.go, string.go) and
    JSVal.Validate (jsval.go).  pdebug tracing is omitted. *)
From Verif Require Import Base GoFloat GoValue Maybe Formats Constraint StructInfo.
Open Scope Z_scope.

(** fmt.Sprintf("%s", v) (array.go:62).  Strings, nil, booleans, numbers, and slices and
    string-keyed maps with interface elements are spelled out; other values go to the
    environment.  [top]: whether this is the argument itself (nil prints differently). *)
Fixpoint join (sep : string) (l : list string) : string :=
  match l with
  | [] => ""
  | [x] => x
  | x :: r => x +++ sep +++ join sep r
  end.

Fixpoint sprint (E : env) (top : bool) (v : gval) : string :=
  match v with
  | GNil => if top then "%!s(<nil>)" else "<nil>"
  | GStr "string" s => s
  | GBool "bool" b => "%!s(bool=" +++ (if b then "true" else "false") +++ ")"
  | GFloat "float64" _ f => "%!s(float64=" +++ e_ffmt E f +++ ")"
  | GInt T k z => if String.eqb T (ikind_s k) then "%!s(" +++ T +++ "=" +++ dec_Z z +++ ")" else e_sprint E v
  | GSlice "[]interface {}" _ l =>
      "[" +++ join " " (match l with None => [] | Some l => map (sprint E false) l end) +++ "]"
  | GMap "map[string]interface {}" _ _ _ m =>
      "map[" +++ join " " (match m with
                           | None => []
                           | Some m => map (fun kv => fst kv +++ ":" +++ sprint E false (snd kv)) m
                           end) +++ "]"
  | _ => e_sprint E v
  end.

(** enum.go:26-31 *)
Fixpoint enum_loop (l : list gval) (v : gval) : res :=
  match l with
  | [] => Fail "value is not in enumeration"
  | e :: r =>
      match ieq e v with
      | None => Panic "comparing uncomparable type"
      | Some true => Pass
      | Some false => enum_loop r v
      end
  end.

(** number.go:89-139, on the float64 value f *)
Definition num_check (c : numcfg) (f : f64) : res :=
  if n_amin c && n_xmin c && fle f (n_min c)
  then Fail "numeric value is less than the minimum (exclusive minimum)"
  else if n_amin c && negb (n_xmin c) && flt f (n_min c)
  then Fail "numeric value is less than the minimum"
  else if n_amax c && n_xmax c && fle (n_max c) f
  then Fail "numeric value is greater than maximum (exclusive maximum)"
  else if n_amax c && negb (n_xmax c) && flt (n_max c) f
  then Fail "numeric value is greater than maximum"
  else if n_amul c && negb (feq (n_mul c) fzero) && negb (feq (fmod f (n_mul c)) fzero)
  then Fail "numeric value is fails multipleOf validation"
  else match n_enum c with
       | None => Pass
       | Some l => enum_loop l (gfloat f)
       end.

Definition rv_float (is32 : bool) (f : f64) : f64 := if is32 then f32_to_f64 f else f.

(** number.go:65-140 *)
Definition num_validate (c : numcfg) (v : gval) : res :=
  match deref1 v with
  | RV false (GFloat _ is32 f) => num_check c (rv_float is32 f)
  | _ => Fail "value is not a float"
  end.

(** number.go:197-229 *)
Definition int_validate (c : numcfg) (v : gval) : res :=
  match deref1 v with
  | RV false (GInt _ _ z) => num_validate c (gfloat (f64_of_Z z))
  | RV false (GUint _ _ z) => num_validate c (gfloat (f64_of_Z z))
  | RV false (GFloat _ is32 f) =>
      let fv := rv_float is32 f in
      if negb (feq (ffloor fv) fv) then Fail "value is not an int/uint"
      else num_validate c (gfloat fv)
  | _ => Fail "value is not numeric"
  end.

(** string.go:73-114 *)
Definition format_check (E : env) (fmt s : string) : res :=
  if String.eqb fmt "datetime" then
    match e_time E s with inl _ => Pass | inr _ => Fail "invalid datetime" end
  else if String.eqb fmt "email" then
    match e_email E s with None => Pass | Some e => Fail ("invalid email address: " +++ e) end
  else if String.eqb fmt "hostname" then
    if is_domain_name s then Pass else Fail "invalid hostname"
  else if String.eqb fmt "ipv4" then
    if negb (ipv4_chars s) then Fail "invalid IPv4 address"
    else if e_ip E s then Pass else Fail "invalid IPv4 address"
  else if String.eqb fmt "ipv6" then
    if negb (ipv6_chars s) then Fail "invalid IPv6 address"
    else if e_ip E s then Pass else Fail "invalid IPv6 address"
  else if String.eqb fmt "uri" then
    if e_uri E s then Pass else Fail "invalid URI"
  else Pass.

(** string.go:53-131 *)
Definition str_check (E : env) (c : strcfg) (s : string) : res :=
  if (-1 <? s_max c) && (s_max c <? slen s)
  then Fail ("string longer than maxLength " +++ dec_Z (s_max c))
  else if (-1 <? s_min c) && (slen s <? s_min c)
  then Fail ("string shorter than minLength " +++ dec_Z (s_min c))
  else match format_check E (s_fmt c) s with
  | Pass =>
      match s_rx c with
      | Some rx =>
          if negb (e_rx E rx s)
          then Fail ("string '" +++ s +++ "' does not match regular expression '" +++ rx +++ "'")
          else match s_enum c with None => Pass | Some l => enum_loop l (gstr s) end
      | None => match s_enum c with None => Pass | Some l => enum_loop l (gstr s) end
      end
  | r => r
  end.

(** string.go:30-51 *)
Definition str_validate (E : env) (c : strcfg) (v : gval) : res :=
  match deref1 v with
  | RV false (GStr _ s) => str_check E c s
  | r => Fail ("value is not a string (Kind: " +++ kind r +++ ")")
  end.

(** bool.go:21-29 *)
Definition bool_validate (v : gval) : res :=
  match v with GBool _ _ => Pass | _ => Fail "value is not a boolean" end.

(** basic.go:38-56 *)
Definition null_validate (v : gval) : res :=
  match v with
  | GNil => Pass
  | GOther _ Kchan true _ | GOther _ Kfunc true _
  | GMap _ _ _ _ None | GPtr _ _ None | GSlice _ _ None => Pass
  | _ => Fail "value is not null"
  end.

(** ** Property access *)
Inductive gres (A : Type) := GOk (a : A) | GErr (m : string) | GPanic (m : string).
Arguments GOk {A}. Arguments GErr {A}. Arguments GPanic {A}.

(** object.go:163-199 getPropNames *)
Definition get_names (r : rval) : gres (list string) :=
  match elem r with
  | RV false (GMap _ kk _ _ m) =>
      let ks := match m with None => [] | Some l => keys l end in
      match kk, ks with
      | KString, _ | KNamedString, _ => GOk ks
      | _, [] => GOk []
      | _, _ => GErr "panic: can only handle maps with string keys"
      end
  | RV false (GStruct _ _ as s) | RV false (GMaybe _ as s) | RV false (GTime _ as s) =>
      match extract s with
      | None => GPanic "reflect: NumField of non-struct type"
      | Some props =>
          match prop_names props s with
          | None => GPanic "reflect: call of Valid"
          | Some l => GOk l
          end
      end
  | x => GErr ("cannot get property names from this value (Kind: " +++ kind x +++ ")")
  end.

(** object.go:291-321 getProp; None: panic *)
Definition get_prop (r : rval) (pname : string) : option rval :=
  match r with
  | RV false (GMap _ kk ifc _ m) =>
      match kk with
      | KNamedString | KOther => None       (* MapIndex: string not assignable to the key type *)
      | _ =>
          match m with
          | None => Some RZero
          | Some l => match sget pname l with None => Some RZero | Some x => Some (RV ifc x) end
          end
      end
  | RV false (GStruct _ _ as s) | RV false (GMaybe _ as s) | RV false (GTime _ as s) =>
      match extract s with
      | None => None
      | Some props =>
          match field_name props pname with
          | None => Some RZero
          | Some fn =>
              match field_by_name s fn with
              | None => Some RZero
              | Some (_, (fi, x)) => Some (RV (f_iface fi) x)
              end
          end
      end
  | _ => Some RZero
  end.

(** write the child's (possibly modified) value back where getProp read it; models
    mutation through the maps and pointers inside the child *)
Definition put_target (pname : string) (y : gval) (x : gval) : gval :=
  match x with
  | GMap T kk ifc ET (Some l) => GMap T kk ifc ET (Some (supd pname y l))
  | GStruct T fs =>
      match extract x with
      | None => x
      | Some props =>
          match field_name props pname with
          | None => x
          | Some fn =>
              match field_by_name x fn with
              | None => x
              | Some (path, _) => set_path path y x
              end
          end
      end
  | _ => x
  end.

Definition put_prop (v : gval) (pname : string) (y : gval) : gval :=
  match v with
  | GPtr T a (Some (false, x)) => GPtr T a (Some (false, put_target pname y x))
  | GPtr _ _ _ => v
  | _ => put_target pname y v
  end.

(** ** Setting defaults *)
Definition wrap (bits : Z) (z : Z) : Z := (z + 2 ^ (bits - 1)) mod 2 ^ bits - 2 ^ (bits - 1).
Definition ibits (k : ikind) : Z := match k with Kint => 64 | Kint8 => 8 | Kint16 => 16 | Kint32 => 32 | Kint64 => 64 end.
Definition ubits (k : ukind) : Z := match k with Kuint8 => 8 | Kuint16 => 16 | Kuint32 => 32 | _ => 64 end.

(** coerceValue to int64 / float64 for MaybeInt and MaybeFloat fields (object.go:215-226) *)
Definition to_int64 (d : gval) : gval :=
  match d with
  | GInt _ _ z | GUint _ _ z => GInt "int64" Kint64 (wrap 64 z)
  | GFloat _ is32 f => GInt "int64" Kint64 (f64_to_int64 (rv_float is32 f))
  | _ => d
  end.
Definition to_float64 (d : gval) : gval :=
  match d with
  | GInt _ _ z | GUint _ _ z => gfloat (f64_of_Z z)
  | GFloat _ is32 f => gfloat (rv_float is32 f)
  | _ => d
  end.
(** coerceValue to the type of an ordinary field (object.go:223-226); simplified: only
    conversions between numbers and between types of one scalar kind are modelled *)
Definition to_field (d f : gval) : gval :=
  match f, d with
  | GInt T k _, GInt _ _ z | GInt T k _, GUint _ _ z => GInt T k (wrap (ibits k) z)
  | GInt T k _, GFloat _ is32 x => GInt T k (wrap (ibits k) (f64_to_int64 (rv_float is32 x)))
  | GUint T k _, GInt _ _ z | GUint T k _, GUint _ _ z => GUint T k (z mod 2 ^ ubits k)
  | GUint T k _, GFloat _ is32 x => GUint T k (f64_to_uint64 (rv_float is32 x) mod 2 ^ ubits k)
  | GFloat T false _, GInt _ _ z | GFloat T false _, GUint _ _ z => GFloat T false (f64_of_Z z)
  | GFloat T true _, GInt _ _ z | GFloat T true _, GUint _ _ z => GFloat T true (binary_normalize 24 128 z 0 false)
  | GFloat T false _, GFloat _ is32 x => GFloat T false (rv_float is32 x)
  | GFloat T true _, GFloat _ true x => GFloat T true x
  | GFloat T true _, GFloat _ false x =>
      GFloat T true (match x with S754_finite s m e => binary_normalize 24 128 (cond_Zopp s (Zpos m)) e s | _ => x end)
  | GStr T _, GStr _ s => GStr T s
  | GBool T _, GBool _ b => GBool T b
  | _, _ => d
  end.

(** object.go:208-227 coerceValue(val, f.Type()); d is not nil *)
Definition coerce (d : gval) (ifc : bool) (f : gval) : gval :=
  if ifc then d
  else match f with
       | GMaybe (MFloat _ _) => to_float64 d
       | GMaybe (MInt _ _) => to_int64 d
       | _ => to_field d f
       end.

(** object.go:241-288: set a property of a map or struct; [addr]: the struct is
    addressable (reached through a pointer) *)
Definition set_target (E : env) (addr : bool) (x : gval) (pname : string) (d : gval) : gres gval :=
  match x with
  | GMap T kk ifc ET m =>
      match kk with
      | KNamedString | KOther => GPanic "SetMapIndex: key not assignable"
      | _ =>
          match d with
          | GNil =>       (* reflect.ValueOf(nil) is the zero Value: SetMapIndex deletes *)
              GOk (GMap T kk ifc ET (match m with None => None | Some l => Some (sdel pname l) end))
          | _ =>
              if ifc || String.eqb (typ d) ET then
                match m with
                | None => GPanic "assignment to entry in nil map"
                | Some l => GOk (GMap T kk ifc ET (Some (sset pname d l)))
                end
              else GPanic "SetMapIndex: value not assignable"
          end
      end
  | GStruct _ _ | GMaybe _ | GTime _ =>
      match extract x with
      | None => GPanic "reflect: NumField of non-struct type"
      | Some props =>
          match field_name props pname with
          | None => GErr ("setProp: could not find field '" +++ pname +++ "'")
          | Some fn =>
              match field_by_name x fn with
              | None => GErr ("setProp: could not find field '" +++ pname +++ "'")
              | Some (path, (fi, f)) =>
                  match d with
                  | GNil => GPanic "reflect: Type of zero Value"    (* coerceValue(nil) *)
                  | _ =>
                      let dv := coerce d (f_iface fi) f in
                      if is_maybe (RV (f_iface fi) f) then
                        match f with
                        | GMaybe m =>
                            if addr then
                              match m_set (e_time E) m dv with
                              | inl m' => GOk (set_path path (GMaybe m') x)
                              | inr e => GErr e
                              end
                            else GPanic "reflect: Set using unaddressable value"
                        | GPtr T a (Some (i, GMaybe m)) =>
                            match m_set (e_time E) m dv with
                            | inl m' => GOk (set_path path (GPtr T a (Some (i, GMaybe m'))) x)
                            | inr e => GErr e
                            end
                        | _ => GPanic "nil Maybe"
                        end
                      else if negb addr then GPanic "reflect: Set using unaddressable value"
                      else if f_iface fi || String.eqb (typ dv) (typ f)
                      then GOk (set_path path dv x)
                      else GPanic "reflect: Set: value not assignable"
                  end
              end
          end
      end
  | _ => GErr ("setProp: don't know what to do with '" +++ kind (valueOf x) +++ "'")
  end.

Definition gmapres (f : gval -> gval) (r : gres gval) : gres gval :=
  match r with GOk x => GOk (f x) | GErr m => GErr m | GPanic m => GPanic m end.

(** object.go:235-239: setProp(rv, ..) with rv = deref1 v follows one more pointer or
    interface than getProp does *)
Definition set_prop (E : env) (v : gval) (pname : string) (d : gval) : gres gval :=
  match v with
  | GPtr T a None => GErr "setProp: don't know what to do with 'invalid'"
  | GPtr T a (Some (true, GNil)) => GErr "setProp: don't know what to do with 'invalid'"
  | GPtr T a (Some (true, y)) =>
      gmapres (fun y' => GPtr T a (Some (true, y'))) (set_target E false y pname d)
  | GPtr T a (Some (false, GPtr T2 a2 None)) => GErr "setProp: don't know what to do with 'invalid'"
  | GPtr T a (Some (false, GPtr T2 a2 (Some (true, _)))) =>
      GErr "setProp: don't know what to do with 'interface'"
  | GPtr T a (Some (false, GPtr T2 a2 (Some (false, y)))) =>
      gmapres (fun y' => GPtr T a (Some (false, GPtr T2 a2 (Some (false, y')))))
              (set_target E true y pname d)
  | GPtr T a (Some (false, x)) =>
      gmapres (fun x' => GPtr T a (Some (false, x'))) (set_target E true x pname d)
  | _ => set_target E false v pname d
  end.

(** ** HasDefault / DefaultValue (basic.go:10-28, reference.go:116-132); references are
    followed, so fuel is needed *)
Inductive dres := DNone | DSome (d : gval) | DPanic | DOOF.
Definition dres_of (d : option gval) : dres := match d with None => DNone | Some x => DSome x end.

Fixpoint get_default (n : nat) (E : env) (c : constr) : dres :=
  match n with
  | O => DOOF
  | S n' =>
      match c with
      | CNil => DPanic
      | CBool d | CStr d _ | CNum d _ | CInt d _ => dres_of d
      | CRef name =>
          match e_refs E name with
          | None => DNone
          | Some c' => get_default n' E c'
          end
      | _ => DNone
      end
  end.

(** ** Loops.  [rec] is Validate of child constraints with less fuel. *)
Definition out := (res * gval * orc)%type.
Definition recT := constr -> gval -> orc -> out.

(** combinations.go:82-94 *)
Fixpoint all_loop (rec : recT) (cs : list constr) (v : gval) (w : orc) : out :=
  match cs with
  | [] => (Pass, v, w)
  | c :: r =>
      match rec c v w with
      | (Pass, v', w') => all_loop rec r v' w'
      | o => o
      end
  end.

(** combinations.go:49-60 *)
Fixpoint any_loop (rec : recT) (cs : list constr) (v : gval) (w : orc) : out :=
  match cs with
  | [] => (Fail "could not validate against any of the constraints", v, w)
  | c :: r =>
      match rec c v w with
      | (Fail _, v', w') => any_loop rec r v' w'
      | o => o
      end
  end.

(** combinations.go:116-135 *)
Fixpoint oneof_loop (rec : recT) (cs : list constr) (count : nat) (v : gval) (w : orc) : out :=
  match cs with
  | [] =>
      (match count with
       | O => Fail "none of the constraints passed"
       | 1%nat => Pass
       | _ => Fail "more than 1 of the constraints passed"
       end, v, w)
  | c :: r =>
      match rec c v w with
      | (Pass, v', w') => oneof_loop rec r (S count) v' w'
      | (Fail _, v', w') => oneof_loop rec r count v' w'
      | o => o
      end
  end.

(** basic.go:76-90 *)
Definition not_validate (rec : recT) (c : constr) (v : gval) (w : orc) : out :=
  match c with
  | CNil => (Fail "'not' constraint does not have a child constraint", v, w)
  | _ =>
      match rec c v w with
      | (Pass, v', w') => (Fail "'not' validation failed", v', w')
      | (Fail _, v', w') => (Pass, v', w')
      | o => o
      end
  end.

(** validate the elements at the given indices, in order, against the given constraints *)
Fixpoint set_nth {A} (i : nat) (x : A) (l : list A) : list A :=
  match l, i with
  | [], _ => []
  | _ :: r, O => x :: r
  | y :: r, S j => y :: set_nth j x r
  end.

Fixpoint idx_loop (rec : recT) (jobs : list (nat * constr)) (l : list gval) (w : orc)
  : res * list gval * orc :=
  match jobs with
  | [] => (Pass, l, w)
  | (i, c) :: r =>
      match rec c (nth i l GNil) w with
      | (Pass, x, w') => idx_loop rec r (set_nth i x l) w'
      | (o, x, w') => (o, set_nth i x l, w')
      end
  end.

(** array.go:57-69 *)
Fixpoint uniq_loop (E : env) (seen : list string) (l : list gval) : bool :=
  match l with
  | [] => true
  | x :: r =>
      let k := sprint E true x in
      if mem k seen then false else uniq_loop E (k :: seen) r
  end.

(** array.go:21-115 *)
Definition positional_jobs (cs : list constr) (n : nat) : list (nat * constr) :=
  combine (seq 0 n) cs.

Definition arr_validate (rec : recT) (E : env) (a : arrcfg) (v : gval) (w : orc) : out :=
  match v with
  | GSlice T ifc ol =>
      let l := match ol with None => [] | Some l => l end in
      let n := List.length l in
      let rebuild l' := GSlice T ifc (match ol with None => None | Some _ => Some l' end) in
      if (-1 <? a_min a) && (Z.of_nat n <? a_min a) then (Fail "fewer items than minItems", v, w)
      else if (-1 <? a_max a) && (a_max a <? Z.of_nat n) then (Fail "more items than maxItems", v, w)
      else if a_uniq a && negb (uniq_loop E [] l) then (Fail "duplicate element found", v, w)
      else match a_items a with
      | CNil =>
          let lp := List.length (a_pos a) in
          match idx_loop rec (positional_jobs (a_pos a) n) l w with
          | (Pass, l1, w1) =>
              if (0 <? lp)%nat && (lp <? n)%nat then
                match a_add a with
                | CNil => (Fail "additional elements found in array", rebuild l1, w1)
                | cadd =>
                    let '(r, l2, w2) :=
                      idx_loop rec (map (fun i => (i, cadd)) (seq (lp - 1) (n - (lp - 1)))) l1 w1 in
                    (r, rebuild l2, w2)
                end
              else (Pass, rebuild l1, w1)
          | (r, l1, w1) => (r, rebuild l1, w1)
          end
      | celem =>
          let '(r, l1, w1) := idx_loop rec (map (fun i => (i, celem)) (seq 0 n)) l w in
          (r, rebuild l1, w1)
      end
  | _ =>
      let typ := match v with GNil => "invalid"%string | _ => typ v end in
      (Fail ("value must be a slice (was: " +++ typ +++ ")"), v, w)
  end.

(** object.go:381-398: is the property there, and what is validated.  The boolean of
    [LHere]: the value was taken out of a Maybe. *)
Inductive look := LPanic | LMissing | LHere (unwrapped : bool) (x : gval).
Definition look_prop (pv : rval) : look :=
  match pv with
  | RZero => LMissing
  | RV i x =>
      if is_maybe pv then
        match maybe_of pv with
        | None => LPanic
        | Some m => if m_valid m then LHere true (m_value m) else LMissing
        end
      else LHere false x
  end.

(** state of the loops of ObjectConstraint.Validate: value, premain, pseen *)
Definition ostate := (gval * list string * list string)%type.

(** object.go:373-435 *)
Fixpoint props_loop (rec : recT) (gd : constr -> dres) (E : env) (o : objcfg)
    (ps : list (string * constr)) (st : ostate) (w : orc) : res * ostate * orc :=
  match ps with
  | [] => (Pass, st, w)
  | (k, c) :: r =>
      let '(v, premain, pseen) := st in
      match get_prop (deref1 v) k with
      | None => (Panic "getProp", st, w)
      | Some pv =>
          match look_prop pv with
          | LPanic => (Panic "Maybe.Valid", st, w)
          | LMissing =>
              if is_required o k
              then (Fail ("object property '" +++ k +++ "' is required"), st, w)
              else match gd c with
              | DOOF => (OOF, st, w)
              | DPanic => (Panic "nil Constraint", st, w)
              | DNone => props_loop rec gd E o r st w
              | DSome d =>
                  match set_prop E v k d with
                  | GOk v' => props_loop rec gd E o r (v', premain, pseen) w
                  | GErr m => (Fail ("failed to set default value for property '" +++ k +++ "': " +++ m), st, w)
                  | GPanic m => (Panic m, st, w)
                  end
              end
          | LHere unwrapped x =>
              let premain' := remove_s k premain in
              let pseen' := k :: pseen in
              match rec c x w with
              | (rs, x', w') =>
                  let v' := if unwrapped then v else put_prop v k x' in
                  match rs with
                  | Pass => props_loop rec gd E o r (v', premain', pseen') w'
                  | Fail m => (Fail ("object property '" +++ k +++ "' validation failed: " +++ m), (v', premain', pseen'), w')
                  | _ => (rs, (v', premain', pseen'), w')
                  end
              end
          end
      end
  end.

(** object.go:441-460: one pattern over the remaining names (in iteration order [ns]) *)
Fixpoint pat_inner (rec : recT) (E : env) (src : string) (c : constr) (ns : list string)
    (st : ostate) (w : orc) : res * ostate * orc :=
  match ns with
  | [] => (Pass, st, w)
  | k :: r =>
      let '(v, premain, pseen) := st in
      if negb (e_rx E src k) then pat_inner rec E src c r st w
      else match get_prop (deref1 v) k with
      | None => (Panic "getProp", st, w)
      | Some pv =>
          let premain' := remove_s k premain in
          let pseen' := k :: pseen in
          match interface pv with
          | None => (Panic "reflect: Interface of zero Value", (v, premain', pseen'), w)
          | Some x =>
              match rec c x w with
              | (rs, x', w') =>
                  let v' := put_prop v k x' in
                  match rs with
                  | Pass => pat_inner rec E src c r (v', premain', pseen') w'
                  | Fail m => (Fail ("object property '" +++ k +++ "' validation failed: " +++ m), (v', premain', pseen'), w')
                  | _ => (rs, (v', premain', pseen'), w')
                  end
              end
          end
      end
  end.

(** object.go:437-461 *)
Fixpoint pats_loop (rec : recT) (E : env) (ps : list ((nat * string) * constr))
    (st : ostate) (w : orc) : res * ostate * orc :=
  match ps with
  | [] => (Pass, st, w)
  | ((_, src), c) :: r =>
      let '(v, premain, pseen) := st in
      let '(ns, w1) := shuffle w premain in
      match pat_inner rec E src c ns st w1 with
      | (Pass, st', w2) => pats_loop rec E r st' w2
      | o => o
      end
  end.

(** object.go:469-474 *)
Fixpoint add_loop (rec : recT) (c : constr) (ns : list string) (v : gval) (w : orc) : out :=
  match ns with
  | [] => (Pass, v, w)
  | k :: r =>
      match get_prop (deref1 v) k with
      | None => (Panic "getProp", v, w)
      | Some pv =>
          match interface pv with
          | None => (Panic "reflect: Interface of zero Value", v, w)
          | Some x =>
              match rec c x w with
              | (rs, x', w') =>
                  let v' := put_prop v k x' in
                  match rs with
                  | Pass => add_loop rec c r v' w'
                  | Fail m => (Fail ("object property for '" +++ k +++ "' validation failed: " +++ m), v', w')
                  | _ => (rs, v', w')
                  end
              end
          end
      end
  end.

(** object.go:482-486: the first dependency not seen *)
Definition missing_dep (pseen deps : list string) : option string :=
  find (fun d => negb (mem d pseen)) deps.

(** object.go:477-497 *)
Fixpoint deps_loop (rec : recT) (o : objcfg) (pseen ns : list string) (v : gval) (w : orc) : out :=
  match ns with
  | [] => (Pass, v, w)
  | k :: r =>
      match prop_deps o k with
      | (_ :: _) as deps =>
          match missing_dep pseen deps with
          | Some d => (Fail ("required dependency '" +++ d +++ "' is mising"), v, w)
          | None => deps_loop rec o pseen r v w
          end
      | [] =>
          match schema_dep o k with
          | CNil => deps_loop rec o pseen r v w
          | depc =>
              match rec depc v w with
              | (Pass, v', w') => deps_loop rec o pseen r v' w'
              | x => x
              end
          end
      end
  end.

(** object.go:324-500 *)
Definition obj_validate (rec : recT) (gd : constr -> dres) (E : env) (o : objcfg) (v : gval) (w : orc) : out :=
  match get_names (deref1 v) with
  | GErr m => (Fail m, v, w)
  | GPanic m => (Panic m, v, w)
  | GOk fields =>
      let lf := Z.of_nat (List.length fields) in
      if (-1 <? o_min o) && (lf <? o_min o) then (Fail "fewer properties than minProperties", v, w)
      else if (-1 <? o_max o) && (o_max o <? lf) then (Fail "more properties than maxProperties", v, w)
      else
        let '(ps, w1) := shuffle w (o_props o) in
        match props_loop rec gd E o ps (v, fields, []) w1 with
        | (Pass, st1, w2) =>
            let '(pats, w3) := shuffle w2 (o_pats o) in
            match pats_loop rec E pats st1 w3 with
            | (Pass, (v4, premain, pseen), w4) =>
                let r5 :=
                  match premain with
                  | [] => (Pass, v4, w4)
                  | _ :: _ =>
                      match o_add o with
                      | CNil => (Fail "additional properties are not allowed", v4, w4)
                      | c =>
                          let '(ns, w5) := shuffle w4 premain in
                          add_loop rec c ns v4 w5
                      end
                  end in
                match r5 with
                | (Pass, v6, w6) =>
                    let '(ns, w7) := shuffle w6 pseen in
                    deps_loop rec o pseen ns v6 w7
                | x => x
                end
            | (rs, (v4, _, _), w4) => (rs, v4, w4)
            end
        | (rs, (v2, _, _), w2) => (rs, v2, w2)
        end
  end.

(** ** Validate *)
Fixpoint validate (n : nat) (E : env) (c : constr) (v : gval) (w : orc) : out :=
  match n with
  | O => (OOF, v, w)
  | S n' =>
      let rec := validate n' E in
      match c with
      | CNil => (Panic "nil Constraint", v, w)
      | CEmpty => (Pass, v, w)
      | CNull => (null_validate v, v, w)
      | CBool _ => (bool_validate v, v, w)
      | CStr _ s => (str_validate E s v, v, w)
      | CNum _ m => (num_validate m v, v, w)
      | CInt _ m => (int_validate m v, v, w)
      | CArr a => arr_validate rec E a v w
      | CObj o => obj_validate rec (get_default n' E) E o v w
      | CEnum l => (enum_loop l v, v, w)
      | CAny l => any_loop rec l v w
      | CAll l => all_loop rec l v w
      | COneOf l => oneof_loop rec l 0 v w
      | CNot c' => not_validate rec c' v w
      | CRef name =>
          match e_refs E name with
          | None => (Fail ("reference '" +++ name +++ "' not found"), v, w)
          | Some c' => rec c' v w
          end
      end
  end.

(** jsval.go:22-28 JSVal.Validate; [addr] is the %p text of the validator.  errors.Wrapf
    returns nil on nil and otherwise prefixes the text. *)
Definition jsval_validate (n : nat) (E : env) (name addr : string) (root : constr) (v : gval) (w : orc) : out :=
  let label := match name with EmptyString => addr | _ => name end in
  match validate n E root v w with
  | (Fail m, v', w') => (Fail ("validator " +++ label +++ " failed: " +++ m), v', w')
  | o => o
  end.
