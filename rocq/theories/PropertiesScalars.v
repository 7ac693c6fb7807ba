(** Scalar constraints and the host name / address checks

    Only statements: each theorem is proved in the file named above it. *)

From Coq Require Import List String ZArith Bool SpecFloat QArith.
From Verif Require Import Base GoFloat FloatSpec FloatProofs GoValue Formats Maybe HostSpec
  Constraint StructInfo Validate Fuel Reach ReadOnly Frame Preserve
  Spec SpecSound SpecObj SpecMain ConstrInd Terminate Scalars Structure
  Composite Refuted DocSpec Linear RefConc RegConc Server Fluent
  MaybeProofs Simulate StructProofs DefaultProofs StructCases NoPanic Repeat Cases
  DocDeviates Builder BuildSpec BuildProofs Local BuildRefs BuildErr Height
  SchemaSpec SchemaForm SchemaRegular SchemaMeans SchemaMain BuildCases Extras GoText
  GoLang GoEval Generator GenLex GenParse GenCode GenLike GenSpec
  GenFaith GenRound GenObj GenMain GenProcess GenTheorems GenLoss GenDet
  GenCases EndToEnd EndCases Cli CliProofs CliCases Heap HeapProofs
  HeapCases Custom CustomProofs CustomCases Witness WitnessBuild.
Import ListNotations.
Open Scope nat_scope.
Open Scope string_scope.
Open Scope list_scope.

(** ** C18. Number bounds are exact

    Number accepts a float exactly when it is not below the minimum (not at or below when exclusive) and not above the maximum (dually), in the exact real ordering of IEEE-754 binary64 values with infinities; NaN passes every bound; any non-float is rejected.
    Status: proved.  *)

(* Scalars.v *)
Theorem C18_number_exact :
  forall (n : nat) (E : env) (d : option gval) (c : numcfg) (v : gval) (f : f64) (w : orc),
  numcfg_ok c ->
  float_in v f ->
  valid64 f = true ->
  fst (fst (validate (S n) E (CNum d c) v w)) = Pass /\ number_meaning c (fval f) \/
  (exists m : string, fst (fst (validate (S n) E (CNum d c) v w)) = Fail m) /\
  ~ number_meaning c (fval f).
Proof. exact (@Scalars.number_exact). Qed.
Print Assumptions C18_number_exact.

(* Scalars.v *)
Theorem C18_number_rejects :
  forall (n : nat) (E : env) (d : option gval) (c : numcfg) (v : gval) (w : orc),
  (forall f : f64, ~ float_in v f) ->
  exists m : string, fst (fst (validate (S n) E (CNum d c) v w)) = Fail m.
Proof. exact (@Scalars.number_rejects). Qed.
Print Assumptions C18_number_rejects.

(* Witness.v *)
Example C18_num_case :
  numcfg_ok c_num /\
  float_in (gfloat two_half) two_half /\
  valid64 two_half = true /\
  number_meaning c_num (fval two_half) /\
  fst (fst (validate 1 env1 (CNum None c_num) (gfloat two_half) [])) = Pass /\
  Forall
    (fun f : spec_float =>
     valid64 f = true /\
     ~ number_meaning c_num (fval f) /\
     (exists m : string, fst (fst (validate 1 env1 (CNum None c_num) (gfloat f) [])) = Fail m))
    [f64_of_Z 0; f64_of_Z 11; f64_of_Z (-1); S754_finite false (2 ^ 52) (-54); S754_nan;
     S754_infinity true] /\ (forall f : f64, ~ float_in (gstr "2.5") f).
Proof. exact (@Witness.num_case). Qed.

(** ** C19. multipleOf is exact divisibility

    With MultipleOf(m), m finite and non-zero, a finite float x passes iff x is an exact integer multiple of m as real numbers; MultipleOf(0) imposes nothing; NaN and infinities fail.
    Status: proved.  *)

(* Scalars.v *)
Theorem C19_number_exact :
  forall (n : nat) (E : env) (d : option gval) (c : numcfg) (v : gval) (f : f64) (w : orc),
  numcfg_ok c ->
  float_in v f ->
  valid64 f = true ->
  fst (fst (validate (S n) E (CNum d c) v w)) = Pass /\ number_meaning c (fval f) \/
  (exists m : string, fst (fst (validate (S n) E (CNum d c) v w)) = Fail m) /\
  ~ number_meaning c (fval f).
Proof. exact (@Scalars.number_exact). Qed.
Print Assumptions C19_number_exact.

(* Scalars.v *)
Theorem C19_number_rejects :
  forall (n : nat) (E : env) (d : option gval) (c : numcfg) (v : gval) (w : orc),
  (forall f : f64, ~ float_in v f) ->
  exists m : string, fst (fst (validate (S n) E (CNum d c) v w)) = Fail m.
Proof. exact (@Scalars.number_rejects). Qed.
Print Assumptions C19_number_rejects.

(* Witness.v *)
Example C19_num_case :
  numcfg_ok c_num /\
  float_in (gfloat two_half) two_half /\
  valid64 two_half = true /\
  number_meaning c_num (fval two_half) /\
  fst (fst (validate 1 env1 (CNum None c_num) (gfloat two_half) [])) = Pass /\
  Forall
    (fun f : spec_float =>
     valid64 f = true /\
     ~ number_meaning c_num (fval f) /\
     (exists m : string, fst (fst (validate 1 env1 (CNum None c_num) (gfloat f) [])) = Fail m))
    [f64_of_Z 0; f64_of_Z 11; f64_of_Z (-1); S754_finite false (2 ^ 52) (-54); S754_nan;
     S754_infinity true] /\ (forall f : f64, ~ float_in (gstr "2.5") f).
Proof. exact (@Witness.num_case). Qed.

(** ** C20. Integer accepts exactly integral numbers

    Integer rejects finite floats with a fractional part and NaN, accepts integral floats and every Go int/uint kind, and then applies the Number rules to the value converted to float64; the conversion is exact for |n| <= 2^53. (Beyond that the bound checks can be wrong by rounding.)
    Status: proved.  *)

(* Scalars.v *)
Theorem C20_integer_float_exact :
  forall (n : nat) (E : env) (d : option gval) (c : numcfg) (v : gval) (f : f64) (w : orc),
  numcfg_ok c ->
  float_in v f ->
  valid64 f = true ->
  let whole := fval f = XPosInf \/ fval f = XNegInf \/ integral (fval f) in
  fst (fst (validate (S n) E (CInt d c) v w)) = Pass /\ whole /\ number_meaning c (fval f) \/
  (exists m : string, fst (fst (validate (S n) E (CInt d c) v w)) = Fail m) /\
  ~ (whole /\ number_meaning c (fval f)).
Proof. exact (@Scalars.integer_float_exact). Qed.
Print Assumptions C20_integer_float_exact.

(* Scalars.v *)
Theorem C20_integer_int_exact :
  forall (n : nat) (E : env) (d : option gval) (c : numcfg) (v : gval) (z : Z) (w : orc),
  numcfg_ok c ->
  int_in v z ->
  (Z.abs z <= 2 ^ 53)%Z ->
  fst (fst (validate (S n) E (CInt d c) v w)) = Pass /\ number_meaning c (xZ z) \/
  (exists m : string, fst (fst (validate (S n) E (CInt d c) v w)) = Fail m) /\
  ~ number_meaning c (xZ z).
Proof. exact (@Scalars.integer_int_exact). Qed.
Print Assumptions C20_integer_int_exact.

(* Scalars.v *)
Theorem C20_integer_rejects :
  forall (n : nat) (E : env) (d : option gval) (c : numcfg) (v : gval) (w : orc),
  (forall f : f64, ~ float_in v f) ->
  (forall z : Z, ~ int_in v z) ->
  exists m : string, fst (fst (validate (S n) E (CInt d c) v w)) = Fail m.
Proof. exact (@Scalars.integer_rejects). Qed.
Print Assumptions C20_integer_rejects.

(* Scalars.v *)
Theorem C20_integer_bounds_complete :
  forall (n : nat) (E : env) (d : option gval) (c : numcfg) (v : gval) (z : Z) (w : orc),
  numcfg_ok c ->
  int_in v z ->
  (Z.abs z <= 2 ^ 64)%Z ->
  n_xmin c = false ->
  n_xmax c = false ->
  n_amul c = false ->
  n_enum c = None ->
  (n_amin c = true -> xle (fval (n_min c)) (xZ z)) ->
  (n_amax c = true -> xle (xZ z) (fval (n_max c))) ->
  fst (fst (validate (S n) E (CInt d c) v w)) = Pass.
Proof. exact (@Scalars.integer_bounds_complete). Qed.
Print Assumptions C20_integer_bounds_complete.

(* Witness.v *)
Example C20_int_case :
  numcfg_ok c_int /\
  int_in (GInt "int8" Kint8 7) 7 /\
  number_meaning c_int (xZ 7) /\
  ~ number_meaning c_int (xZ 11) /\
  float_in (gfloat two_half) two_half /\
  ~ integral (fval two_half) /\
  fst (fst (validate 1 env1 (CInt None c_int) (GInt "int8" Kint8 7) [])) = Pass /\
  (exists m : string,
     fst (fst (validate 1 env1 (CInt None c_int) (GUint "uint64" Kuint64 11) [])) = Fail m) /\
  (exists m : string,
     fst (fst (validate 1 env1 (CInt None c_int) (gfloat two_half) [])) = Fail m) /\
  (exists m : string, fst (fst (validate 1 env1 (CInt None c_int) (gstr "7") [])) = Fail m).
Proof. exact (@Witness.int_case). Qed.

(** ** C21. Enum is membership by Go interface equality

    Enum accepts a value iff it is == to one of the listed values (same dynamic type and equal), and never panics when the listed values are all of comparable types.
    Status: proved.  *)

(* Scalars.v *)
Theorem C21_enum_exact :
  forall (n : nat) (E : env) (l : list gval) (v : gval) (w : orc),
  Forall scalar_lit l ->
  fst (fst (validate (S n) E (CEnum l) v w)) = Pass /\ Exists (fun e : gval => go_equal e v) l \/
  (exists m : string, fst (fst (validate (S n) E (CEnum l) v w)) = Fail m) /\
  ~ Exists (fun e : gval => go_equal e v) l.
Proof. exact (@Scalars.enum_exact). Qed.
Print Assumptions C21_enum_exact.

(* Scalars.v *)
Theorem C21_enum_no_panic :
  forall (n : nat) (E : env) (l : list gval) (v : gval) (w : orc) (m : string),
  comparables l -> jdoc v -> fst (fst (validate (S n) E (CEnum l) v w)) <> Panic m.
Proof. exact (@Scalars.enum_no_panic). Qed.
Print Assumptions C21_enum_no_panic.

(* Witness.v *)
Example C21_enum_case :
  Forall scalar_lit e_list /\
  comparables e_list /\
  Forall
    (fun v : gval =>
     Exists (fun e : gval => go_equal e v) e_list /\
     fst (fst (validate 1 env1 (CEnum e_list) v [])) = Pass) [gstr "on"; num 1; GNil] /\
  Forall
    (fun v : gval =>
     ~ Exists (fun e : gval => go_equal e v) e_list /\
     (exists m : string, fst (fst (validate 1 env1 (CEnum e_list) v [])) = Fail m))
    [gstr "off"; num 2; GInt "int8" Kint8 1; GStr "main.Mode" "on"; jarr []].
Proof. exact (@Witness.enum_case). Qed.

(** ** C22. String constraints

    String accepts exactly string-kind values (through at most one pointer) whose byte length is within MinLength/MaxLength, that satisfy the format, match the regexp, and are in the enum when these are set.
    Status: proved.  *)

(* Scalars.v *)
Theorem C22_string_exact :
  forall (n : nat) (E : env) (d : option gval) (c : strcfg) (v : gval) (s : string) (w : orc),
  str_enum_ok c ->
  string_in v s ->
  fst (fst (validate (S n) E (CStr d c) v w)) = Pass /\ string_meaning E c s \/
  (exists m : string, fst (fst (validate (S n) E (CStr d c) v w)) = Fail m) /\
  ~ string_meaning E c s.
Proof. exact (@Scalars.string_exact). Qed.
Print Assumptions C22_string_exact.

(* Scalars.v *)
Theorem C22_string_rejects :
  forall (n : nat) (E : env) (d : option gval) (c : strcfg) (v : gval) (w : orc),
  (forall s : string, ~ string_in v s) ->
  exists m : string, fst (fst (validate (S n) E (CStr d c) v w)) = Fail m.
Proof. exact (@Scalars.string_rejects). Qed.
Print Assumptions C22_string_rejects.

(* Witness.v *)
Example C22_str_case :
  str_enum_ok c_str /\
  string_in (gstr "abc") "abc" /\
  string_in (GPtr "*string" 1 (Some (false, gstr "ab"))) "ab" /\
  string_meaning env1 c_str "abc" /\
  Forall (fun s : string => ~ string_meaning env1 c_str s) ["b"; "abcd"; "xab"] /\
  fst
    (fst (validate 1 env1 (CStr None c_str) (GPtr "*string" 1 (Some (false, gstr "ab"))) [])) =
  Pass /\ (forall s : string, ~ string_in (num 1) s).
Proof. exact (@Witness.str_case). Qed.

(** ** C23. hostname format is the RFC 1035 label grammar

    Format(''hostname'') accepts a string iff it is 1..255 bytes, is a dot separated list of labels (optionally followed by one trailing dot), every label is 1..63 letters, digits, '_' or '-', does not begin or end with '-', and at least one label contains a letter or '_'.
    Status: proved.  *)

(* Scalars.v *)
Theorem C23_hostname_exact :
  forall (n : nat) (E : env) (d : option gval) (v : gval) (s : string) (w : orc),
  string_in v s ->
  fst (fst (validate (S n) E (CStr d (fmt_only "hostname")) v w)) = Pass /\ hostname s \/
  (exists m : string, fst (fst (validate (S n) E (CStr d (fmt_only "hostname")) v w)) = Fail m) /\
  ~ hostname s.
Proof. exact (@Scalars.hostname_exact). Qed.
Print Assumptions C23_hostname_exact.

(* Witness.v *)
Example C23_host_case :
  Forall
    (fun s : string =>
     hostname s /\
     fst (fst (validate 1 env1 (CStr None (fmt_only "hostname")) (gstr s) [])) = Pass)
    ["example.com"; "a-1._x."; "x"] /\
  Forall (fun s : string => ~ hostname s) [""; "."; "a..b"; "-a.b"; "a-.b"; "1.2"; "a b"].
Proof. exact (@Witness.host_case). Qed.

(** ** C24. ipv4 format

    Format(''ipv4'') accepts exactly the strings made of digits and dots that net.ParseIP accepts; no IPv6 text is ever accepted.
    Status: proved. net.ParseIP is a parameter of the environment. *)

(* Scalars.v *)
Theorem C24_ipv4_exact :
  forall (n : nat) (E : env) (d : option gval) (v : gval) (s : string) (w : orc),
  string_in v s ->
  fst (fst (validate (S n) E (CStr d (fmt_only "ipv4")) v w)) = Pass /\
  over (DIGITS +++ ".") s /\ e_ip E s = true \/
  (exists m : string, fst (fst (validate (S n) E (CStr d (fmt_only "ipv4")) v w)) = Fail m) /\
  ~ (over (DIGITS +++ ".") s /\ e_ip E s = true).
Proof. exact (@Scalars.ipv4_exact). Qed.
Print Assumptions C24_ipv4_exact.

(* Scalars.v *)
Theorem C24_ipv4_no_colon :
  forall (n : nat) (E : env) (d : option gval) (v : gval) (s : string) (w : orc),
  string_in v s ->
  In ":"%char (chars s) ->
  exists m : string, fst (fst (validate (S n) E (CStr d (fmt_only "ipv4")) v w)) = Fail m.
Proof. exact (@Scalars.ipv4_no_colon). Qed.
Print Assumptions C24_ipv4_no_colon.

(* Witness.v *)
Example C24_ip_case :
  fst (fst (validate 1 env_ip (CStr None (fmt_only "ipv4")) (gstr "127.0.0.1") [])) = Pass /\
  fst (fst (validate 1 env_ip (CStr None (fmt_only "ipv6")) (gstr "::1") [])) = Pass /\
  over (DIGITS +++ ".") "127.0.0.1" /\
  over (DIGITS +++ ":") "::1" /\
  In ":"%char (chars "::1") /\
  ~ over (DIGITS +++ ":") "fe80::1" /\ e_ip env_ip "fe80::1" = true.
Proof. exact (@Witness.ip_case). Qed.

(** ** C25. ipv6 format

    Format(''ipv6'') accepts every valid IPv6 text. (False of the code: any address with a hexadecimal letter or embedded IPv4 part is rejected, since only digits and ':' are allowed.)
    Status: partial. REFUTED as stated; exact guard proved. *)

(* Refuted.v *)
Theorem C25_ipv6_refuted :
  ~ (forall (E : env) (s : string) (w : orc) (r : res) (v' : gval) (w' : orc),
   e_ip E s = true ->
   In ":"%char (chars s) -> Runs E (CStr None (fmt_only "ipv6")) (gstr s) w (r, v', w') -> r = Pass).
Proof. exact (@Refuted.ipv6_refuted). Qed.
Print Assumptions C25_ipv6_refuted.

(* Scalars.v *)
Theorem C25_ipv6_exact_partial :
  forall (n : nat) (E : env) (d : option gval) (v : gval) (s : string) (w : orc),
  string_in v s ->
  fst (fst (validate (S n) E (CStr d (fmt_only "ipv6")) v w)) = Pass /\
  over (DIGITS +++ ":") s /\ e_ip E s = true \/
  (exists m : string, fst (fst (validate (S n) E (CStr d (fmt_only "ipv6")) v w)) = Fail m) /\
  ~ (over (DIGITS +++ ":") s /\ e_ip E s = true).
Proof. exact (@Scalars.ipv6_exact). Qed.
Print Assumptions C25_ipv6_exact_partial.

(* Scalars.v *)
Theorem C25_ipv6_hex_rejected_partial :
  forall (n : nat) (E : env) (d : option gval) (v : gval) (s : string) (w : orc) (c : ascii),
  string_in v s ->
  In c (chars s) ->
  HostSpec.one_of c "abcdefABCDEF." ->
  exists m : string, fst (fst (validate (S n) E (CStr d (fmt_only "ipv6")) v w)) = Fail m.
Proof. exact (@Scalars.ipv6_hex_rejected). Qed.
Print Assumptions C25_ipv6_hex_rejected_partial.

(* Witness.v *)
Example C25_ip_case :
  fst (fst (validate 1 env_ip (CStr None (fmt_only "ipv4")) (gstr "127.0.0.1") [])) = Pass /\
  fst (fst (validate 1 env_ip (CStr None (fmt_only "ipv6")) (gstr "::1") [])) = Pass /\
  over (DIGITS +++ ".") "127.0.0.1" /\
  over (DIGITS +++ ":") "::1" /\
  In ":"%char (chars "::1") /\
  ~ over (DIGITS +++ ":") "fe80::1" /\ e_ip env_ip "fe80::1" = true.
Proof. exact (@Witness.ip_case). Qed.

(** ** C26. Null, Boolean and Empty

    NullConstraint accepts exactly nil and typed nils of chan, func, map, pointer and slice kinds; Boolean accepts exactly bool-kind values; EmptyConstraint accepts everything.
    Status: proved.  *)

(* Scalars.v *)
Theorem C26_null_exact :
  forall (n : nat) (E : env) (v : gval) (w : orc),
  fst (fst (validate (S n) E CNull v w)) = Pass /\
  (exists k : string, go_nil v k /\ In k ["interface"; "slice"; "map"; "ptr"; "chan"; "func"]) \/
  (exists m : string, fst (fst (validate (S n) E CNull v w)) = Fail m) /\
  ~
  (exists k : string, go_nil v k /\ In k ["interface"; "slice"; "map"; "ptr"; "chan"; "func"]).
Proof. exact (@Scalars.null_exact). Qed.
Print Assumptions C26_null_exact.

(* Scalars.v *)
Theorem C26_bool_exact :
  forall (n : nat) (E : env) (d : option gval) (v : gval) (w : orc),
  fst (fst (validate (S n) E (CBool d) v w)) = Pass /\ kind (valueOf v) = "bool" \/
  (exists m : string, fst (fst (validate (S n) E (CBool d) v w)) = Fail m) /\
  kind (valueOf v) <> "bool".
Proof. exact (@Scalars.bool_exact). Qed.
Print Assumptions C26_bool_exact.

(* Scalars.v *)
Theorem C26_empty_accepts :
  forall (n : nat) (E : env) (v : gval) (w : orc), validate (S n) E CEmpty v w = (Pass, v, w).
Proof. exact (@Scalars.empty_accepts). Qed.
Print Assumptions C26_empty_accepts.

(* Witness.v *)
Example C26_null_case :
  Forall (fun v : gval => fst (fst (validate 1 env1 CNull v [])) = Pass)
    [GNil; GSlice "[]int" false None; GMap "map[string]int" GoValue.KString false "int" None;
     GPtr "*int" 0 None] /\
  Forall (fun v : gval => exists m : string, fst (fst (validate 1 env1 CNull v [])) = Fail m)
    [gstr ""; num 0; jarr []; GPtr "*int" 1 (Some (false, GInt "int" Kint 0))] /\
  fst (fst (validate 1 env1 (CBool None) (GBool "main.Flag" true) [])) = Pass /\
  (exists m : string, fst (fst (validate 1 env1 (CBool None) (gstr "true") [])) = Fail m).
Proof. exact (@Witness.null_case). Qed.

(** ** C56. Integer bounds are exact

    An integer value passes a bound iff it satisfies it as a mathematical integer. (False beyond 2^53, where the value is rounded to float64 first.) For |z| <= 2^53 exact, and up to 2^64 no value within the bounds is rejected.
    Status: partial. REFUTED as stated; exact guard proved. *)

(* Refuted.v *)
Theorem C56_integer_bound_refuted :
  ~ (forall (E : env) (c : numcfg) (z : Z) (w : orc) (v' : gval) (w' : orc),
   (0 <= z <= max_int64)%Z ->
   n_amax c = true ->
   numcfg_ok c ->
   Runs E (CInt None c) (GInt "int" Kint z) w (Pass, v', w') ->
   below (n_xmax c) (fval (n_max c)) (xZ z)).
Proof. exact (@Refuted.integer_bound_refuted). Qed.
Print Assumptions C56_integer_bound_refuted.

(* Scalars.v *)
Theorem C56_integer_int_exact_partial :
  forall (n : nat) (E : env) (d : option gval) (c : numcfg) (v : gval) (z : Z) (w : orc),
  numcfg_ok c ->
  int_in v z ->
  (Z.abs z <= 2 ^ 53)%Z ->
  fst (fst (validate (S n) E (CInt d c) v w)) = Pass /\ number_meaning c (xZ z) \/
  (exists m : string, fst (fst (validate (S n) E (CInt d c) v w)) = Fail m) /\
  ~ number_meaning c (xZ z).
Proof. exact (@Scalars.integer_int_exact). Qed.
Print Assumptions C56_integer_int_exact_partial.

(* Scalars.v *)
Theorem C56_integer_bounds_complete_partial :
  forall (n : nat) (E : env) (d : option gval) (c : numcfg) (v : gval) (z : Z) (w : orc),
  numcfg_ok c ->
  int_in v z ->
  (Z.abs z <= 2 ^ 64)%Z ->
  n_xmin c = false ->
  n_xmax c = false ->
  n_amul c = false ->
  n_enum c = None ->
  (n_amin c = true -> xle (fval (n_min c)) (xZ z)) ->
  (n_amax c = true -> xle (xZ z) (fval (n_max c))) ->
  fst (fst (validate (S n) E (CInt d c) v w)) = Pass.
Proof. exact (@Scalars.integer_bounds_complete). Qed.
Print Assumptions C56_integer_bounds_complete_partial.

(* Witness.v *)
Example C56_int_case :
  numcfg_ok c_int /\
  int_in (GInt "int8" Kint8 7) 7 /\
  number_meaning c_int (xZ 7) /\
  ~ number_meaning c_int (xZ 11) /\
  float_in (gfloat two_half) two_half /\
  ~ integral (fval two_half) /\
  fst (fst (validate 1 env1 (CInt None c_int) (GInt "int8" Kint8 7) [])) = Pass /\
  (exists m : string,
     fst (fst (validate 1 env1 (CInt None c_int) (GUint "uint64" Kuint64 11) [])) = Fail m) /\
  (exists m : string,
     fst (fst (validate 1 env1 (CInt None c_int) (gfloat two_half) [])) = Fail m) /\
  (exists m : string, fst (fst (validate 1 env1 (CInt None c_int) (gstr "7") [])) = Fail m).
Proof. exact (@Witness.int_case). Qed.

(** ** C64. String lengths count characters

    minLength/maxLength count characters of the text. (False of the code: bytes are counted.) Exact on strings all of whose characters are one byte long.
    Status: partial. REFUTED as stated; exact guard proved. *)

(* BuildCases.v *)
Theorem C64_length_refuted :
  ~ (forall (c : scfg) (v : gval),
   plainly c -> sc_type c = [TString] -> sc_enum c = [] -> json v -> agrees (Sch c) v).
Proof. exact (@BuildCases.length_refuted). Qed.
Print Assumptions C64_length_refuted.

(* Scalars.v *)
Theorem C64_string_exact_partial :
  forall (n : nat) (E : env) (d : option gval) (c : strcfg) (v : gval) (s : string) (w : orc),
  str_enum_ok c ->
  string_in v s ->
  fst (fst (validate (S n) E (CStr d c) v w)) = Pass /\ string_meaning E c s \/
  (exists m : string, fst (fst (validate (S n) E (CStr d c) v w)) = Fail m) /\
  ~ string_meaning E c s.
Proof. exact (@Scalars.string_exact). Qed.
Print Assumptions C64_string_exact_partial.

(* Witness.v *)
Example C64_str_case :
  str_enum_ok c_str /\
  string_in (gstr "abc") "abc" /\
  string_in (GPtr "*string" 1 (Some (false, gstr "ab"))) "ab" /\
  string_meaning env1 c_str "abc" /\
  Forall (fun s : string => ~ string_meaning env1 c_str s) ["b"; "abcd"; "xab"] /\
  fst
    (fst (validate 1 env1 (CStr None c_str) (GPtr "*string" 1 (Some (false, gstr "ab"))) [])) =
  Pass /\ (forall s : string, ~ string_in (num 1) s).
Proof. exact (@Witness.str_case). Qed.

