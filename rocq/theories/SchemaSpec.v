(** What a JSON Schema (draft 4) document means (C43), stated on the schema itself, with no
    trace of constraints or of how the builder works.  A decoded document is [Valid] or
    [Invalid]; schemas whose references go round without ever looking at the document are
    neither. *)
From Verif Require Import Base GoFloat FloatSpec FloatProofs GoValue Maybe Formats HostSpec Constraint StructInfo Validate Builder BuildSpec Spec Scalars.
Open Scope Z_scope.

(** ** Documents: what encoding/json decodes into an interface{} *)
Definition finite (f : f64) : Prop := exists q, fval f = XQ q.
Inductive json : gval -> Prop :=
| j_null : json GNil
| j_bool b : json (gbool b)
| j_num f : valid64 f = true -> finite f -> json (gfloat f)
| j_str s : json (gstr s)
| j_arr l : (forall x, In x l -> json x) -> json (gslice l)
| j_obj m : ssorted m -> (forall k x, sget k m = Some x -> json x) -> json (gmap m).

(** equality of documents: numbers by value, objects by their members *)
Inductive json_equal : gval -> gval -> Prop :=
| je_null : json_equal GNil GNil
| je_bool b : json_equal (gbool b) (gbool b)
| je_num f g : xeq (fval f) (fval g) -> json_equal (gfloat f) (gfloat g)
| je_str s : json_equal (gstr s) (gstr s)
| je_arr l l' : List.length l = List.length l' ->
    (forall j x y, nth_error l j = Some x -> nth_error l' j = Some y -> json_equal x y) -> json_equal (gslice l) (gslice l')
| je_obj m m' : keys m = keys m' ->
    (forall k x y, sget k m = Some x -> sget k m' = Some y -> json_equal x y) -> json_equal (gmap m) (gmap m').

Definition has_type (t : ptype) (v : gval) : Prop :=
  match t with
  | TNull => v = GNil
  | TBoolean => exists b, v = gbool b
  | TString => exists s, v = gstr s
  | TNumber => exists f, v = gfloat f
  | TInteger => exists f, v = gfloat f /\ integral (fval f)
  | TArray => exists l, v = gslice l
  | TObject => exists m, v = gmap m
  | TOther _ => False
  end.

(** ** Keywords that look at one value only *)
(** characters of UTF-8 text: bytes that do not continue a character *)
Definition continues (a : ascii) : bool := let n := N_of_ascii a in (128 <=? n)%N && (n <? 192)%N.
Definition characters (s : string) : nat := List.length (filter (fun a => negb (continues a)) (chars s)).

Section Meaning.
  Context (E : env) (D : resolver) (root : schema).

  Definition json_format (fmt s : string) : Prop :=
    (fmt = "date-time"%string -> exists t, e_time E s = inl t) /\
    (fmt = "email"%string -> e_email E s = None) /\
    (fmt = "uri"%string -> e_uri E s = true) /\
    (fmt = "hostname"%string -> hostname s) /\
    (fmt = "ipv4"%string -> over (DIGITS ++ ".") s /\ e_ip E s = true) /\
    (fmt = "ipv6"%string -> In ":"%char (chars s) /\ e_ip E s = true).

  Definition number_keywords (c : scfg) (x : xval) : Prop :=
    (forall f, sc_min c = Some f -> if match sc_xmin c with Some b => b | None => false end then xlt (fval f) x else xle (fval f) x) /\
    (forall f, sc_max c = Some f -> if match sc_xmax c with Some b => b | None => false end then xlt x (fval f) else xle x (fval f)) /\
    (forall f, sc_mult c = Some f -> multiple_of (fval f) x).
  Definition string_keywords (c : scfg) (s : string) : Prop :=
    (forall n, sc_minLen c = Some n -> n <= Z.of_nat (characters s)) /\
    (forall n, sc_maxLen c = Some n -> Z.of_nat (characters s) <= n) /\
    (forall rx, sc_pattern c = Some rx -> e_rx E rx s = true) /\
    json_format (sc_format c) s.
  Definition array_keywords (c : scfg) (l : list gval) : Prop :=
    (forall n, sc_minItems c = Some n -> n <= Z.of_nat (List.length l)) /\
    (forall n, sc_maxItems c = Some n -> Z.of_nat (List.length l) <= n) /\
    (sc_unique c = Some true -> forall i j x y, nth_error l i = Some x -> nth_error l j = Some y -> json_equal x y -> i = j) /\
    (forall ts, sc_items c = Some (true, ts) -> sc_addItems c = None -> (List.length l <= List.length ts)%nat).
  (** named in properties, or matched by a pattern *)
  Definition named (c : scfg) (k : string) : Prop :=
    In k (keys (sc_props c)) \/ exists p s, In (p, s) (sc_pats c) /\ e_rx E (snd p) k = true.
  Definition object_keywords (c : scfg) (m : list (string * gval)) : Prop :=
    (forall n, sc_minProps c = Some n -> n <= Z.of_nat (List.length m)) /\
    (forall n, sc_maxProps c = Some n -> Z.of_nat (List.length m) <= n) /\
    (forall k, In k (sc_required c) -> In k (keys m)) /\
    (sc_addProps c = None -> forall k, In k (keys m) -> named c k) /\
    (forall k ds d, In k (keys m) -> sget k (sc_depNames c) = Some ds -> In d ds -> In d (keys m)).

  Definition Local (c : scfg) (v : gval) : Prop :=
    (sc_type c <> [] -> exists t, In t (sc_type c) /\ has_type t v) /\
    (sc_enum c <> [] -> exists e, In e (sc_enum c) /\ json_equal e v) /\
    (forall f, v = gfloat f -> number_keywords c (fval f)) /\
    (forall s, v = gstr s -> string_keywords c s) /\
    (forall l, v = gslice l -> array_keywords c l) /\
    (forall m, v = gmap m -> object_keywords c m).

  (** ** Keywords that hand parts of the value, or the value itself, to other schemas *)
  Definition item_schema (c : scfg) (j : nat) (s : schema) : Prop :=
    match sc_items c with
    | None => False
    | Some (false, l) => hd_error l = Some s
    | Some (true, l) =>
        match nth_error l j with
        | Some s' => s = s'
        | None => sc_addItems c = Some s /\ s <> SNil
        end
    end.
  Inductive Below (c : scfg) : gval -> schema -> gval -> Prop :=
  | bl_all v s : In s (sc_allOf c) -> Below c v s v
  | bl_item l j x s : nth_error l j = Some x -> item_schema c j s -> Below c (gslice l) s x
  | bl_prop m k x s : sget k m = Some x -> sget k (sc_props c) = Some s -> Below c (gmap m) s x
  | bl_pattern m k x p s : sget k m = Some x -> In (p, s) (sc_pats c) -> e_rx E (snd p) k = true -> Below c (gmap m) s x
  | bl_additional m k x s : sget k m = Some x -> ~ named c k -> sc_addProps c = Some s -> s <> SNil -> Below c (gmap m) s x
  | bl_dependency m k s : In k (keys m) -> sget k (sc_depSchemas c) = Some s -> Below c (gmap m) s (gmap m).

  (** ** The meaning; [any], [one], [l1] and [l2] are witnesses *)
  Inductive Valid : schema -> gval -> Prop :=
  | va_ref c s v : sc_ref c <> ""%string -> Def D root (sc_ref c) s -> Valid s v -> Valid (Sch c) v
  | va_keywords c v any one l1 l2 : sc_ref c = ""%string ->
      Local c v ->
      (forall s x, Below c v s x -> Valid s x) ->
      (sc_not c <> SNil -> Invalid (sc_not c) v) ->
      (sc_anyOf c <> [] -> In any (sc_anyOf c)) -> (sc_anyOf c <> [] -> Valid any v) ->
      (sc_oneOf c <> [] -> sc_oneOf c = l1 ++ one :: l2) -> (sc_oneOf c <> [] -> Valid one v) ->
      (forall s, sc_oneOf c <> [] -> In s (l1 ++ l2) -> Invalid s v) ->
      Valid (Sch c) v
  with Invalid : schema -> gval -> Prop :=
  | iv_ref c s v : sc_ref c <> ""%string -> Def D root (sc_ref c) s -> Invalid s v -> Invalid (Sch c) v
  | iv_local c v : sc_ref c = ""%string -> ~ Local c v -> Invalid (Sch c) v
  | iv_below c v s x : sc_ref c = ""%string -> Below c v s x -> Invalid s x -> Invalid (Sch c) v
  | iv_not c v : sc_ref c = ""%string -> sc_not c <> SNil -> Valid (sc_not c) v -> Invalid (Sch c) v
  | iv_any c v : sc_ref c = ""%string -> sc_anyOf c <> [] -> (forall s, In s (sc_anyOf c) -> Invalid s v) -> Invalid (Sch c) v
  | iv_none c v : sc_ref c = ""%string -> sc_oneOf c <> [] -> (forall s, In s (sc_oneOf c) -> Invalid s v) -> Invalid (Sch c) v
  | iv_two c v l1 s1 l2 s2 l3 : sc_ref c = ""%string -> sc_oneOf c = l1 ++ s1 :: l2 ++ s2 :: l3 ->
      Valid s1 v -> Valid s2 v -> Invalid (Sch c) v.
End Meaning.

Scheme Valid_mut := Minimality for Valid Sort Prop
  with Invalid_mut := Minimality for Invalid Sort Prop.

(** ** Schemas on which the builder and Validate follow this meaning.  Each restriction
    excludes a feature where they are shown to deviate (Refuted.v, BuildCases.v). *)
Section Plain.
  Context (E : env) (D : resolver) (root : schema).

  (** s' is s, occurs in s or in a definition s refers to *)
  Inductive Sub (s : schema) : schema -> Prop :=
  | sub_here : Sub s s
  | sub_kid c x : Sub s (Sch c) -> sc_ref c = ""%string -> Kid c x -> Sub s x
  | sub_def c x : Sub s (Sch c) -> sc_ref c <> ""%string -> Def D root (sc_ref c) x -> Sub s x.

  (** no default declared anywhere in s *)
  Definition clean (s : schema) : Prop := forall c, Sub s (Sch c) -> sc_ref c = ""%string -> sc_default c = GNil.

  Definition scalar_json (v : gval) : Prop :=
    json v /\ (forall l, v <> gslice l) /\ (forall m, v <> gmap m).
  Definition no_guess (c : scfg) : Prop := guess c = [] /\ sc_depNames c = [] /\ sc_depSchemas c = [].
  (** a string schema: strings only, no combinators *)
  Definition text_schema (s : schema) : Prop :=
    exists c, s = Sch c /\ sc_ref c = ""%string /\ sc_type c = [TString] /\ sc_not c = SNil /\
      sc_allOf c = [] /\ sc_anyOf c = [] /\ sc_oneOf c = [].
  (** s is one of the schemas for members called k *)
  Definition For (c : scfg) (k : string) (s : schema) : Prop :=
    sget k (sc_props c) = Some s \/ exists p, In (p, s) (sc_pats c) /\ e_rx E (snd p) k = true.

  Record plain (bytes : bool) (c : scfg) : Prop := {
    (* types stated, or nothing there to guess a type from *)
    pl_type : sc_type c <> [] \/ no_guess c;
    (* one combinator keyword at most, with no defaults below *)
    pl_not : sc_not c <> SNil -> sc_allOf c = [] /\ sc_anyOf c = [] /\ sc_oneOf c = [];
    pl_all : sc_allOf c <> [] -> sc_anyOf c = [] /\ sc_oneOf c = [];
    pl_any : sc_anyOf c <> [] -> sc_oneOf c = [];
    pl_comb : forall x, In x (comb_kids c) -> clean x;
    pl_types : (2 <= List.length (types_of c))%nat -> forall x, Kid c x -> clean x;
    pl_default : json (sc_default c);
    (* enumerations of scalars, of strings and integers only *)
    pl_enum : forall e, In e (sc_enum c) -> scalar_json e;
    pl_enum_type : sc_enum c <> [] -> forall t, In t (types_of c) -> t = TString \/ t = TInteger;
    pl_min : forall f, sc_min c = Some f -> valid64 f = true /\ finite f;
    pl_max : forall f, sc_max c = Some f -> valid64 f = true /\ finite f;
    pl_mult : forall f, sc_mult c = Some f -> valid64 f = true /\ finite f /\ ~ xeq (fval f) (XQ 0);
    (* lengths count bytes in the code *)
    pl_minLen : forall n, sc_minLen c = Some n -> bytes = true /\ 0 <= n;
    pl_maxLen : forall n, sc_maxLen c = Some n -> bytes = true /\ 0 <= n;
    pl_format : sc_format c <> "ipv6"%string /\ sc_format c <> "date-time"%string /\ sc_format c <> "datetime"%string;
    pl_minItems : forall n, sc_minItems c = Some n -> 0 <= n;
    pl_maxItems : forall n, sc_maxItems c = Some n -> 0 <= n;
    pl_unique : sc_unique c = Some true -> exists x l, sc_items c = Some (false, x :: l) /\ text_schema x;
    pl_tuple : forall l, sc_items c = Some (true, l) -> l <> [] /\ (sc_addItems c = None \/ sc_addItems c = Some SNil);
    pl_minProps : forall n, sc_minProps c = Some n -> 0 <= n;
    pl_maxProps : forall n, sc_maxProps c = Some n -> 0 <= n;
    pl_required : forall k, In k (sc_required c) -> In k (keys (sc_props c));
    pl_for : forall k s1 s2, For c k s1 -> For c k s2 -> s1 = s2;
    pl_depNames : forall k ds d, sget k (sc_depNames c) = Some ds -> In d ds -> named E c k /\ named E c d;
    pl_depSchemas : forall k s, sget k (sc_depSchemas c) = Some s ->
      named E c k /\ (forall ds, sget k (sc_depNames c) = Some ds -> ds = []) /\ forall x, Kid c x -> clean x
  }.
  Definition all_plain (bytes : bool) (s : schema) : Prop :=
    forall c, Sub s (Sch c) -> sc_ref c = ""%string -> plain bytes c.
End Plain.

(** the strings that are values in a document *)
Inductive Occurs : gval -> string -> Prop :=
| oc_here s : Occurs (gstr s) s
| oc_item l x s : In x l -> Occurs x s -> Occurs (gslice l) s
| oc_member m k x s : sget k m = Some x -> Occurs x s -> Occurs (gmap m) s.
Definition one_byte (v : gval) : Prop := forall s, Occurs v s -> characters s = String.length s.
