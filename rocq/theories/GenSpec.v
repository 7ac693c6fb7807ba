(** What a round trip through generated code is expected to do to a constraint, stated without
    the generator: [regen] is the constraint the generated code builds, [emittable] says for
    which constraints the generator writes usable code, [faithful] for which of them nothing
    that matters to validation gets lost. *)
From Verif Require Import Base GoFloat GoValue Maybe Formats Constraint StructInfo Validate GoText GoEval.
Open Scope Z_scope.

Definition allp {A} (P : A -> Prop) : list A -> Prop :=
  fix go l := match l with [] => True | x :: r => P x /\ go r end.

(** no '%' (the text goes through Fprintf as a format) *)
Definition no_percent (s : string) : Prop := forall a b, s <> a +++ String "%" b.

(** a float printed with six decimals and read as a Go constant; None: not a number or too large *)
Definition printed (f : f64) : option f64 :=
  match f with
  | S754_zero _ => Some (S754_zero false)
  | S754_finite s m e => dec_f64 (if s then - scaled m e else scaled m e) 6
  | _ => None
  end.
Definition reread (f : f64) : f64 := match printed f with Some g => g | None => f end.
(** a float cut to an integer and read as an untyped integer constant *)
Definition cut (f : f64) : f64 := f64_of_Z (f64_to_int64 f).

Definition regen_item (v : gval) : gval :=
  match v with
  | GBool _ b => gbool b
  | GStr _ s => gstr s
  | GInt _ _ z => GInt "int" Kint z
  | GFloat _ is32 f => gfloat (reread (rv_float is32 f))
  | _ => v
  end.
Definition regen_str (c : strcfg) : strcfg :=
  {| s_max := if -1 <? s_max c then s_max c else -1;
     s_min := if 0 <? s_min c then s_min c else 0;
     s_rx := s_rx c; s_fmt := s_fmt c; s_enum := option_map (map regen_item) (s_enum c) |}.
(** multipleOf and the enumeration are dropped *)
Definition regen_num (rd : f64 -> f64) (c : numcfg) : numcfg :=
  {| n_amin := n_amin c; n_amax := n_amax c; n_amul := false;
     n_min := if n_amin c then rd (n_min c) else fzero;
     n_max := if n_amax c then rd (n_max c) else fzero;
     n_mul := fzero; n_xmin := n_xmin c; n_xmax := n_xmax c; n_enum := None |}.

Definition is_nil (c : constr) : bool := match c with CNil => true | _ => false end.

Fixpoint regen (c : constr) : constr :=
  match c with
  | CBool d => CBool (option_map regen_item d)
  | CStr d s => CStr (option_map regen_item d) (regen_str s)
  | CNum d m => CNum (option_map regen_item d) (regen_num reread m)
  (* an integer's default becomes an int *)
  | CInt d m =>
      CInt (match d with Some (GFloat _ _ f) => Some (GInt "int" Kint (f64_to_int64 f)) | _ => d end) (regen_num cut m)
  | CArr a =>
      CArr {| a_items := regen (a_items a); a_pos := map regen (a_pos a);
              a_add := if is_nil (a_add a) then CEmpty else regen (a_add a);
              a_min := if -1 <? a_min a then a_min a else -1;
              a_max := if -1 <? a_max a then a_max a else -1; a_uniq := a_uniq a |}
  (* property counts and schema dependencies are dropped *)
  | CObj o =>
      CObj {| o_add := regen (o_add o);
              o_pats := map (fun e => (fst e, regen (snd e))) (o_pats o);
              o_props := map (fun e => (fst e, regen (snd e))) (o_props o);
              o_propdeps := o_propdeps o; o_req := o_req o; o_min := -1; o_max := -1; o_sdeps := [] |}
  | CAny [] | CAll [] | COneOf [] => CEmpty
  | CAny l => CAny (map regen l)
  | CAll l => CAll (map regen l)
  | COneOf l => COneOf (map regen l)
  | c => c
  end.

Definition item_ok (v : gval) : Prop :=
  match v with
  | GStr _ s => no_percent s
  | GInt _ _ z => in_int z = true
  | GFloat _ is32 f => printed (rv_float is32 f) <> None
  | _ => False
  end.
Definition str_ok (c : strcfg) : Prop :=
  in_int (s_max c) = true /\ in_int (s_min c) = true /\ no_percent (s_fmt c) /\
  match s_rx c with Some r => no_percent r | None => True end /\
  match s_enum c with Some l => l <> [] /\ allp item_ok l | None => True end.
Definition num_ok (c : numcfg) : Prop :=
  (n_amin c = true -> printed (n_min c) <> None) /\ (n_amax c = true -> printed (n_max c) <> None).

(** [hm]: there are references, so the file declares a ConstraintMap *)
Fixpoint emittable (hm : bool) (c : constr) : Prop :=
  match c with
  | CEmpty | CNull => True
  | CBool d => match d with None | Some (GBool _ _) => True | _ => False end
  | CStr d s => match d with None => True | Some (GStr T x) => T = "string"%string /\ no_percent x | _ => False end /\ str_ok s
  | CNum d m => match d with None => True | Some (GFloat _ is32 f) => printed (rv_float is32 f) <> None | _ => False end /\ num_ok m
  | CInt d m => match d with None => True | Some (GFloat T is32 f) => T = "float64"%string /\ is32 = false | _ => False end
  | CArr a =>
      (a_items a = CNil \/ emittable hm (a_items a)) /\ (a_add a = CNil \/ emittable hm (a_add a)) /\
      allp (emittable hm) (a_pos a) /\ in_int (a_min a) = true /\ in_int (a_max a) = true
  | CObj o =>
      (o_add o = CNil \/ emittable hm (o_add o)) /\
      ssorted (o_props o) /\ allp (fun e => no_percent (fst e) /\ emittable hm (snd e)) (o_props o) /\
      (* one pattern per source *)
      NoDup (map (fun e => snd (fst e)) (o_pats o)) /\ allp (fun e => no_percent (snd (fst e)) /\ emittable hm (snd e)) (o_pats o) /\
      ssorted (o_req o) /\ allp no_percent (keys (o_req o)) /\
      ssorted (o_propdeps o) /\ allp (fun e => no_percent (fst e) /\ allp no_percent (snd e)) (o_propdeps o)
  | CAny l | CAll l | COneOf l => allp (emittable hm) l
  | CRef n => hm = true /\ no_percent n
  | CNil | CEnum _ | CNot _ => False
  end.

(** nothing is lost *)
Definition kept_bound (rd : f64 -> f64) (f : f64) : Prop := rd f = f \/ (feq f fzero = true /\ feq (rd f) fzero = true).
Definition kept_num (rd : f64 -> f64) (c : numcfg) : Prop :=
  (n_amin c = true -> kept_bound rd (n_min c)) /\ (n_amax c = true -> kept_bound rd (n_max c)) /\
  (n_amul c = true -> feq (n_mul c) fzero = true) /\ n_enum c = None.
Definition kept_item (v : gval) : Prop := match v with GStr T _ => T = "string"%string | _ => True end.

Fixpoint faithful (c : constr) : Prop :=
  match c with
  | CBool d => match d with Some (GBool T _) => T = "bool"%string | _ => True end
  | CStr _ s => match s_enum s with Some l => allp kept_item l | None => True end
  | CNum d m => match d with Some (GFloat T is32 f) => T = "float64"%string /\ is32 = false /\ reread f = f | _ => True end /\ kept_num reread m
  | CInt d m => d = None /\ kept_num cut m
  | CArr a =>
      faithful (a_items a) /\ faithful (a_add a) /\ allp faithful (a_pos a) /\
      (* a nil additionalItems does not matter when it is not used *)
      (a_add a <> CNil \/ a_items a <> CNil \/ a_pos a = [])
  | CObj o =>
      faithful (o_add o) /\ allp (fun e => faithful (snd e)) (o_props o) /\ allp (fun e => faithful (snd e)) (o_pats o) /\
      o_min o <= 0 /\ o_max o <= -1 /\ (forall k, schema_dep o k = CNil)
  | CAll l => allp faithful l
  | CAny l | COneOf l => l <> [] /\ allp faithful l
  | _ => True
  end.
