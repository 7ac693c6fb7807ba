(** Order-free declarative meaning of constraints on decoded documents.

    [sem n E c v (Some v')]: c accepts v and turns it into v' (v' differs from v only by
    inserted defaults); [sem n E c v None]: c rejects v.  n bounds the height of the
    derivation; [Accepts]/[Rejects] quantify it away.  Nothing here iterates over maps:
    an object is described by what holds for each property name. *)
From Verif Require Import Base GoFloat GoValue Formats HostSpec Constraint Reach.
From Verif Require Import Validate. (* only for [sprint], the text of fmt's %s *)
Open Scope Z_scope.

(** ** Scalars *)
Definition opt {A} (P : A -> Prop) (o : option A) : Prop := match o with None => True | Some x => P x end.

Definition listed (l : list gval) (v : gval) : Prop := exists e, In e l /\ ieq e v = Some true.

(** bounds and divisibility with Go's float64 operators; FloatProofs.v gives their
    meaning over the reals *)
Definition num_ok (c : numcfg) (f : f64) : Prop :=
  (n_amin c = true -> (if n_xmin c then fle f (n_min c) else flt f (n_min c)) = false) /\
  (n_amax c = true -> (if n_xmax c then fle (n_max c) f else flt (n_max c) f) = false) /\
  (n_amul c = true -> feq (n_mul c) fzero = true \/ feq (fmod f (n_mul c)) fzero = true) /\
  opt (fun l => listed l (gfloat f)) (n_enum c).

Definition format_ok (E : env) (fmt s : string) : Prop :=
  (fmt = "datetime"%string -> exists t, e_time E s = inl t) /\
  (fmt = "email"%string -> e_email E s = None) /\
  (fmt = "hostname"%string -> hostname s) /\
  (fmt = "ipv4"%string -> over (DIGITS ++ ".") s /\ e_ip E s = true) /\
  (fmt = "ipv6"%string -> over (DIGITS ++ ":") s /\ e_ip E s = true) /\
  (fmt = "uri"%string -> e_uri E s = true).

(** a bound below 0 is no bound *)
Definition within (lo hi n : Z) : Prop := (0 <= lo -> lo <= n) /\ (0 <= hi -> n <= hi).

Definition str_ok (E : env) (c : strcfg) (s : string) : Prop :=
  within (s_min c) (s_max c) (Z.of_nat (String.length s)) /\
  format_ok E (s_fmt c) s /\
  opt (fun rx => e_rx E rx s = true) (s_rx c) /\
  opt (fun l => listed l (gstr s)) (s_enum c).

Definition widen (is32 : bool) (f : f64) : f64 := if is32 then f32_to_f64 f else f.

Definition scalar_ok (E : env) (c : constr) (v : gval) : Prop :=
  match c with
  | CNull => match v with GNil | GSlice _ _ None | GMap _ _ _ _ None => True | _ => False end
  | CBool _ => match v with GBool _ _ => True | _ => False end
  | CStr _ s => match v with GStr _ x => str_ok E s x | _ => False end
  | CNum _ m => match v with GFloat _ is32 f => num_ok m (widen is32 f) | _ => False end
  | CInt _ m =>
      match v with
      | GInt _ _ z | GUint _ _ z => num_ok m (f64_of_Z z)
      | GFloat _ is32 f => feq (ffloor (widen is32 f)) (widen is32 f) = true /\ num_ok m (widen is32 f)
      | _ => False
      end
  | CEnum l => listed l v
  | _ => False
  end.

(** ** Sequences *)
Inductive Chain (A : constr -> gval -> gval -> Prop) : list constr -> gval -> gval -> Prop :=
| chain_nil v : Chain A [] v v
| chain_cons c l v v1 v2 : A c v v1 -> Chain A l v1 v2 -> Chain A (c :: l) v v2.

(** ** Arrays *)
(** the constraints the element at index j of n is checked against *)
Definition elem_cs (a : arrcfg) (n j : nat) : list constr :=
  match a_items a with
  | CNil =>
      let lp := List.length (a_pos a) in
      match nth_error (a_pos a) j with Some c => [c] | None => [] end ++
      (if (0 <? lp)%nat && (lp <? n)%nat && (lp - 1 <=? j)%nat then [a_add a] else [])
  | c => [c]
  end.

(** more elements than positions, and no constraint for the rest *)
Definition too_many (a : arrcfg) (n : nat) : Prop :=
  a_items a = CNil /\ a_add a = CNil /\ (0 < List.length (a_pos a) < n)%nat.

Definition arr_sem (A : constr -> gval -> gval -> Prop) (R : constr -> gval -> Prop)
    (E : env) (a : arrcfg) (v : gval) (o : option gval) : Prop :=
  match v with
  | GSlice T i ol =>
      let l := match ol with None => [] | Some l => l end in
      let n := List.length l in
      match o with
      | Some v' =>
          within (a_min a) (a_max a) (Z.of_nat n) /\
          (a_uniq a = true -> NoDup (map (sprint E true) l)) /\
          ~ too_many a n /\
          exists l', v' = GSlice T i (match ol with None => None | Some _ => Some l' end) /\
            List.length l' = n /\
            forall j x x', nth_error l j = Some x -> nth_error l' j = Some x' -> Chain A (elem_cs a n j) x x'
      | None =>
          ~ within (a_min a) (a_max a) (Z.of_nat n) \/
          (a_uniq a = true /\ ~ NoDup (map (sprint E true) l)) \/
          too_many a n \/
          exists j x c1 c c2 x1, nth_error l j = Some x /\ elem_cs a n j = c1 ++ c :: c2 /\
            Chain A c1 x x1 /\ R c x1
      end
  | _ => o = None
  end.

(** ** Objects *)
(** the constraint that governs property k: its own if it is listed, otherwise that of a
    pattern matching it, otherwise the one for additional properties *)
Definition governs (E : env) (o : objcfg) (k : string) (c : constr) : Prop :=
  match sget k (o_props o) with
  | Some c' => c = c'
  | None =>
      (exists p, In (p, c) (o_pats o) /\ e_rx E (snd p) k = true) \/
      ((forall p c', In (p, c') (o_pats o) -> e_rx E (snd p) k = false) /\ c = o_add o /\ c <> CNil)
  end.

(** a present property that is listed or matched by a pattern *)
Definition seen (E : env) (o : objcfg) (m : list (string * gval)) (k : string) : Prop :=
  In k (keys m) /\
  (In k (keys (o_props o)) \/ exists p c, In (p, c) (o_pats o) /\ e_rx E (snd p) k = true).

(** what an absent listed property becomes *)
Definition filled (E : env) (c : constr) (ox : option gval) : Prop :=
  (exists d, Default E c d /\ ox = match d with GNil => None | _ => Some d end) \/
  ((forall d, ~ Default E c d) /\ ox = None).

Definition count_ok (o : objcfg) (m : list (string * gval)) : Prop :=
  within (o_min o) (o_max o) (Z.of_nat (List.length m)).

(** properties of m are all fine, and m1 is the result *)
Definition props_sem (A : constr -> gval -> gval -> Prop) (E : env) (o : objcfg)
    (m m1 : list (string * gval)) : Prop :=
  count_ok o m /\ ssorted m1 /\
  (forall k x, sget k m = Some x -> exists c x', governs E o k c /\ sget k m1 = Some x' /\ A c x x') /\
  (forall k, sget k m = None ->
     match sget k (o_props o) with
     | Some c => is_required o k = false /\ filled E c (sget k m1)
     | None => sget k m1 = None
     end).

Definition obj_sem (A : constr -> gval -> gval -> Prop) (R : constr -> gval -> Prop)
    (E : env) (o : objcfg) (v : gval) (out : option gval) : Prop :=
  match v with
  | GMap T kk i ET (Some m) =>
      match out with
      | Some v' =>
          exists m1, v' = GMap T kk i ET (Some m1) /\ props_sem A E o m m1 /\
            (forall k d, seen E o m k -> In d (prop_deps o k) -> seen E o m d) /\
            (forall k, seen E o m k -> prop_deps o k = [] -> schema_dep o k <> CNil ->
               A (schema_dep o k) v' v')
      | None =>
          ~ count_ok o m \/
          (exists k, In k (keys (o_props o)) /\ sget k m = None /\ is_required o k = true) \/
          (exists k, In k (keys m) /\ forall c, ~ governs E o k c) \/
          (exists k c x, governs E o k c /\ sget k m = Some x /\ R c x) \/
          (exists k d, seen E o m k /\ In d (prop_deps o k) /\ ~ seen E o m d) \/
          (exists k m1, props_sem A E o m m1 /\ seen E o m k /\ prop_deps o k = [] /\
             schema_dep o k <> CNil /\ R (schema_dep o k) (GMap T kk i ET (Some m1)))
      end
  | _ => out = None
  end.

(** ** All constraints *)
Fixpoint sem (n : nat) (E : env) (c : constr) (v : gval) (out : option gval) : Prop :=
  match n with
  | O => False
  | S n' =>
      let A := fun c v v' => sem n' E c v (Some v') in
      let R := fun c v => sem n' E c v None in
      match c with
      | CNil => False
      | CEmpty => out = Some v
      | CNull | CBool _ | CStr _ _ | CNum _ _ | CInt _ _ | CEnum _ =>
          match out with
          | Some v' => v' = v /\ scalar_ok E c v
          | None => ~ scalar_ok E c v
          end
      | CArr a => arr_sem A R E a v out
      | CObj o => obj_sem A R E o v out
      | CAll l =>
          match out with
          | Some v' => Chain A l v v'
          | None => exists l1 x l2 v1, l = l1 ++ x :: l2 /\ Chain A l1 v v1 /\ R x v1
          end
      | CAny l =>
          match out with
          | Some v' => v' = v /\ exists x, In x l /\ A x v v
          | None => forall x, In x l -> R x v
          end
      | COneOf l =>
          match out with
          | Some v' => v' = v /\ exists l1 x l2, l = l1 ++ x :: l2 /\ A x v v /\
                       forall y, In y (l1 ++ l2) -> R y v
          | None => (forall x, In x l -> R x v) \/
                    (exists l1 x l2 y l3, l = l1 ++ x :: l2 ++ y :: l3 /\ A x v v /\ A y v v)
          end
      | CNot x =>
          match out with
          | Some v' => v' = v /\ R x v
          | None => x = CNil \/ A x v v
          end
      | CRef name =>
          match e_refs E name with
          | None => out = None
          | Some x => sem n' E x v out
          end
      end
  end.

Definition Accepts (E : env) (c : constr) (v v' : gval) : Prop := exists n, sem n E c v (Some v').
Definition Rejects (E : env) (c : constr) (v : gval) : Prop := exists n, sem n E c v None.

(** ** Documents: trees of nil, scalars, slices and string-keyed maps with interface
    elements (everything encoding/json builds when decoding into interface{}, plus named
    scalar types and all integer kinds) *)
Inductive jdoc : gval -> Prop :=
| jd_nil : jdoc GNil
| jd_bool T b : jdoc (GBool T b)
| jd_int T k z : jdoc (GInt T k z)
| jd_uint T k z : jdoc (GUint T k z)
| jd_float T i f : jdoc (GFloat T i f)
| jd_str T s : jdoc (GStr T s)
| jd_slice_nil T i : jdoc (GSlice T i None)
| jd_slice T i l : (forall x, In x l -> jdoc x) -> jdoc (GSlice T i (Some l))
| jd_map T ET m : ssorted m -> (forall k x, sget k m = Some x -> jdoc x) ->
    jdoc (GMap T KString true ET (Some m)).

(** ** Conditions on constraints *)
Definition comparables (l : list gval) : Prop := forall e, In e l -> uncomparable e = false.

(** well-formedness of one node: no nil children where Go would call a method on them,
    enumerations of comparable values, defaults that are documents *)
Definition node_ok (E : env) (c : constr) : Prop :=
  match c with
  | CStr _ s => opt comparables (s_enum s)
  | CNum _ m | CInt _ m => opt comparables (n_enum m)
  | CEnum l => comparables l
  | CArr a => ~ In CNil (a_pos a)
  | CObj o =>
      ssorted (o_props o) /\
      (forall k x, In (k, x) (o_props o) -> x <> CNil) /\
      (forall p x, In (p, x) (o_pats o) -> x <> CNil) /\
      (forall k x d, In (k, x) (o_props o) -> Default E x d -> jdoc d)
  | CAny l | CAll l | COneOf l => ~ In CNil l
  | CRef n => e_refs E n <> Some CNil
  | _ => True
  end.

(** no default can be inserted below Any, OneOf, Not or a schema dependency *)
Definition node_quiet (E : env) (c : constr) : Prop :=
  match c with
  | CAny l | COneOf l => forall x, In x l -> pure E x
  | CNot x => pure E x
  | CObj o => forall k, schema_dep o k <> CNil -> pure E (schema_dep o k)
  | _ => True
  end.

(** no unlisted property name is matched by two patterns of one object *)
Definition node_single (E : env) (c : constr) : Prop :=
  match c with
  | CObj o =>
      forall k p1 c1 p2 c2, sget k (o_props o) = None ->
        In (p1, c1) (o_pats o) -> In (p2, c2) (o_pats o) ->
        e_rx E (snd p1) k = true -> e_rx E (snd p2) k = true -> c1 = c2
  | _ => True
  end.

Definition wf (E : env) (c : constr) : Prop :=
  c <> CNil /\ Deep E (fun x => x = CNil \/ node_ok E x /\ node_quiet E x) c.
Definition single (E : env) (c : constr) : Prop := Deep E (node_single E) c.
