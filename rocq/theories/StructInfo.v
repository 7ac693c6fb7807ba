(** structinfo.go: struct metadata (PropInfo, extract, PropNames, FieldName) and
    reflect.Value.FieldByName. *)
From Verif Require Import Base GoFloat GoValue Maybe.
Open Scope Z_scope.

(** structinfo.go:10-15 *)
Record propinfo := { p_field : string; p_maybe : bool }.

(** structinfo.go:152-158: the scan for the first comma; returns flen *)
Fixpoint tag_flen (j flen : nat) (tag : string) : nat :=
  match tag with
  | EmptyString => flen
  | String c r => if Ascii.eqb c ","%char then flen else tag_flen (S j) j r
  end.

(** structinfo.go:144-159: the property name of a field *)
Definition prop_name (fi : finfo) : string :=
  match f_tag fi with
  | EmptyString => f_name fi
  | String c _ =>
      if Ascii.eqb c ","%char then f_name fi
      else String.substring 0 (tag_flen 0 0 (f_tag fi) + 1) (f_tag fi)
  end.

(** structinfo.go:114-165 extract; None: t.NumField panics on a non-struct embedded type *)
Definition extract_list (extract : gval -> option (list (string * propinfo))) :=
  fix go (fs : list (finfo * gval)) (props : list (string * propinfo)) :=
    match fs with
    | [] => Some props
    | (fi, x) :: r =>
        if f_anon fi then
          if f_iface fi then None
          else match extract x with
               | None => None
               | Some info => go r (fold_left (fun m kv => sset (fst kv) (snd kv) m) info props)
               end
        else if negb (f_exported fi) then go r props
        else if String.eqb (f_tag fi) "-" then go r props
        else go r (sset (prop_name fi)
                        {| p_field := f_name fi; p_maybe := is_maybe (RV (f_iface fi) x) |} props)
    end.

Fixpoint extract (v : gval) : option (list (string * propinfo)) :=
  match v with
  | GStruct _ fs => extract_list extract fs []
  | GTime _ => Some []          (* time.Time: all fields unexported *)
  | _ => None                   (* MaybeX embeds ValidFlag (kind bool): NumField panics *)
  end.

(** structinfo.go:27-36 StructInfo.FieldName *)
Definition field_name (props : list (string * propinfo)) (pname : string) : option string :=
  option_map p_field (sget pname props).

(** reflect: all fields reachable through embedded structs, with depth and path *)
Definition flat_list (flat : nat -> list nat -> gval -> list (nat * list nat * (finfo * gval))) :=
  fix go (d i : nat) (path : list nat) (fs : list (finfo * gval)) :=
    match fs with
    | [] => []
    | (fi, x) :: r =>
        (d, path ++ [i], (fi, x)) ::
        (if f_anon fi && negb (f_iface fi) then flat (S d) (path ++ [i]) x else [])
        ++ go d (S i) path r
    end.

Fixpoint flat (d : nat) (path : list nat) (v : gval) : list (nat * list nat * (finfo * gval)) :=
  match v with
  | GStruct _ fs => flat_list flat d 0 path fs
  | _ => []
  end.

Definition min_depth (l : list (nat * list nat * (finfo * gval))) : nat :=
  fold_right (fun e m => Nat.min (fst (fst e)) m) (match l with [] => 0%nat | e :: _ => fst (fst e) end) l.

(** reflect.Value.FieldByName: the unique field of that name at the shallowest depth,
    otherwise the zero Value.  Returns the path and the Value. *)
Definition field_by_name (v : gval) (name : string) : option (list nat * (finfo * gval)) :=
  let cands := filter (fun e => String.eqb (f_name (fst (snd e))) name) (flat 0 [] v) in
  let d := min_depth cands in
  match filter (fun e => Nat.eqb (fst (fst e)) d) cands with
  | [(_, path, e)] => Some (path, e)
  | _ => None
  end.

(** structinfo.go:41-59 PropNames; None: panic (Valid called on something that is not a
    usable Maybe) *)
Definition prop_names (props : list (string * propinfo)) (v : gval) : option (list string) :=
  fold_right (fun kv acc =>
    match acc with
    | None => None
    | Some l =>
        if p_maybe (snd kv) then
          match field_by_name v (p_field (snd kv)) with
          | Some (_, (fi, x)) =>
              match maybe_of (RV (f_iface fi) x) with
              | Some m => if m_valid m then Some (fst kv :: l) else Some l
              | None => None
              end
          | None => None
          end
        else Some (fst kv :: l)
    end) (Some []) props.

(** replace the value at a field path *)
Fixpoint set_nth_field (i : nat) (f : gval -> gval) (fs : list (finfo * gval)) : list (finfo * gval) :=
  match fs, i with
  | [], _ => []
  | (fi, x) :: r, O => (fi, f x) :: r
  | e :: r, S j => e :: set_nth_field j f r
  end.

Fixpoint set_path (path : list nat) (y : gval) (v : gval) : gval :=
  match path with
  | [] => y
  | i :: p =>
      match v with
      | GStruct T fs => GStruct T (set_nth_field i (set_path p y) fs)
      | _ => v
      end
  end.
