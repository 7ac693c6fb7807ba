(** Validation of a struct whose type has GetPropNames, GetPropValue or SetPropValue
    methods (object.go:11-19, 180-186, 229-253, 296-303).

    The methods are arbitrary functions on an abstract state S (the struct together with
    whatever its methods reach).  They count only when declared with a value receiver:
    object.go:181, 246 and 298 ask the struct itself, also when Validate was given a
    pointer to it.  Types of other kinds (say a map type with methods) are handled by
    Validate.v, because getPropNames, getProp and setProp look at the kind first.
    Simplified: the values of the properties are the values of GoValue.v, so they are
    not themselves structs with such methods. *)
From Verif Require Import Base GoFloat GoValue Maybe Formats Constraint StructInfo Validate.
Open Scope Z_scope.

Record custom (S : Type) := {
  c_self : S -> gval;                          (* what the other constraints and package structinfo see *)
  c_names : S -> option (list string);         (* GetPropNames; None: no such method, or it returned an error *)
  c_get : S -> string -> option gval;          (* GetPropValue; None: no such method, or it returned an error *)
  c_set : option (S -> string -> gval -> S + string);  (* SetPropValue; None: no such method *)
  c_put : S -> string -> gval -> S;            (* how S looks once the value GetPropValue handed out has become y *)
  c_with : S -> gval -> S                      (* how S looks once the struct itself was changed by package reflect *)
}.
Arguments c_self {S}. Arguments c_names {S}. Arguments c_get {S}. Arguments c_set {S}.
Arguments c_put {S}. Arguments c_with {S}.

(** "for _, k := range fields { premain[k] = struct{}{} }" (object.go:358-362): the names
    as a set; the order is that of all maps of the model *)
Definition canon (l : list string) : list string :=
  keys (fold_left (fun (m : list (string * unit)) k => sset k tt m) l []).

Section Custom.
Context {S : Type} (C : custom S).

(** object.go:180-193 *)
Definition cnames (s : S) : gres (list string) :=
  match c_names C s with
  | Some l => GOk l
  | None => get_names (deref1 (c_self C s))
  end.

(** object.go:296-317; reflect.ValueOf(nil) is the zero Value *)
Definition cget (s : S) (k : string) : option rval :=
  match c_get C s k with
  | Some x => Some (valueOf x)
  | None => get_prop (deref1 (c_self C s)) k
  end.

(** object.go:245-285.  Without SetPropValue, a property GetPropValue answers for is not
    addressable; simplified: a pointer to a Maybe handed out by GetPropValue could be set *)
Definition cset (E : env) (s : S) (k : string) (d : gval) : gres S :=
  match c_set C with
  | Some f =>
      match d with
      | GNil => GPanic "reflect: Call using zero Value argument"
      | _ => match f s k d with inl s' => GOk s' | inr m => GErr m end
      end
  | None =>
      match c_get C s k with
      | Some GNil => GErr ("setProp: could not find field '" +++ k +++ "'")
      | Some _ => GPanic "reflect: Set using unaddressable value"
      | None =>
          match set_prop E (c_self C s) k d with
          | GOk x => GOk (c_with C s x)
          | GErr m => GErr m
          | GPanic m => GPanic m
          end
      end
  end.

(** the value of a property was changed through the maps and pointers in it *)
Definition cput (s : S) (k : string) (y : gval) : S :=
  match c_get C s k with
  | Some _ => c_put C s k y
  | None => c_with C s (put_prop (c_self C s) k y)
  end.

Definition cout := (res * S * orc)%type.
Definition crecT := constr -> S -> orc -> cout.
Definition cstate := (S * list string * list string)%type.

(** The loops below are those of Validate.v with the accesses above; [rec] validates the
    values of properties, [crec] the object itself. *)

(** combinations.go:82-94 *)
Fixpoint call_loop (crec : crecT) (cs : list constr) (s : S) (w : orc) : cout :=
  match cs with
  | [] => (Pass, s, w)
  | c :: r =>
      match crec c s w with
      | (Pass, s', w') => call_loop crec r s' w'
      | o => o
      end
  end.

(** combinations.go:49-60 *)
Fixpoint cany_loop (crec : crecT) (cs : list constr) (s : S) (w : orc) : cout :=
  match cs with
  | [] => (Fail "could not validate against any of the constraints", s, w)
  | c :: r =>
      match crec c s w with
      | (Fail _, s', w') => cany_loop crec r s' w'
      | o => o
      end
  end.

(** combinations.go:116-135 *)
Fixpoint coneof_loop (crec : crecT) (cs : list constr) (count : nat) (s : S) (w : orc) : cout :=
  match cs with
  | [] =>
      (match count with
       | O => Fail "none of the constraints passed"
       | 1%nat => Pass
       | _ => Fail "more than 1 of the constraints passed"
       end, s, w)
  | c :: r =>
      match crec c s w with
      | (Pass, s', w') => coneof_loop crec r (Datatypes.S count) s' w'
      | (Fail _, s', w') => coneof_loop crec r count s' w'
      | o => o
      end
  end.

(** basic.go:76-90 *)
Definition cnot (crec : crecT) (c : constr) (s : S) (w : orc) : cout :=
  match c with
  | CNil => (Fail "'not' constraint does not have a child constraint", s, w)
  | _ =>
      match crec c s w with
      | (Pass, s', w') => (Fail "'not' validation failed", s', w')
      | (Fail _, s', w') => (Pass, s', w')
      | o => o
      end
  end.

(** object.go:373-435 *)
Fixpoint cprops (rec : recT) (gd : constr -> dres) (E : env) (o : objcfg)
    (ps : list (string * constr)) (st : cstate) (w : orc) : res * cstate * orc :=
  match ps with
  | [] => (Pass, st, w)
  | (k, c) :: r =>
      let '(s, premain, pseen) := st in
      match cget s k with
      | None => (Panic "getProp", st, w)
      | Some pv =>
          match look_prop pv with
          | LPanic => (Panic "Maybe.Valid", st, w)
          | LMissing =>
              if is_required o k
              then (Fail ("object property '" +++ k +++ "' is required"), st, w)
              else match gd c with
              | DOOF => (OOF, st, w)
              | DPanic => (Panic "nil Constraint", st, w)
              | DNone => cprops rec gd E o r st w
              | DSome d =>
                  match cset E s k d with
                  | GOk s' => cprops rec gd E o r (s', premain, pseen) w
                  | GErr m => (Fail ("failed to set default value for property '" +++ k +++ "': " +++ m), st, w)
                  | GPanic m => (Panic m, st, w)
                  end
              end
          | LHere unwrapped x =>
              let premain' := remove_s k premain in
              let pseen' := k :: pseen in
              match rec c x w with
              | (rs, x', w') =>
                  let s' := if unwrapped then s else cput s k x' in
                  match rs with
                  | Pass => cprops rec gd E o r (s', premain', pseen') w'
                  | Fail m => (Fail ("object property '" +++ k +++ "' validation failed: " +++ m), (s', premain', pseen'), w')
                  | _ => (rs, (s', premain', pseen'), w')
                  end
              end
          end
      end
  end.

(** object.go:441-460 *)
Fixpoint cpat (rec : recT) (E : env) (src : string) (c : constr) (ns : list string)
    (st : cstate) (w : orc) : res * cstate * orc :=
  match ns with
  | [] => (Pass, st, w)
  | k :: r =>
      let '(s, premain, pseen) := st in
      if negb (e_rx E src k) then cpat rec E src c r st w
      else match cget s k with
      | None => (Panic "getProp", st, w)
      | Some pv =>
          let premain' := remove_s k premain in
          let pseen' := k :: pseen in
          match interface pv with
          | None => (Panic "reflect: Interface of zero Value", (s, premain', pseen'), w)
          | Some x =>
              match rec c x w with
              | (rs, x', w') =>
                  let s' := cput s k x' in
                  match rs with
                  | Pass => cpat rec E src c r (s', premain', pseen') w'
                  | Fail m => (Fail ("object property '" +++ k +++ "' validation failed: " +++ m), (s', premain', pseen'), w')
                  | _ => (rs, (s', premain', pseen'), w')
                  end
              end
          end
      end
  end.

(** object.go:437-461 *)
Fixpoint cpats (rec : recT) (E : env) (ps : list ((nat * string) * constr))
    (st : cstate) (w : orc) : res * cstate * orc :=
  match ps with
  | [] => (Pass, st, w)
  | ((_, src), c) :: r =>
      let '(s, premain, pseen) := st in
      let '(ns, w1) := shuffle w premain in
      match cpat rec E src c ns st w1 with
      | (Pass, st', w2) => cpats rec E r st' w2
      | o => o
      end
  end.

(** object.go:469-474 *)
Fixpoint cadd (rec : recT) (c : constr) (ns : list string) (s : S) (w : orc) : cout :=
  match ns with
  | [] => (Pass, s, w)
  | k :: r =>
      match cget s k with
      | None => (Panic "getProp", s, w)
      | Some pv =>
          match interface pv with
          | None => (Panic "reflect: Interface of zero Value", s, w)
          | Some x =>
              match rec c x w with
              | (rs, x', w') =>
                  let s' := cput s k x' in
                  match rs with
                  | Pass => cadd rec c r s' w'
                  | Fail m => (Fail ("object property for '" +++ k +++ "' validation failed: " +++ m), s', w')
                  | _ => (rs, s', w')
                  end
              end
          end
      end
  end.

(** "c == nil" *)
Definition no_constr (c : constr) : bool := match c with CNil => true | _ => false end.

(** object.go:463-475 *)
Definition cextra (rec : recT) (o : objcfg) (premain : list string) (s : S) (w : orc) : cout :=
  match premain with
  | [] => (Pass, s, w)
  | _ :: _ =>
      if no_constr (o_add o) then (Fail "additional properties are not allowed", s, w)
      else
        let '(ns, w') := shuffle w premain in
        cadd rec (o_add o) ns s w'
  end.

(** object.go:477-497 *)
Fixpoint cdeps (crec : crecT) (o : objcfg) (pseen ns : list string) (s : S) (w : orc) : cout :=
  match ns with
  | [] => (Pass, s, w)
  | k :: r =>
      match prop_deps o k with
      | (_ :: _) as deps =>
          match missing_dep pseen deps with
          | Some d => (Fail ("required dependency '" +++ d +++ "' is mising"), s, w)
          | None => cdeps crec o pseen r s w
          end
      | [] =>
          if no_constr (schema_dep o k) then cdeps crec o pseen r s w
          else match crec (schema_dep o k) s w with
               | (Pass, s', w') => cdeps crec o pseen r s' w'
               | x => x
               end
      end
  end.

(** object.go:324-500; minProperties and maxProperties count the list of names, the rest
    works on the set *)
Definition cobj (rec : recT) (crec : crecT) (gd : constr -> dres) (E : env) (o : objcfg) (s : S) (w : orc) : cout :=
  match cnames s with
  | GErr m => (Fail m, s, w)
  | GPanic m => (Panic m, s, w)
  | GOk fields =>
      let lf := Z.of_nat (List.length fields) in
      if (-1 <? o_min o) && (lf <? o_min o) then (Fail "fewer properties than minProperties", s, w)
      else if (-1 <? o_max o) && (o_max o <? lf) then (Fail "more properties than maxProperties", s, w)
      else
        let '(ps, w1) := shuffle w (o_props o) in
        match cprops rec gd E o ps (s, canon fields, []) w1 with
        | (Pass, st1, w2) =>
            let '(pats, w3) := shuffle w2 (o_pats o) in
            match cpats rec E pats st1 w3 with
            | (Pass, (s4, premain, pseen), w4) =>
                match cextra rec o premain s4 w4 with
                | (Pass, s6, w6) =>
                    let '(ns, w7) := shuffle w6 pseen in
                    cdeps crec o pseen ns s6 w7
                | x => x
                end
            | (rs, (s4, _, _), w4) => (rs, s4, w4)
            end
        | (rs, (s2, _, _), w2) => (rs, s2, w2)
        end
  end.

(** Validate of any constraint on the object; constraints that are neither objects nor
    combinations look at the struct only, and change nothing (it is not a slice) *)
Fixpoint cvalidate (n : nat) (E : env) (c : constr) (s : S) (w : orc) : cout :=
  match n with
  | O => (OOF, s, w)
  | Datatypes.S n' =>
      let crec := cvalidate n' E in
      match c with
      | CObj o => cobj (validate n' E) crec (get_default n' E) E o s w
      | CAny l => cany_loop crec l s w
      | CAll l => call_loop crec l s w
      | COneOf l => coneof_loop crec l 0 s w
      | CNot c' => cnot crec c' s w
      | CRef name =>
          match e_refs E name with
          | None => (Fail ("reference '" +++ name +++ "' not found"), s, w)
          | Some c' => crec c' s w
          end
      | _ => (fst (fst (validate n E c (c_self C s) w)), s, w)
      end
  end.

End Custom.
