(** Documents with sharing.  GoValue.v takes documents to be trees.  In Go a
    map[string]interface{} is a reference: two places of a document, two documents, or a
    document and a default value kept in a constraint may be one map.  This file repeats
    Validate for what encoding/json produces (null, booleans, float64, strings,
    []interface{}, map[string]interface{}), with maps in a heap.

    Simplified: Validate never stores into a slice, so slices stay values.  Structs,
    pointers, nil maps and nil slices are left to Validate.v. *)
From Verif Require Import Base GoFloat GoValue Maybe Formats Constraint StructInfo Validate.
Open Scope Z_scope.

Inductive hval :=
| HNil
| HBool (b : bool)
| HNum (f : f64)
| HStr (s : string)
| HArr (l : list hval)
| HMap (a : nat).              (* the map at address a *)

Definition hmap := list (string * hval).
Definition heap := list hmap.
Definition h_at (h : heap) (a : nat) : hmap := nth a h [].
Definition h_set (h : heap) (a : nat) (m : hmap) : heap := set_nth a m h.

(** what the checks of scalar constraints, == and reflect.Kind see of a value *)
Definition shell (v : hval) : gval :=
  match v with
  | HNil => GNil
  | HBool b => gbool b
  | HNum f => gfloat f
  | HStr s => gstr s
  | HArr _ => gslice []
  | HMap _ => gmap []
  end.

(** the tree one gets by following all addresses; None: circular (n counts maps) *)
Section OptAll.
Context {A B : Type} (f : A -> option B).
Fixpoint opt_all (l : list A) : option (list B) :=
  match l with
  | [] => Some []
  | x :: r => match f x, opt_all r with Some y, Some ys => Some (y :: ys) | _, _ => None end
  end.
End OptAll.
Fixpoint spread (f : nat -> option gval) (v : hval) : option gval :=
  match v with
  | HArr l => option_map gslice (opt_all (spread f) l)
  | HMap a => f a
  | _ => Some (shell v)
  end.
Fixpoint unfold_at (h : heap) (n : nat) (a : nat) : option gval :=
  match n with
  | O => None
  | S n' => option_map gmap (opt_all (fun e => option_map (pair (fst e)) (spread (unfold_at h n') (snd e))) (h_at h a))
  end.
(** without a circle at most all maps of the heap are nested *)
Definition unfold (h : heap) (v : hval) : option gval := spread (unfold_at h (List.length h)) v.

(** Constraint.v's constraints, with default values that may hold maps *)
Inductive hconstr :=
| KNil
| KEmpty
| KNull
| KBool (d : option hval)
| KStr (d : option hval) (c : strcfg)
| KNum (d : option hval) (c : numcfg)
| KInt (d : option hval) (c : numcfg)
| KArr (a : arrcfg_ hconstr)
| KObj (o : objcfg_ hconstr)
| KEnum (l : list gval)
| KAny (l : list hconstr)
| KAll (l : list hconstr)
| KOneOf (l : list hconstr)
| KNot (c : hconstr)
| KRef (name : string).

(** object.go:48-54, 130-154 *)
Definition hrequired (o : objcfg_ hconstr) (k : string) : bool := match sget k (o_req o) with Some _ => true | None => false end.
Definition hprop_deps (o : objcfg_ hconstr) (k : string) : list string := match sget k (o_propdeps o) with Some l => l | None => [] end.
Definition hschema_dep (o : objcfg_ hconstr) (k : string) : hconstr := match sget k (o_sdeps o) with Some c => c | None => KNil end.

Section Run.
(** E: regexps, formats, printing (its references are not used); R: the ConstraintMap *)
Context (E : env) (R : string -> option hconstr).

Definition hout := (res * heap * orc)%type.
Definition hrec := hconstr -> hval -> heap -> orc -> hout.

(** basic.go:10-28, reference.go:116-132 *)
Inductive hdres := HDNone | HDSome (d : hval) | HDPanic | HDOOF.
Definition hdres_of (d : option hval) : hdres := match d with None => HDNone | Some x => HDSome x end.
Fixpoint hdefault (n : nat) (c : hconstr) : hdres :=
  match n with
  | O => HDOOF
  | S n' =>
      match c with
      | KNil => HDPanic
      | KBool d | KStr d _ | KNum d _ | KInt d _ => hdres_of d
      | KRef name => match R name with None => HDNone | Some c' => hdefault n' c' end
      | _ => HDNone
      end
  end.

(** combinations.go:82-94, 49-60, 116-135; basic.go:76-90 *)
Fixpoint hall (rec : hrec) (cs : list hconstr) (v : hval) (h : heap) (w : orc) : hout :=
  match cs with
  | [] => (Pass, h, w)
  | c :: r => match rec c v h w with (Pass, h', w') => hall rec r v h' w' | o => o end
  end.
Fixpoint hany (rec : hrec) (cs : list hconstr) (v : hval) (h : heap) (w : orc) : hout :=
  match cs with
  | [] => (Fail "could not validate against any of the constraints", h, w)
  | c :: r => match rec c v h w with (Fail _, h', w') => hany rec r v h' w' | o => o end
  end.
Fixpoint honeof (rec : hrec) (cs : list hconstr) (count : nat) (v : hval) (h : heap) (w : orc) : hout :=
  match cs with
  | [] => (match count with
           | O => Fail "none of the constraints passed"
           | 1%nat => Pass
           | _ => Fail "more than 1 of the constraints passed"
           end, h, w)
  | c :: r =>
      match rec c v h w with
      | (Pass, h', w') => honeof rec r (S count) v h' w'
      | (Fail _, h', w') => honeof rec r count v h' w'
      | o => o
      end
  end.
Definition hnot (rec : hrec) (c : hconstr) (v : hval) (h : heap) (w : orc) : hout :=
  match c with
  | KNil => (Fail "'not' constraint does not have a child constraint", h, w)
  | _ =>
      match rec c v h w with
      | (Pass, h', w') => (Fail "'not' validation failed", h', w')
      | (Fail _, h', w') => (Pass, h', w')
      | o => o
      end
  end.

(** array.go:21-115 *)
Fixpoint hidx (rec : hrec) (jobs : list (nat * hconstr)) (l : list hval) (h : heap) (w : orc) : hout :=
  match jobs with
  | [] => (Pass, h, w)
  | (i, c) :: r => match rec c (nth i l HNil) h w with (Pass, h', w') => hidx rec r l h' w' | o => o end
  end.
(** the printed elements (array.go:57-69): Go would not return on a circular value *)
Definition hunique (h : heap) (l : list hval) : option bool :=
  option_map (uniq_loop E []) (opt_all (unfold h) l).
Definition harr (rec : hrec) (a : arrcfg_ hconstr) (v : hval) (h : heap) (w : orc) : hout :=
  match v with
  | HArr l =>
      let len := List.length l in
      if (-1 <? a_min a) && (Z.of_nat len <? a_min a) then (Fail "fewer items than minItems", h, w)
      else if (-1 <? a_max a) && (a_max a <? Z.of_nat len) then (Fail "more items than maxItems", h, w)
      else match (if a_uniq a then hunique h l else Some true) with
      | None => (OOF, h, w)
      | Some false => (Fail "duplicate element found", h, w)
      | Some true =>
          match a_items a with
          | KNil =>
              let lp := List.length (a_pos a) in
              match hidx rec (combine (seq 0 len) (a_pos a)) l h w with
              | (Pass, h1, w1) =>
                  if (0 <? lp)%nat && (lp <? len)%nat then
                    match a_add a with
                    | KNil => (Fail "additional elements found in array", h1, w1)
                    | cadd => hidx rec (map (fun i => (i, cadd)) (seq (lp - 1) (len - (lp - 1)))) l h1 w1
                    end
                  else (Pass, h1, w1)
              | o => o
              end
          | celem => hidx rec (map (fun i => (i, celem)) (seq 0 len)) l h w
          end
      end
  | _ => (Fail ("value must be a slice (was: " +++ match v with HNil => "invalid" | _ => typ (shell v) end +++ ")"), h, w)
  end.

(** object.go:373-435: premain and pseen as in Validate.v; the object is the map at a *)
Definition hstate := (heap * list string * list string)%type.
Fixpoint hprops (rec : hrec) (gd : hconstr -> hdres) (o : objcfg_ hconstr) (a : nat) (ps : list (string * hconstr)) (st : hstate) (w : orc) : res * hstate * orc :=
  match ps with
  | [] => (Pass, st, w)
  | (k, c) :: r =>
      let '(h, premain, pseen) := st in
      match sget k (h_at h a) with
      | None =>
          if hrequired o k then (Fail ("object property '" +++ k +++ "' is required"), st, w)
          else match gd c with
          | HDOOF => (OOF, st, w)
          | HDPanic => (Panic "nil Constraint", st, w)
          | HDNone => hprops rec gd o a r st w
          | HDSome d =>        (* SetMapIndex; a nil default is the zero Value and deletes *)
              let m := match d with HNil => sdel k (h_at h a) | _ => sset k d (h_at h a) end in
              hprops rec gd o a r (h_set h a m, premain, pseen) w
          end
      | Some x =>
          let premain' := remove_s k premain in
          let pseen' := k :: pseen in
          match rec c x h w with
          | (Pass, h', w') => hprops rec gd o a r (h', premain', pseen') w'
          | (Fail m, h', w') => (Fail ("object property '" +++ k +++ "' validation failed: " +++ m), (h', premain', pseen'), w')
          | (rs, h', w') => (rs, (h', premain', pseen'), w')
          end
      end
  end.

(** object.go:437-461 *)
Fixpoint hpat1 (rec : hrec) (src : string) (c : hconstr) (a : nat) (ns : list string) (st : hstate) (w : orc) : res * hstate * orc :=
  match ns with
  | [] => (Pass, st, w)
  | k :: r =>
      let '(h, premain, pseen) := st in
      if negb (e_rx E src k) then hpat1 rec src c a r st w
      else
        let premain' := remove_s k premain in
        let pseen' := k :: pseen in
        match sget k (h_at h a) with
        | None => (Panic "reflect: Interface of zero Value", (h, premain', pseen'), w)
        | Some x =>
            match rec c x h w with
            | (Pass, h', w') => hpat1 rec src c a r (h', premain', pseen') w'
            | (Fail m, h', w') => (Fail ("object property '" +++ k +++ "' validation failed: " +++ m), (h', premain', pseen'), w')
            | (rs, h', w') => (rs, (h', premain', pseen'), w')
            end
        end
  end.
Fixpoint hpats (rec : hrec) (a : nat) (ps : list ((nat * string) * hconstr)) (st : hstate) (w : orc) : res * hstate * orc :=
  match ps with
  | [] => (Pass, st, w)
  | ((_, src), c) :: r =>
      let '(h, premain, pseen) := st in
      let '(ns, w1) := shuffle w premain in
      match hpat1 rec src c a ns st w1 with
      | (Pass, st', w2) => hpats rec a r st' w2
      | o => o
      end
  end.

(** object.go:469-474 *)
Fixpoint hadd (rec : hrec) (c : hconstr) (a : nat) (ns : list string) (h : heap) (w : orc) : hout :=
  match ns with
  | [] => (Pass, h, w)
  | k :: r =>
      match sget k (h_at h a) with
      | None => (Panic "reflect: Interface of zero Value", h, w)
      | Some x =>
          match rec c x h w with
          | (Pass, h', w') => hadd rec c a r h' w'
          | (Fail m, h', w') => (Fail ("object property for '" +++ k +++ "' validation failed: " +++ m), h', w')
          | o => o
          end
      end
  end.

(** object.go:477-497 *)
Fixpoint hdeps (rec : hrec) (o : objcfg_ hconstr) (pseen ns : list string) (v : hval) (h : heap) (w : orc) : hout :=
  match ns with
  | [] => (Pass, h, w)
  | k :: r =>
      match hprop_deps o k with
      | (_ :: _) as deps =>
          match missing_dep pseen deps with
          | Some d => (Fail ("required dependency '" +++ d +++ "' is mising"), h, w)
          | None => hdeps rec o pseen r v h w
          end
      | [] =>
          match hschema_dep o k with
          | KNil => hdeps rec o pseen r v h w
          | depc => match rec depc v h w with (Pass, h', w') => hdeps rec o pseen r v h' w' | x => x end
          end
      end
  end.

(** object.go:324-500 *)
Definition hobj (rec : hrec) (gd : hconstr -> hdres) (o : objcfg_ hconstr) (v : hval) (h : heap) (w : orc) : hout :=
  match v with
  | HMap a =>
      let fields := keys (h_at h a) in
      let lf := Z.of_nat (List.length fields) in
      if (-1 <? o_min o) && (lf <? o_min o) then (Fail "fewer properties than minProperties", h, w)
      else if (-1 <? o_max o) && (o_max o <? lf) then (Fail "more properties than maxProperties", h, w)
      else
        let '(ps, w1) := shuffle w (o_props o) in
        match hprops rec gd o a ps (h, fields, []) w1 with
        | (Pass, st1, w2) =>
            let '(pats, w3) := shuffle w2 (o_pats o) in
            match hpats rec a pats st1 w3 with
            | (Pass, (h4, premain, pseen), w4) =>
                let r5 :=
                  match premain with
                  | [] => (Pass, h4, w4)
                  | _ :: _ =>
                      match o_add o with
                      | KNil => (Fail "additional properties are not allowed", h4, w4)
                      | c => let '(ns, w5) := shuffle w4 premain in hadd rec c a ns h4 w5
                      end
                  end in
                match r5 with
                | (Pass, h6, w6) => let '(ns, w7) := shuffle w6 pseen in hdeps rec o pseen ns v h6 w7
                | x => x
                end
            | (rs, (h4, _, _), w4) => (rs, h4, w4)
            end
        | (rs, (h2, _, _), w2) => (rs, h2, w2)
        end
  | _ => (Fail ("cannot get property names from this value (Kind: " +++ kind (valueOf (shell v)) +++ ")"), h, w)
  end.

Fixpoint hvalidate (n : nat) (c : hconstr) (v : hval) (h : heap) (w : orc) : hout :=
  match n with
  | O => (OOF, h, w)
  | S n' =>
      let rec := hvalidate n' in
      match c with
      | KNil => (Panic "nil Constraint", h, w)
      | KEmpty => (Pass, h, w)
      | KNull => (null_validate (shell v), h, w)
      | KBool _ => (bool_validate (shell v), h, w)
      | KStr _ s => (str_validate E s (shell v), h, w)
      | KNum _ m => (num_validate m (shell v), h, w)
      | KInt _ m => (int_validate m (shell v), h, w)
      | KArr a => harr rec a v h w
      | KObj o => hobj rec (hdefault n') o v h w
      | KEnum l => (enum_loop l (shell v), h, w)
      | KAny l => hany rec l v h w
      | KAll l => hall rec l v h w
      | KOneOf l => honeof rec l 0 v h w
      | KNot c' => hnot rec c' v h w
      | KRef name =>
          match R name with
          | None => (Fail ("reference '" +++ name +++ "' not found"), h, w)
          | Some c' => rec c' v h w
          end
      end
  end.
End Run.
