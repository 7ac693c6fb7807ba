(** Guessing the type of a schema (builder/builder.go:291-505), run from its source. *)
From Verif Require Import Base GoFloat GoValue Maybe Formats Constraint StructInfo Validate Builder SrcSyntax SrcText SrcTextB SrcProg SrcStore SrcProgB SrcStepB SrcSetters SrcRep.
Open Scope string_scope.
Open Scope list_scope.
Open Scope Z_scope.

Section G.
  Variable D : bv -> resolver.
  Variable tn : nat -> string.
  Notation P := (prog D tn).
  Variables (vs : list bscope) (h : list bv) (w : orc) (k : nat).
  Notation go f c v := (bcall P (S (S k)) f [BSch c] (st vs h w) = BOk v (st vs h w)).
  Notation kd g s := (same (kind (valueOf g)) s).
  Lemma kind_map g : is_map_like g = kd g "map" || kd g "struct".
  Proof. destruct g as [| |? [] ?|? [] ?|? [] ?| | | | | | | |? [] ? ?]; reflexivity. Qed.
  Lemma kind_slice g : is_slice_like g = kd g "slice".
  Proof. destruct g as [| |? [] ?|? [] ?|? [] ?| | | | | | | |? [] ? ?]; reflexivity. Qed.
  Lemma kind_string g : is_string_like g = kd g "string".
  Proof. destruct g as [| |? [] ?|? [] ?|? [] ?| | | | | | | |? [] ? ?]; reflexivity. Qed.
  Lemma kind_bool g : is_bool_like g = kd g "bool".
  Proof. destruct g as [| |? [] ?|? [] ?|? [] ?| | | | | | | |? [] ? ?]; reflexivity. Qed.
  Ltac is_kinds x y := let E := fresh in destruct (same x y) eqn:E; [open_b; stepsb; rewrite ?orb_true_r; reflexivity|].
  Ltac is_kind g x := let E := fresh in destruct (kd g x) eqn:E.

  (** builder/builder.go:496-505 *)
  Lemma src_looksBool c : go "schemaLooksLikeBool" c [BBool (existsb is_bool_like (sc_enum c))].
  Proof.
    open_b. stepsb. generalize 0. induction (sc_enum c) as [|g l IH]; intro i; [stepsb; reflexivity|].
    cbn [map b_indexed existsb]. rewrite kind_bool. roundb.
    is_kind g "bool"; stepsb; [reflexivity|apply IH].
  Qed.
  Ltac done := first [reflexivity | rewrite ?orb_true_r; reflexivity].
  (** builder/builder.go:340-378 *)
  Lemma src_looksObject c : go "schemaLooksLikeObject" c [BBool (looks_object c)].
  Proof.
    unfold looks_object.
    destruct (sc_props c) eqn:?; [|open_b; stepsb; done].
    destruct (sc_addProps c) as [[|c']|] eqn:?; [|open_b; stepsb; done|open_b; stepsb; done].
    destruct (sc_minProps c) eqn:?; [open_b; stepsb; done|].
    destruct (sc_maxProps c) eqn:?; [open_b; stepsb; done|].
    destruct (sc_required c) eqn:?; [|open_b; stepsb; done].
    destruct (sc_pats c) eqn:?; [|open_b; stepsb; done].
    cbn [nonnil initialized orb].
    open_b. stepsb. generalize 0. induction (sc_enum c) as [|g l IH]; intro i; [stepsb; reflexivity|].
    cbn [map b_indexed existsb]. rewrite kind_map. roundb.
    is_kind g "map"; [stepsb; done|]. is_kind g "struct"; stepsb; [done|apply IH].
  Qed.
  (** builder/builder.go:380-418 *)
  Lemma src_looksArray c : go "schemaLooksLikeArray" c [BBool (looks_array c)].
  Proof.
    unfold looks_array.
    destruct (sc_items c) as [[]|] eqn:?; [open_b; stepsb; done|].
    destruct (sc_addItems c) as [[|c']|] eqn:?; [|open_b; stepsb; done|open_b; stepsb; done].
    destruct (sc_minItems c) eqn:?; [open_b; stepsb; done|].
    destruct (sc_maxItems c) eqn:?; [open_b; stepsb; done|].
    destruct (sc_unique c) eqn:?; [open_b; stepsb; done|].
    cbn [nonnil initialized orb].
    open_b. stepsb. generalize 0. induction (sc_enum c) as [|g l IH]; intro i; [stepsb; reflexivity|].
    cbn [map b_indexed existsb]. rewrite kind_slice. roundb.
    is_kind g "slice"; stepsb; [done|apply IH].
  Qed.
  (** builder/builder.go:420-447 *)
  Lemma src_looksString c : go "schemaLooksLikeString" c [BBool (looks_string c)].
  Proof.
    unfold looks_string.
    destruct (sc_minLen c) eqn:?; [open_b; stepsb; done|].
    destruct (sc_maxLen c) eqn:?; [open_b; stepsb; done|].
    destruct (sc_pattern c) eqn:?; [open_b; stepsb; done|].
    cbn [mem known_formats existsb]. change String.eqb with same.
    is_kinds (sc_format c) "date-time". is_kinds (sc_format c) "email". is_kinds (sc_format c) "hostname".
    is_kinds (sc_format c) "ipv4". is_kinds (sc_format c) "ipv6". is_kinds (sc_format c) "uri".
    cbn [nonnil initialized orb].
    open_b. stepsb. generalize 0. induction (sc_enum c) as [|g l IH]; intro i; [stepsb; reflexivity|].
    cbn [map b_indexed existsb]. rewrite kind_string. roundb.
    is_kind g "string"; stepsb; [done|apply IH].
  Qed.
  (** builder/builder.go:449-451 *)
  Lemma src_isInteger f : bcall P (S k) "isInteger" [BONum (Some f)] (st vs h w) = BOk [BBool (is_integer f)] (st vs h w).
  Proof. open_b. stepsb. reflexivity. Qed.
End G.
Section G2.
  Variable D : bv -> resolver.
  Variable tn : nat -> string.
  Notation P := (prog D tn).
  Variables (vs : list bscope) (h : list bv) (w : orc) (k : nat).
  Notation go f c v := (bcall P (S (S k)) f [BSch c] (st vs h w) = BOk v (st vs h w)).
  Notation kd g s := (same (kind (valueOf g)) s).
  Ltac is_kind g x := let E := fresh in destruct (kd g x) eqn:E.
  Definition is_int_like (g : gval) : bool := match g with GInt _ _ _ => true | _ => false end.
  Definition is_float_like (g : gval) : bool := match g with GFloat _ _ _ => true | _ => false end.
  Lemma kind_int g : is_int_like g = kd g "int" || (kd g "int8" || (kd g "int16" || (kd g "int32" || kd g "int64"))).
  Proof. destruct g as [| |? [] ?|? [] ?|? [] ?| | | | | | | |? [] ? ?]; reflexivity. Qed.
  Lemma kind_float g : is_float_like g = kd g "float32" || kd g "float64".
  Proof. destruct g as [| |? [] ?|? [] ?|? [] ?| | | | | | | |? [] ? ?]; reflexivity. Qed.
  Lemma enum_number_cons g l : enum_number (g :: l) = if is_int_like g then Some TInteger else if is_float_like g then Some TNumber else enum_number l.
  Proof. destruct g; reflexivity. Qed.
  Definition number_result (o : option ptype) : list bv := [BBool (initialized o); BTp (match o with Some t => t | None => TOther 0 end)].
  Ltac which f := rewrite src_isInteger; unfold int_or_num; destruct (is_integer f); stepsb; reflexivity.
  (** builder/builder.go:453-494 *)
  Lemma src_looksNumber c : go "schemaLooksLikeNumber" c (number_result (looks_number c)).
  Proof.
    unfold looks_number.
    destruct (sc_mult c) as [f|] eqn:?; [open_b; stepsb; which f|].
    destruct (sc_min c) as [f|] eqn:?; [open_b; stepsb; which f|].
    destruct (sc_max c) as [f|] eqn:?; [open_b; stepsb; which f|].
    destruct (sc_xmin c) eqn:?; [open_b; stepsb; reflexivity|].
    destruct (sc_xmax c) eqn:?; [open_b; stepsb; reflexivity|].
    cbn [initialized orb].
    open_b. stepsb. generalize 0. induction (sc_enum c) as [|g l IH]; intro i; [stepsb; reflexivity|].
    rewrite enum_number_cons. cbn [map b_indexed]. rewrite kind_int, kind_float. roundb.
    is_kind g "int"; [stepsb; reflexivity|]. is_kind g "int8"; [stepsb; reflexivity|]. is_kind g "int16"; [stepsb; reflexivity|].
    is_kind g "int32"; [stepsb; reflexivity|]. is_kind g "int64"; [stepsb; reflexivity|].
    is_kind g "float32"; [stepsb; reflexivity|]. is_kind g "float64"; [stepsb; reflexivity|]. stepsb. apply IH.
  Qed.
End G2.
Section G3.
  Variable D : bv -> resolver.
  Variable tn : nat -> string.
  Notation P := (prog D tn).
  Variables (vs : list bscope) (h : list bv) (w : orc) (k : nat).
  Definition types_value (l : list ptype) : bv := match l with [] => BNil | _ => BList (map BTp l) end.
  (** builder/builder.go:291-338 *)
  Lemma src_guess c : bcall P (S (S (S k))) "guessSchemaType" [BSch c] (st vs h w) = BOk [types_value (guess c)] (st vs h w).
  Proof.
    unfold guess. open_b. stepsb. rewrite src_looksObject. 
    destruct (looks_object c); stepsb; rewrite src_looksArray; (destruct (looks_array c); stepsb); rewrite src_looksString;
    (destruct (looks_string c); stepsb); rewrite src_looksNumber; unfold number_result; (destruct (looks_number c); cbn [initialized]; stepsb);
     rewrite src_looksBool; (destruct (existsb is_bool_like (sc_enum c)); stepsb); reflexivity.
  Qed.
End G3.
