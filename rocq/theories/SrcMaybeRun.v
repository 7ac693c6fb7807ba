(** The methods of maybe.go, run from the source text by SrcMaybe.v, do what the model of
    Maybe.v says, for every value of the six types, every argument and every JSON value. *)
From Verif Require Import Base GoFloat GoValue Formats Maybe SrcText SrcSyntax SrcProg SrcMaybe Preserve.
Open Scope Z_scope.
Open Scope string_scope.

Section Steps.
  Context (tp : string -> Z + string) (tf : Z -> string).
  Notation eval := (eval tp tf). Notation evals := (evals tp tf).
  Notation exec := (exec tp tf). Notation execs := (execs tp tf).
  Notation call := (call tp tf). Notation method := (method tp tf).

  Definition finish (ptr : bool) (x : string) (r : mv) (o : option out) : option (mv * list mv) :=
    let back e' vs := if ptr then option_map (fun r' => (r', vs)) (assoc x e') else Some (r, vs) in
    match o with
    | Some (ONext e') => back e' []
    | Some (ORet e' vs) => back e' vs
    | None => None
    end.
  Lemma call_eq n r m args T f ptr x U :
    type_of r = Some T -> funcs (T +++ "." +++ m) = Some f -> by_pointer (T +++ "." +++ m) = Some ptr ->
    fn_recv f = Some (x, U) -> length args = length (fn_params f) ->
    call (S n) r m args = finish ptr x r (execs n ((x, r) :: combine (fn_params f) args) (fn_body f)).
  Proof.
    intros H1 H2 H3 H4 H5.
    change (call (S n) r m args) with
      (match type_of r with
        | None => foreign tf r m args
        | Some T =>
            match funcs (T +++ "." +++ m), by_pointer (T +++ "." +++ m) with
            | Some f, Some ptr =>
                match fn_recv f with
                | None => None
                | Some (x, _) =>
                    if negb (Nat.eqb (length args) (length (fn_params f))) then None
                    else finish ptr x r (execs n ((x, r) :: combine (fn_params f) args) (fn_body f))
                end
            | _, _ =>
                match find (fun p => snd p) (fields_of T) with
                | Some (f, _) =>
                    match field r f with
                    | Some sub =>
                        match call n sub m args with
                        | Some (sub', vs) =>
                            match r with XStruct T fs => Some (XStruct T (upd f sub' fs), vs) | _ => None end
                        | None => None
                        end
                    | None => None
                    end
                | None => None
                end
            end
        end).
    rewrite H1, H2, H3, H4, H5, Nat.eqb_refl. reflexivity.
  Qed.

  Definition after (n : nat) (rest : list stmt) (o : option out) : option out :=
    match o with Some (ONext e') => execs n e' rest | Some (ORet e' l) => Some (ORet e' l) | None => None end.
  Lemma execs_cons n e s r : execs (S n) e (s :: r) = after n r (exec n e s).
  Proof. reflexivity. Qed.
  Lemma exec_switch n e x cls :
    exec (S n) e (STSwitch x cls) =
    match one (eval n e x) with
    | Some (e', XG g) => match tclause g cls None with Some b => execs n e' b | None => Some (ONext e') end
    | _ => None
    end.
  Proof. reflexivity. Qed.
  Lemma exec_assert n e a b c t :
    exec (S n) e (SAssign [EId a; EId b] ":=" [EAs c (Some t)]) =
    match one (eval n e c), ty_name t with
    | Some (e', XG g), Some T =>
        if has_type g T then Some (ONext (upd b (XG (gbool true)) (upd a (XG g) e')))
        else option_map (fun z => ONext (upd b (XG (gbool false)) (upd a (XG z) e'))) (zero_of T)
    | _, _ => None
    end.
  Proof. reflexivity. Qed.
  Lemma switch_eq n e x g cls b rest :
    one (eval n e x) = Some (e, XG g) -> tclause g cls None = Some b ->
    execs (S (S n)) e (STSwitch x cls :: rest) = after (S n) rest (execs n e b).
  Proof. intros H1 H2. rewrite execs_cons, exec_switch, H1, H2. reflexivity. Qed.

  Lemma assert_eq n e a b c t g T rest :
    one (eval n e c) = Some (e, XG g) -> ty_name t = Some T ->
    execs (S (S n)) e (SAssign [EId a; EId b] ":=" [EAs c (Some t)] :: rest) =
    (if has_type g T then execs (S n) (upd b (XG (gbool true)) (upd a (XG g) e)) rest
     else match zero_of T with
          | Some z => execs (S n) (upd b (XG (gbool false)) (upd a (XG z) e)) rest
          | None => None
          end).
  Proof.
    intros H1 H2. rewrite execs_cons, exec_assert, H1, H2.
    destruct (has_type g T); [reflexivity|]. destruct (zero_of T); reflexivity.
  Qed.

  Lemma exec_parse n e a b args :
    exec (S (S n)) e (SAssign [EId a; EId b] ":=" [ECall (ESel (EId "time") "Parse") args]) =
    match evals n e args with
    | Some (e', vs) =>
        match package tp "time" "Parse" vs with
        | Some ws => option_map ONext (assigns [EId a; EId b] ws e')
        | None => None
        end
    | None => None
    end.
  Proof.
    change (exec (S (S n)) e (SAssign [EId a; EId b] ":=" [ECall (ESel (EId "time") "Parse") args])) with
      (match match evals n e args with
             | Some (e', vs) => option_map (fun ws => (e', ws)) (package tp "time" "Parse" vs)
             | None => None end
       with Some (e', vs) => option_map ONext (assigns [EId a; EId b] vs e') | None => None end).
    destruct (evals n e args) as [[e' vs]|]; [|reflexivity]. destruct (package tp "time" "Parse" vs); reflexivity.
  Qed.
  Lemma parse_eq n e a b args T s rest :
    evals n e args = Some (e, [XG (gstr rfc3339); XG (GStr T s)]) ->
    execs (S (S (S n))) e (SAssign [EId a; EId b] ":=" [ECall (ESel (EId "time") "Parse") args] :: rest) =
    match tp s with
    | inl t => execs (S (S n)) (upd b XNil (upd a (XG (GTime t)) e)) rest
    | inr m => execs (S (S n)) (upd b (XErr m) (upd a (XG (GTime 0)) e)) rest
    end.
  Proof.
    intros H. rewrite execs_cons, exec_parse, H.
    change (package tp "time" "Parse" [XG (gstr rfc3339); XG (GStr T s)]) with
      (Some match tp s with inl t => [XG (GTime t); XNil] | inr e => [XG (GTime 0); XErr e] end).
    destruct (tp s); reflexivity.
  Qed.

  Lemma exec_var n e x t :
    exec (S n) e (SVar x (Some t) None) =
    match ty_name t with Some T => option_map (fun g => ONext (upd x (XG g) e)) (zero_of T) | None => None end.
  Proof. reflexivity. Qed.
  Lemma exec_if n e i c a b :
    exec (S n) e (SIf (Some i) c a b) =
    match exec n e i with
    | Some (ONext e0) =>
        match one (eval n e0 c) with
        | Some (e', XG (GBool _ t)) => execs n e' (if t then a else b)
        | _ => None
        end
    | _ => None
    end.
  Proof. reflexivity. Qed.
  Lemma exec_set1 n e x op f :
    exec (S n) e (SAssign [EId x] op [f]) =
    match eval n e f with Some (e', vs) => option_map ONext (assigns [EId x] vs e') | None => None end.
  Proof. reflexivity. Qed.
  Lemma eval_unmarshal n e d x :
    eval (S n) e (ECall (ESel (EId "json") "Unmarshal") [d; EUn "&" (EId x)]) =
    match one (eval n e d), assoc x e with
    | Some (e', XJson j), Some (XG old) =>
        match of_json old j with
        | Some (Some g) => Some (upd x (XG g) e', [XNil])
        | Some None => Some (e', [XErr "json.Unmarshal"])
        | None => None
        end
    | _, _ => None
    end.
  Proof. reflexivity. Qed.
  Lemma unmarshal_eq n e err d x c a b j old o rest :
    one (eval n e d) = Some (e, XJson j) -> assoc x e = Some (XG old) -> of_json old j = Some o ->
    execs (S (S (S (S n)))) e
      (SIf (Some (SAssign [EId err] ":=" [ECall (ESel (EId "json") "Unmarshal") [d; EUn "&" (EId x)]])) c a b :: rest) =
    after (S (S (S n))) rest
      (let e0 := match o with Some g => upd err XNil (upd x (XG g) e) | None => upd err (XErr "json.Unmarshal") e end in
       match one (eval (S (S n)) e0 c) with
       | Some (e', XG (GBool _ t)) => execs (S (S n)) e' (if t then a else b)
       | _ => None
       end).
  Proof.
    intros H1 H2 H3. rewrite execs_cons, exec_if, exec_set1, eval_unmarshal, H1, H2, H3.
    destruct o; reflexivity.
  Qed.
End Steps.

Ltac enter :=
  unfold method, depth; erewrite call_eq; cycle 1;
  [reflexivity | vm_compute; reflexivity | vm_compute; reflexivity | reflexivity | reflexivity | cbn [fn_params fn_body combine]].
Ltac crun := lazy -[f64_to_int64 f64_to_uint64 f32_to_f64 typ json_string Z.leb]; try reflexivity.

Section Agree.
  Context (tp : string -> Z + string) (tf : Z -> string).

  (** Valid, Reset, Value *)
  Lemma valid_source m : method tp tf (cell m) "Valid" [] = Some (cell m, [XG (gbool (m_valid m))]).
  Proof. destruct m; vm_compute; reflexivity. Qed.
  Lemma reset_source m : method tp tf (cell m) "Reset" [] = Some (cell (m_reset m), []).
  Proof. destruct m; vm_compute; reflexivity. Qed.
  Lemma value_source m : method tp tf (cell m) "Value" [] = Some (cell m, [XG (m_value m)]).
  Proof. destruct m; vm_compute; reflexivity. Qed.

  (** the error value Set returns, and its text *)
  Definition invalid (x : gval) : mv := XStruct "ErrInvalidMaybeValue" [("Value", XG x)].
  Lemma error_source x : error_text tp tf (invalid x) = Some (err_invalid_maybe x).
  Proof. unfold error_text, invalid. destruct x; crun. Qed.

  Ltac kinds x :=
    destruct x;
    try match goal with k : ikind |- _ => destruct k | k : ukind |- _ => destruct k | b : bool |- context [GFloat _ ?b] => destruct b end.
  (** the case of a type that is not the one named *)
  Ltac named :=
    match goal with
    | |- context [String.eqb ?T ?s] => is_var T;
        let E := fresh "E" in destruct (String.eqb T s) eqn:E; [apply String.eqb_eq in E; subst T|]
    end.
  Ltac clause := cbn [tclause existsb ty_name]; unfold has_type; cbn [ikind_s ukind_s].
  Ltac names := repeat match goal with
    | |- context [String.eqb ?a ?b] => let v := eval vm_compute in (String.eqb a b) in
        match v with true => change (String.eqb a b) with true | false => change (String.eqb a b) with false end
    end; repeat match goal with E : String.eqb _ _ = false |- _ => progress rewrite E end; cbn [andb orb].
  Ltac hit := erewrite switch_eq; cycle 1; [reflexivity | clause; names; reflexivity |].

  Lemma set_bool f b x :
    method tp tf (cell (MBool f b)) "Set" [XG x] =
    match x with
    | GBool T c => if String.eqb T "bool" then Some (cell (MBool true c), [XNil]) else Some (cell (MBool f b), [invalid x])
    | _ => Some (cell (MBool f b), [invalid x])
    end.
  Proof.
    enter. erewrite assert_eq; [|reflexivity|reflexivity].
    kinds x; try solve [crun]. unfold has_type. names. named; crun.
  Qed.
  Lemma set_string f b x :
    method tp tf (cell (MString f b)) "Set" [XG x] =
    match x with
    | GStr T c => if String.eqb T "string" then Some (cell (MString true c), [XNil]) else Some (cell (MString f b), [invalid x])
    | _ => Some (cell (MString f b), [invalid x])
    end.
  Proof.
    enter. erewrite assert_eq; [|reflexivity|reflexivity].
    kinds x; try solve [crun]. unfold has_type. names. named; crun.
  Qed.
  Lemma set_float f b x :
    method tp tf (cell (MFloat f b)) "Set" [XG x] =
    match x with
    | GFloat T true y => if String.eqb T "float32" then Some (cell (MFloat true (f32_to_f64 y)), [XNil]) else Some (cell (MFloat f b), [invalid x])
    | GFloat T false y => if String.eqb T "float64" then Some (cell (MFloat true y), [XNil]) else Some (cell (MFloat f b), [invalid x])
    | _ => Some (cell (MFloat f b), [invalid x])
    end.
  Proof.
    enter. kinds x; try solve [hit; crun]; named; hit; crun.
  Qed.
  Lemma set_int f b x :
    method tp tf (cell (MInt f b)) "Set" [XG x] =
    match x with
    | GInt T k z => if String.eqb T (ikind_s k) then Some (cell (MInt true z), [XNil]) else Some (cell (MInt f b), [invalid x])
    | GFloat T false y => if String.eqb T "float64" then Some (cell (MInt true (f64_to_int64 y)), [XNil]) else Some (cell (MInt f b), [invalid x])
    | _ => Some (cell (MInt f b), [invalid x])
    end.
  Proof.
    enter. kinds x; cbn [ikind_s]; try solve [hit; crun]; named; hit; crun.
  Qed.
  Lemma set_uint f b x :
    method tp tf (cell (MUint f b)) "Set" [XG x] =
    match x with
    | GUint T k z =>
        if String.eqb T (ukind_s k) && negb (String.eqb T "uintptr") then Some (cell (MUint true z), [XNil]) else Some (cell (MUint f b), [invalid x])
    | GFloat T false y => if String.eqb T "float64" then Some (cell (MUint true (f64_to_uint64 y)), [XNil]) else Some (cell (MUint f b), [invalid x])
    | _ => Some (cell (MUint f b), [invalid x])
    end.
  Proof.
    enter. kinds x; cbn [ukind_s]; try solve [hit; crun]; named; hit; crun.
  Qed.
  Lemma set_time f b x :
    method tp tf (cell (MTime f b)) "Set" [XG x] =
    match x with
    | GStr T s =>
        if String.eqb T "string"
        then match tp s with inl t => Some (cell (MTime true t), [XNil]) | inr e => Some (cell (MTime f b), [XErr e]) end
        else Some (cell (MTime f b), [invalid x])
    | GTime t => Some (cell (MTime true t), [XNil])
    | _ => Some (cell (MTime f b), [invalid x])
    end.
  Proof.
    enter. kinds x; try solve [hit; crun]; named; hit; [|crun].
    erewrite parse_eq by reflexivity. destruct (tp s); crun.
  Qed.

  (** Set: what the model says; after an error the receiver is as it was *)
  Theorem set_source m x :
    match m_set tp m x with
    | inl m' => method tp tf (cell m) "Set" [XG x] = Some (cell m', [XNil])
    | inr t => exists ev, method tp tf (cell m) "Set" [XG x] = Some (cell m, [ev]) /\ error_text tp tf ev = Some t
    end.
  Proof.
    assert (HE : forall r, r = Some (cell m, [invalid x]) ->
              exists ev, r = Some (cell m, [ev]) /\ error_text tp tf ev = Some (err_invalid_maybe x)).
    { intros r Hr. exists (invalid x). split; [exact Hr | apply error_source]. }
    destruct m as [v b|v f|v z|v s|v t|v z]; cbn [m_set].
    - pose proof (set_bool v b x) as H. destruct x; try (apply HE; exact H). destruct (String.eqb T "bool"); auto.
    - pose proof (set_float v f x) as H. destruct x; try (apply HE; exact H). destruct is32; destruct (String.eqb T _); auto.
    - pose proof (set_int v z x) as H. destruct x; try (apply HE; exact H); [destruct (String.eqb T _); auto|].
      destruct is32; auto. destruct (String.eqb T _); auto.
    - pose proof (set_string v s x) as H. destruct x; try (apply HE; exact H). destruct (String.eqb T _); auto.
    - pose proof (set_time v t x) as H. destruct x; try (apply HE; exact H); auto. destruct (String.eqb T _); auto.
      destruct (tp s); auto. eexists. split; [exact H | reflexivity].
    - pose proof (set_uint v z x) as H. destruct x; try (apply HE; exact H); [destruct (String.eqb T _ && _); auto|].
      destruct is32; auto. destruct (String.eqb T _); auto.
  Qed.

  (** MarshalJSON *)
  Theorem marshal_source m :
    method tp tf (cell m) "MarshalJSON" [] =
    Some (cell m, match m_marshal tf m with Some j => [XJson j; XNil] | None => [XNil; XErr "json.Marshal"] end).
  Proof. destruct m; crun. Qed.

  (** UnmarshalJSON *)
  Theorem unmarshal_source m j :
    match m_unmarshal tp m j with
    | Some m' => method tp tf (cell m) "UnmarshalJSON" [XJson j] = Some (cell m', [XNil])
    | None => exists ev t, method tp tf (cell m) "UnmarshalJSON" [XJson j] = Some (cell m, [ev]) /\ error_text tp tf ev = Some t
    end.
  Proof.
    assert (HE : forall r t, r = Some (cell m, [XErr t]) ->
              exists ev t', r = Some (cell m, [ev]) /\ error_text tp tf ev = Some t').
    { intros r t Hr. exists (XErr t), t. split; [exact Hr | reflexivity]. }
    destruct m as [v b|v f|v z|v s|v t|v z]; cbn [m_unmarshal]; enter; rewrite execs_cons, exec_var; cbn [ty_name];
      match goal with |- context [zero_of ?T] => let z := eval vm_compute in (zero_of T) in change (zero_of T) with z end;
      cbn [option_map after];
      (erewrite unmarshal_eq; cycle 1; [reflexivity | reflexivity | reflexivity |]).
    - destruct (dec_bool j); cbn [option_map]; [crun | eapply HE; crun].
    - destruct (dec_float j); cbn [option_map]; [crun | eapply HE; crun].
    - destruct (dec_int min_int64 max_int64 j); cbn [option_map]; [crun | eapply HE; crun].
    - destruct (dec_string j); cbn [option_map]; [crun | eapply HE; crun].
    - destruct (dec_string j) as [s|]; cbn [option_map]; [|eapply HE; crun].
      match goal with |- context [after tp tf _ _ ?o] => let w := eval lazy in o in change o with w end.
      cbn [after]. erewrite parse_eq by reflexivity.
      destruct (tp s) as [t'|m]; [crun | eapply HE; crun].
    - destruct (dec_int 0 max_uint64 j); cbn [option_map]; [crun | eapply HE; crun].
  Qed.

  (** the fields of every value are the fields its type declares, in order and of the declared
      types, the flag being the embedded one *)
  Theorem layout_source m :
    match cell m with
    | XStruct T fs => combine (map fst fs) [true; false] = fields_of T
                         /\ Forall2 (fun f t => of_type (snd f) t = true) fs (types_of T)
    | _ => False
    end.
  Proof. destruct m; vm_compute; split; auto. Qed.
End Agree.

(** ** What this says of the source alone *)
(** the interface jsval.Maybe of maybe.go: every method is there for every value, on
    whatever argument (no panic, nothing the interpreter does not understand) *)
Definition answers (tp : string -> Z + string) (tf : Z -> string) (r : mv) : Prop :=
  (exists b, method tp tf r "Valid" [] = Some (r, [XG (gbool b)])) /\
  (exists g, method tp tf r "Value" [] = Some (r, [XG g])) /\
  (exists r', method tp tf r "Reset" [] = Some (r', [])) /\
  (forall x, exists r' ev, method tp tf r "Set" [XG x] = Some (r', [ev])).

Theorem maybe_source_answers tp tf m : answers tp tf (cell m).
Proof.
  repeat split.
  - eexists. apply valid_source.
  - eexists. apply value_source.
  - eexists. apply reset_source.
  - intros x. pose proof (set_source tp tf m x) as H. destruct (m_set tp m x).
    + eauto.
    + destruct H as (ev & H & _). eauto.
Qed.

(** Set: after a nil error Valid is true; after an error nothing has changed.  Reset: Valid
    is false and the value stays.  UnmarshalJSON: after an error nothing has changed. *)
Theorem maybe_source_laws tp tf m :
  (forall x r ev, method tp tf (cell m) "Set" [XG x] = Some (r, [ev]) ->
     (ev = XNil /\ method tp tf r "Valid" [] = Some (r, [XG (gbool true)]))
     \/ (r = cell m /\ exists t, error_text tp tf ev = Some t))
  /\ (exists r, method tp tf (cell m) "Reset" [] = Some (r, []) /\
        method tp tf r "Valid" [] = Some (r, [XG (gbool false)]) /\
        forall g, method tp tf (cell m) "Value" [] = Some (cell m, [XG g]) -> method tp tf r "Value" [] = Some (r, [XG g]))
  /\ (forall j r ev, method tp tf (cell m) "UnmarshalJSON" [XJson j] = Some (r, [ev]) ->
        ev = XNil \/ (r = cell m /\ exists t, error_text tp tf ev = Some t)).
Proof.
  split; [|split].
  - intros x r ev H. pose proof (set_source tp tf m x) as S. destruct (m_set tp m x) as [m'|t] eqn:E.
    + rewrite H in S. injection S as -> ->. left. split; [reflexivity|]. rewrite valid_source.
      rewrite (m_set_valid _ _ _ _ E). reflexivity.
    + destruct S as (ev' & S & T). rewrite H in S. injection S as -> ->. right. eauto.
  - exists (cell (m_reset m)). rewrite reset_source, valid_source. split; [reflexivity|]. split.
    + destruct m; reflexivity.
    + intros g H. rewrite value_source in *. destruct m; cbn [m_reset m_value] in *; congruence.
  - intros j r ev H. pose proof (unmarshal_source tp tf m j) as S. destruct (m_unmarshal tp m j) as [m'|].
    + rewrite H in S. injection S as -> ->. auto.
    + destruct S as (ev' & t & S & T). rewrite H in S. injection S as -> ->. right. eauto.
Qed.

(** ** Concrete cases *)
Definition ex_tp (s : string) : Z + string := if String.eqb s "2016-01-01T00:00:00Z" then inl 1451606400 else inr "parsing time".
Definition ex_tf (_ : Z) : string := "2016-01-01T00:00:00Z".
Example ex_set : method ex_tp ex_tf (cell zero_MInt) "Set" [XG (GInt "int8" Kint8 (-3))] = Some (cell (MInt true (-3)), [XNil]).
Proof. vm_compute. reflexivity. Qed.
Example ex_set_time : method ex_tp ex_tf (cell zero_MTime) "Set" [XG (gstr "2016-01-01T00:00:00Z")] = Some (cell (MTime true 1451606400), [XNil]).
Proof. vm_compute. reflexivity. Qed.
Example ex_set_named : exists ev,
  method ex_tp ex_tf (cell zero_MString) "Set" [XG (GStr "main.Name" "a")] = Some (cell zero_MString, [ev]) /\
  error_text ex_tp ex_tf ev = Some "invalid Maybe value: (main.Name)".
Proof. exists (invalid (GStr "main.Name" "a")). split; vm_compute; reflexivity. Qed.
(** MaybeTime.UnmarshalJSON leaves the flag alone: a time read from JSON is not Valid *)
Example ex_time_flag : exists r,
  method ex_tp ex_tf (cell zero_MTime) "UnmarshalJSON" [XJson (JStr "2016-01-01T00:00:00Z")] = Some (r, [XNil]) /\
  method ex_tp ex_tf r "Valid" [] = Some (r, [XG (gbool false)]).
Proof. exists (cell (MTime false 1451606400)). vm_compute. split; reflexivity. Qed.
