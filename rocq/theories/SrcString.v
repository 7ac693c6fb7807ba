(** Running the source of string.go gives what the model says. *)
From Verif Require Import Base GoFloat GoValue Maybe Formats Constraint StructInfo Validate SrcSyntax SrcText SrcExec SrcProg SrcStep SrcScalar.
Open Scope string_scope.
Open Scope list_scope.
Open Scope Z_scope.

Lemma append_nil_r a : a +++ "" = a.
Proof. induction a as [|c a IH]; cbn; [reflexivity|f_equal; exact IH]. Qed.
Lemma slen_app a b : slen (a +++ b) = slen a + slen b.
Proof. unfold slen. induction a as [|c a IH]; cbn [String.length String.append]; lia. Qed.
Lemma slen_pos c r : 0 < slen (String c r).
Proof. unfold slen. cbn [String.length]. lia. Qed.
Lemma byte_at_app pre c rest : byte_at (slen pre) (pre +++ String c rest) = Some (byte c).
Proof.
  unfold byte_at, slen. rewrite Nat2Z.id. destruct (Z.ltb_spec (Z.of_nat (String.length pre)) 0); [lia|].
  clear. induction pre as [|a pre IH]; [reflexivity|exact IH].
Qed.
Lemma domain_call cx k x s :
  call_in funcs cx (S k) "isDomainName" [VStr x] s = Ok [VBool (is_domain_name x)] s.
Proof.
  destruct s as [e d w u]. open_call. steps. unfold is_domain_name.
  destruct (slen x =? 0) eqn:H0; steps; [reflexivity|].
  destruct (255 <? slen x) eqn:H1; steps; [reflexivity|].
  unfold for_rest.
  match goal with |- called _ (ends_here (leave (loop ?C ?P ?B _ _)) ?K) = _ =>
    enough (H : forall rest pre last ok pl n, x = pre +++ rest -> (String.length rest < n)%nat ->
      called e (ends_here (leave (loop C P B n
        {| env_ := [[("i", VInt (slen pre))]; [("partlen", VInt pl); ("ok", VBool ok); ("last", VInt (byte last)); ("s", VStr x)]];
           doc := d; ord_w := w; ord_u := u |})) K) =
      Ok [VBool (dn_loop last ok pl rest)] {| env_ := e; doc := d; ord_w := w; ord_u := u |})
  end.
  { refine (H x "" "."%char false 0 _ eq_refl _). cbn. lia. }
  clear H0 H1. induction rest as [|c rest IH]; intros pre last ok pl n Hx Hn; (destruct n as [|n]; [exfalso; cbn in Hn; lia|]);
    rewrite loop_next; steps.
  - replace (slen pre <? slen x) with false by (subst x; rewrite append_nil_r; symmetry; apply Z.ltb_irrefl).
    steps. cbn [dn_loop]. change (byte last =? 45) with (dash last).
    destruct (dash last); steps; [reflexivity|]. destruct (63 <? pl); steps; reflexivity.
  - replace (slen pre <? slen x) with true by (subst x; symmetry; apply Z.ltb_lt; rewrite slen_app; pose proof (slen_pos c rest); lia).
    steps. assert (Hb : byte_at (slen pre) x = Some (byte c)) by (subst x; apply byte_at_app).
    rewrite Hb. steps.
    match goal with |- context [lift ?T (switch_picked _ _ _ _)] =>
      replace T with (Ok (if letter_ c then Some 1%nat else if digit c then Some 2%nat else if dash c then Some 3%nat
        else if dot c then Some 4%nat else None)
        {| env_ := [[("c", VInt (byte c))]; [("i", VInt (slen pre))]; [("partlen", VInt pl); ("ok", VBool ok); ("last", VInt (byte last)); ("s", VStr x)]];
           doc := d; ord_w := w; ord_u := u |})
    end.
    2: { clear. unfold letter_, digit, dash, dot, between. destruct (97 <=? byte c), (byte c <=? 122), (65 <=? byte c), (byte c <=? 90), (byte c =? 95); cbn [andb orb];
         try reflexivity; destruct (48 <=? byte c), (byte c <=? 57); cbn [andb orb]; try reflexivity; destruct (byte c =? 45), (byte c =? 46); reflexivity. }
    assert (Hx' : x = (pre +++ String c "") +++ rest) by (subst x; clear; induction pre as [|a pre IH]; cbn; [reflexivity|f_equal; exact IH]).
    assert (Hz : slen pre + 1 = slen (pre +++ String c "")) by (rewrite slen_app; reflexivity).
    cbn [String.length] in Hn. assert (Hn' : (String.length rest < n)%nat) by lia.
    cbn [dn_loop]. destruct (letter_ c); [steps; rewrite Hz; exact (IH _ c _ _ _ Hx' Hn')|].
    destruct (digit c); [steps; rewrite Hz; exact (IH _ c _ _ _ Hx' Hn')|].
    change (dot last) with (byte last =? 46). change (dash last) with (byte last =? 45).
    destruct (dash c); [steps; destruct (byte last =? 46); steps; [reflexivity|]; rewrite Hz; exact (IH _ c _ _ _ Hx' Hn')|].
    destruct (dot c); [|steps; reflexivity].
    steps; destruct (byte last =? 46); steps; [reflexivity|]. destruct (byte last =? 45); steps; [reflexivity|].
    destruct (63 <? pl); steps; [reflexivity|]. destruct (pl =? 0); steps; [reflexivity|]. rewrite Hz; exact (IH _ c _ _ _ Hx' Hn').
Qed.

Lemma append_assoc a b c : (a +++ b) +++ c = a +++ b +++ c.
Proof. induction a as [|h a IH]; cbn; [reflexivity|f_equal; exact IH]. Qed.
Lemma str_call cx k dv c lx s :
  call_in funcs cx (S (S k)) "StringConstraint.Validate" [VObj (CStr dv c); VIf lx] s = res_ev (str_validate (cx_E cx) c (content lx (doc s))) s.
Proof.
  destruct s as [e d w u].
  open_call. steps.
  change (content lx (doc {| env_ := e; doc := d; ord_w := w; ord_u := u |})) with (content lx d).
  after_deref lx d (fun lr => {| env_ := [[("rv", VRv lr); ("sc", VObj (CStr dv c)); ("v", VIf lx); ("err", VNil)]]; doc := d; ord_w := w; ord_u := u |}).
  unfold str_validate. generalize dependent (deref1 (content lx d)). intros r Hr.
  destruct (same_str (kind r) "string") eqn:Hk.
  2: { steps. destruct r as [|[] [| | | | |T x| | | | | | |]]; try reflexivity; discriminate. }
  destruct r as [|[] [| |T [] ?|T [] ?|T [] ?|T x| | | | | | |T [] ?]]; try discriminate. clear Hk. 
  destruct c as [mx mn rx fm en]. unfold str_check. cbn [s_max s_min s_fmt s_rx s_enum].
  steps.
  joined (if (-1 <? mx) && (mx <? slen x) then Fail ("string longer than maxLength " +++ dec_Z mx) else Pass).
  { destruct (-1 <? mx); steps; [destruct (mx <? slen x); steps|]; verdict. }
  destruct (_ && _); [cbn; congruence|]. cbn [stmt_res]. clear s1 H0. steps.
  joined (if (-1 <? mn) && (slen x <? mn) then Fail ("string shorter than minLength " +++ dec_Z mn) else Pass).
  { destruct (-1 <? mn); steps; [destruct (slen x <? mn); steps|]; verdict. }
  destruct (_ && _); [cbn; congruence|]. cbn [stmt_res]. clear s1 H0. steps.
  match goal with |- context [switch_picked _ _ _ _] => idtac end.
  joined_at (format_check (cx_E cx) fm x) {| env_ := [[("ls", VInt (slen x)); ("str", VStr x); ("rv", VRv lr); ("sc", VObj (CStr dv {| s_max := mx; s_min := mn; s_fmt := fm; s_rx := rx; s_enum := en |})); ("v", VIf lx); ("err", VNil)]]; doc := d; ord_w := w; ord_u := u |}.
  { unfold format_check. fold (same_str fm "datetime").
    destruct (same_str fm "datetime").
    { steps. destruct (e_time (cx_E cx) x); steps; verdict. }
    fold (same_str fm "email"). destruct (same_str fm "email").
    { steps. destruct (e_email (cx_E cx) x); steps; verdict. }
    fold (same_str fm "hostname"). destruct (same_str fm "hostname").
    { steps. rewrite domain_call. destruct (is_domain_name x); steps; verdict. }
    fold (same_str fm "ipv4"). destruct (same_str fm "ipv4").
    { steps. unfold ipv4_chars, rune_entries.
      match goal with |- exists s1, no_break (leave (ends_here ?X ?K)) = _ /\ with_env ?e s1 = ?s2 =>
        match X with rounds _ _ _ _ _ _ ?s0 =>
          assert (H : exists s1, X = (if forallb (fun r => (r =? 46) || ((48 <=? r) && (r <=? 57))) (runes x) then Nx s0
             else Rt [VErr "invalid IPv4 address"] s1) /\ with_env e s1 = s2)
        end
      end.
      { generalize (runes x). intro l. induction l as [|r l IH]; cbn [map forallb].
        - cbn [rounds]. verdict.
        - round1. steps. destruct (r =? 46); cbn [orb]; steps; [exact IH|].
          destruct (48 <=? r); cbn [andb]; steps; [|verdict]. destruct (r <=? 57); steps; [exact IH|verdict]. }
      destruct H as (s1 & -> & Hs). destruct (forallb _ (runes x)); cbn [negb]; [|exists s1; split; [reflexivity|exact Hs]].
      clear s1 Hs. steps. destruct (e_ip (cx_E cx) x); steps; verdict. }
    fold (same_str fm "ipv6"). destruct (same_str fm "ipv6").
    { steps. unfold ipv6_chars, rune_entries.
      match goal with |- exists s1, no_break (leave (ends_here ?X ?K)) = _ /\ with_env ?e s1 = ?s2 =>
        match X with rounds _ _ _ _ _ _ ?s0 =>
          assert (H : exists s1, X = (if forallb (fun r => (r =? 58) || ((48 <=? r) && (r <=? 57))) (runes x) then Nx s0
             else Rt [VErr "invalid IPv6 address"] s1) /\ with_env e s1 = s2)
        end
      end.
      { generalize (runes x). intro l. induction l as [|r l IH]; cbn [map forallb].
        - cbn [rounds]. verdict.
        - round1. steps. destruct (r =? 58); cbn [orb]; steps; [exact IH|].
          destruct (48 <=? r); cbn [andb]; steps; [|verdict]. destruct (r <=? 57); steps; [exact IH|verdict]. }
      destruct H as (s1 & -> & Hs). destruct (forallb _ (runes x)); cbn [negb]; [|exists s1; split; [reflexivity|exact Hs]].
      clear s1 Hs. steps. destruct (e_ip (cx_E cx) x); steps; verdict. }
    fold (same_str fm "uri"). destruct (same_str fm "uri").
    { steps. destruct (e_uri (cx_E cx) x); steps; verdict. }
    steps. verdict. }
  destruct (format_check (cx_E cx) fm x); [|cbn; congruence|cbn; congruence|cbn; congruence]. cbn [stmt_res]. clear s1 H0. steps.
  joined_at (match rx with Some r => if negb (e_rx (cx_E cx) r x)
          then Fail ("string '" +++ x +++ "' does not match regular expression '" +++ r +++ "'") else Pass | None => Pass end)
    {| env_ := [[("ls", VInt (slen x)); ("str", VStr x); ("rv", VRv lr); ("sc", VObj (CStr dv {| s_max := mx; s_min := mn; s_fmt := fm; s_rx := rx; s_enum := en |})); ("v", VIf lx); ("err", VNil)]]; doc := d; ord_w := w; ord_u := u |}.
  { destruct rx as [r|]; steps; [destruct (e_rx (cx_E cx) r x); steps|]; try verdict.
    cbn [negb stmt_res]. rewrite !append_assoc. verdict. }
  match goal with |- called _ (ends_here (stmt_res ?A _ _) _) = res_ev ?B _ =>
    assert (HB : B = match A with Pass => match en with None => Pass | Some l => enum_loop l (gstr x) end | r => r end)
      by (destruct rx as [r|]; [destruct (e_rx (cx_E cx) r x)|]; reflexivity); rewrite HB; clear HB; destruct A
  end; [|cbn; congruence|cbn; congruence|cbn; congruence]. cbn [stmt_res]. clear s1 H0. steps.
  destruct en as [l|]; steps; [|reflexivity].
  rewrite enum_call_str. destruct (enum_loop l (gstr x)); cbn [res_ev]; steps; reflexivity.
Qed.
