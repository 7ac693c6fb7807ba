(** What was proved of the model of the command (C67-C69) holds of cmd/jsval/jsval.go as run
    from its text; concrete runs. *)
From Verif Require Import Base GoFloat FloatSpec FloatProofs GoValue Maybe Formats HostSpec Constraint StructInfo Validate Fuel Reach Terminate ConstrInd Local
  Refuted Builder BuildSpec BuildProofs BuildRefs BuildErr Spec SpecSound SpecMain Scalars DocSpec Height SchemaSpec SchemaForm SchemaRegular SchemaMeans SchemaMain BuildCases
  GoText GoLang GoEval Generator GenLex GenParse GenCode GenLike GenSpec GenFaith GenRound GenObj GenMain GenProcess GenTheorems GenCases EndToEnd EndCases Cli CliProofs CliCases SrcShell SrcCli SrcCliRun.
Open Scope Z_scope.
Open Scope string_scope.
Open Scope list_scope.

Section Transfer.
  Context (h : host) (G : genv) (fuel : nat) (ch : choices).
  Context (pn : string -> bool) (serve : string -> option string) (argv : list string) (srv_opts : option string).
  (** jspointer.New rejects a text: there is nothing to get with it *)
  Hypothesis Hpn : forall q m, pn q = false -> h_get h q m = None.
  (** not started as a server *)
  Hypothesis Hcli : serving argv = false.
  Notation run_main o wd := (src_main h G fuel ch pn serve argv o srv_opts wd).

  Lemma main_is_cli o wd : run_main o wd = Some (cli h G fuel o ch wd).
  Proof. rewrite main_source by exact Hpn. rewrite Hcli. reflexivity. Qed.

  (** C67 *)
  Theorem source_generates E bytes o wd m ss :
    readable h o wd m ss -> writable_out h o -> good_prefix (o_prefix o) ->
    let D := h_names h m in
    (forall k s, BuildSpec.lookup D k = Some s -> BuildSpec.Sorted s) ->
    (forall s, In s ss -> BuildSpec.Sorted s /\ sound D s /\ all_plain E D s bytes s /\ codable D s) ->
    (forall s s', In s ss -> In s' ss -> Referred D s "#" -> Referred D s' "#" -> s = s') ->
    exists e wd', run_main (Some o) wd = Some (e, wd') /\ (e <> Loops ->
    e = Exit 0 /\ exists code st, delivered h o code wd wd' /\ run_go code = Some st /\
      forall i s, nth_error ss i = Some s -> exists j,
        sget (member_name (o_prefix o) i) (e_vars st) = Some (VJ j) /\ j_name j = member_name (o_prefix o) i /\
        speaks_for E D s bytes (run_refs st) (j_name j) (j_root j)).
  Proof.
    intros A B C D S1 S2 S3. destruct (cli h G fuel (Some o) ch wd) as [e wd'] eqn:X. exists e, wd'. split.
    - rewrite main_is_cli, X. reflexivity.
    - intros N. eapply cli_generates; eauto.
  Qed.

  (** C68 *)
  Theorem source_failure opts wd e wd' : run_main opts wd = Some (e, wd') -> e <> Exit 0 ->
    wd' = wd \/
    exists o m ss ps, opts = Some o /\ o_outfile o <> "" /\ readable h o wd m ss /\ Forall2 (built_from fuel (h_names h m)) ss ps /\
      (forall code w, process G (validators (o_prefix o) ps) (ch_gen ch) <> GOk (code, w)) /\
      wd' = {| w_files := sset (o_outfile o) "" (w_files wd); w_stdout := w_stdout wd |}.
  Proof. rewrite main_is_cli. intros [= X]. eapply cli_failure; eauto. Qed.

  (** C69 *)
  Theorem source_success opts wd wd' : run_main opts wd = Some (Exit 0, wd') ->
    exists o m ss ps code w, opts = Some o /\ readable h o wd m ss /\ Forall2 (built_from fuel (h_names h m)) ss ps /\
      process G (validators (o_prefix o) ps) (ch_gen ch) = GOk (code, w) /\ delivered h o code wd wd'.
  Proof. rewrite main_is_cli. intros [= X]. eapply cli_success; eauto. Qed.
End Transfer.

(** the host of CliCases.v; its pointers begin with a slash *)
Definition pn0 (q : string) : bool := match q with String "/" _ => true | _ => false end.
Lemma pn0_ok q m : pn0 q = false -> h_get host0 q m = None.
Proof.
  unfold pn0, host0, h_get. destruct q as [|[[] [] [] [] [] [] [] []] q]; cbn; congruence.
Qed.
Definition argv0 : list string := ["jsval"; "-s"; "schema.json"; "-p"; "/tree"; "-p"; "/pile"; "-P"; "Doc"; "-o"; "code.go"].
Example source_doc ch serve so : exists code,
  src_main host0 G0 7 ch pn0 serve argv0 (Some (run0 ["/tree"; "/pile"] "Doc" "code.go")) so wd0 =
  Some (Exit 0, {| w_files := [("code.go", code); ("schema.json", "doc")]; w_stdout := "" |}).
Proof.
  destruct (doc_ends ch) as [code C]. exists code. rewrite main_is_cli by (exact pn0_ok || reflexivity). now rewrite C.
Qed.
(** the previous output is gone although no code could be generated; and nothing is touched
    when a pointer leads nowhere, or is no pointer *)
Definition ch0 : choices := {| ch_build := fun _ => []; ch_gen := [] |}.
Example source_lost : src_main host0 G0 10 ch0 pn0 (fun _ => None) argv0 (Some (run0 ["/rest"] "" "code.go")) None wd0 =
  Some (Exit 1, {| w_files := [("code.go", ""); ("schema.json", "doc")]; w_stdout := "" |}).
Proof. vm_compute. reflexivity. Qed.
Example source_early : src_main host0 G0 10 ch0 pn0 (fun _ => None) argv0 (Some (run0 ["/tree"; "nothing"] "" "code.go")) None wd0 = Some (Exit 1, wd0).
Proof. vm_compute. reflexivity. Qed.
(** started as a server whose address is taken *)
Example source_server : src_main host0 G0 10 ch0 pn0 (fun _ => Some "address in use") ["jsval"; "server"] None (Some ":8080") wd0 = Some (Exit 1, wd0).
Proof. vm_compute. reflexivity. Qed.
