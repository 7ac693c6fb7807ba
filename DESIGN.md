# Formal model of lestrrat/go-jsval in Rocq (Coq 8.16.1)

## Approach

The code under /repo is read as text and transcribed, function by function, into
executable Gallina (files `rocq/theories/*.v`, each definition citing file and lines).
Properties are stated against small separate specifications and proved for all inputs,
states, iteration orders and interleavings.  The theorems to read are collected in
`theories/Properties*.v` (statements only; regenerated by `tools/gen_properties.py` from
`tools/claims.py`), and MANIFEST.json maps every property to them.

* **Go values** (`GoValue.v`): an inductive type of dynamic values (nil, scalars of
  every kind and named type, slices, maps, pointers, structs with field descriptors
  and tags, Maybe values, opaque kinds).  Strings are byte strings.  Values are *trees*:
  two occurrences of one map inside a document are not shared.  Mutation through maps and
  pointers is modelled by returning the new value.
* **Outcomes**: `Pass`, `Fail message`, `Panic reason`, and `OOF` (out of fuel, used
  only because references make Validate a general recursion; theorems exclude it or
  speak about it explicitly, and `Fuel.v` proves more fuel never changes a result).
* **Map iteration order** (`Base.v`): every `range` over a Go map is a permutation
  chosen by an oracle that is threaded through the run; theorems quantify over all
  oracles, and it is proved that every permutation is produced by some oracle.
* **Floats** (`GoFloat.v`): Coq's `spec_float` (IEEE-754 binary64/32), with exact
  rational meaning as specification.
* **External functions** (regexp matching, time.Parse, mail.ParseAddress, url.Parse,
  net.ParseIP, float printing): fields of an environment record, universally
  quantified in the theorems.
* **Concurrency** (`RefConc.v`, `RegConc.v`, `Server.v`): small-step machines
  over explicit lock states; theorems by invariants over all interleavings.
* **Generated code** (`Generator.v`, `GoText.v`, `GoLang.v`, `GoEval.v`): the generator's
  text output is produced as a string, and separately a lexer, parser and evaluator of the
  Go subset that occurs in it turns the text back into validators.

* **The source text itself** (`SrcText.v`, `SrcSyntax.v`, `SrcExec.v`, `SrcProg.v`): twelve
  Go files of /repo are embedded verbatim, line by line (`tools/embed.py` writes SrcText.v;
  `tools/embed.py --check` compares it with /repo).  A lexer and parser inside Coq turn them
  into syntax trees, and an interpreter gives the trees their meaning.  C75 proves that
  interpreting the Validate, HasDefault and DefaultValue methods gives what the transcribed
  model gives, so the transcription in Validate.v is not trusted; C76 restates the main
  theorems for the text.
* **The text of the builder** (`SrcTextB.v`, `SrcStore.v`, `SrcProgB.v`): the eight files of
  builder/ and interface.go, embedded in the same way.  Constructors, setters and the builder work on
  pointers, so their interpreter has a store: a cell per allocation, pointers into cells
  (with a path of field names for embedded structs), maps by reference, escaping locals in
  cells of their own.  C78 proves that what Build leaves in the store represents the
  constraint tree of Builder.v; C79 composes it with C76; C80 does the same
  for expressions of the fluent API.
* **The text of the generator** (`SrcTextG.v`, `SrcGen.v`, `SrcProgG.v`): generator.go, embedded
  in the same way, with an interpreter of its own: numbered buffers, constraints as read-only
  trees, map loops in the order the oracle says.  C81 and C82 prove that running it gives the
  texts of Generator.v, from generateCode up to Process; C83 joins this with the theorems on
  running generated files.
* **The text of maybe.go, of the command and of the playground handlers** (`SrcMaybe.v`; `SrcTextC.v`,
  `SrcShell.v`, `SrcCli.v`, `SrcServer.v`): C85, C86 and C87, and C88 for the way from the
  command or a request to the verdicts of Validate.

## Properties the code does not have

Where the faithful model violates a property, the full statement stays as a Prop
`..._full`, `..._refuted : ~ ..._full` is proved by running a witness, and a second theorem
states the exact guard under which the property holds.  Such properties have status
`partial` in MANIFEST.json with the note "REFUTED as stated; exact guard proved".

## Trusted base

* Coq 8.16.1's kernel (and `vm_compute` for the concrete cases).
* `Print Assumptions` is printed for every theorem listed in MANIFEST.json, in the
  Properties files.  Every one answers "Closed under the global context": no axiom of the
  standard library is used, and none is added.
  `coqchk`/`vcheck` additionally list the seven module-type fields
  `Coq.ssr.ssrunder.Under_rel.*` (Under_rel, Under_rel_from_rel, Under_relE, over_rel,
  over_rel_done, under_rel_done, Over_rel): they come with the standard library files being
  loaded, and no theorem depends on them.
* For the Validate, HasDefault, DefaultValue methods: that SrcText.v is the text of /repo,
  and that the parser (SrcSyntax.v) and interpreter (SrcExec.v) give Go's meaning to the
  constructs and library calls that occur in it: package reflect on places of a tree,
  method selection by dynamic type (`method`), struct fields (`obj_field`), fmt/errors
  texts, the loops over maps.  A construct or call without a meaning is stuck, and C75 shows
  this never happens.  `orders` only says which choices of the oracle decide the order of
  which loop (C76 loop_orders: every loop can run in every order).
* For the builder and the setters: the same of SrcTextB.v and the interpreter in SrcStore.v:
  struct layouts are read from the text; schemas are read-only values whose fields and
  methods are those of Builder.v's record; ranging over a map that changes follows Go's
  rule (entries not yet reached and deleted are not produced, entries added may or may not
  be).
* For the generator: the same of SrcTextG.v and the interpreter in SrcGen.v; for maybe.go of
  SrcText.v and SrcMaybe.v (time.Parse and Format are parameters, encoding/json of one basic
  value is as in Maybe.v).
* For the command and the handlers of the playground: the same of SrcTextC.v and the interpreter in
  SrcShell.v, and that SrcCli.v and SrcServer.v say what the packages called do.  Results of
  these packages are inputs; a call with arguments of other kinds than those listed there
  has no meaning, and C86 and C87 show that no run comes to one.
* For everything else: that the definitions below say what the Go code does; each cites its
  lines.
* That the small specifications say what the properties mean: `Spec.v`/`DocSpec.v`
  (documented meaning of a constraint), `Structure.v` (single runs), `SchemaSpec.v`
  (meaning of a JSON Schema), `BuildSpec.v` (which schemas are faulty), `FloatSpec.v`
  (numbers as rationals), `HostSpec.v` (host name grammar), `GenSpec.v`, `GenFaith.v`
  (what the generator can express), `Linear.v` (linearizability).

### What is modelled

| Go source | Model |
|---|---|
| basic.go, bool.go, enum.go, number.go, string.go, array.go, object.go, combinations.go, reference.go: Validate | Validate.v |
| the fluent setters and constructors of the same files | Constraint.v, Fluent.v |
| string.go:132-229 isDomainName, IP character checks | Formats.v |
| reference.go ConstraintMap, Resolved (locking) | RefConc.v |
| structinfo.go extract, PropNames, FieldName | StructInfo.v |
| structinfo.go registry (locking) | RegConc.v |
| maybe.go Set/Valid/Value/Reset/MarshalJSON/UnmarshalJSON | Maybe.v |
| jsval.go Validate | Validate.v (jsval_validate) |
| builder/*.go | Builder.v |
| generator.go | Generator.v, GoText.v |
| the text of array.go, basic.go, bool.go, combinations.go, enum.go, jsval.go, number.go, object.go, reference.go, string.go, structinfo.go, maybe.go | SrcText.v; the interpreted methods: SrcExec.v, SrcProg.v, agreement with Validate.v in SrcMain.v |
| the text of builder/*.go, interface.go | SrcTextB.v; interpreted in SrcStore.v, agreement with Builder.v in SrcBuildAll.v, SrcBuilt.v, SrcBuildW.v |
| the methods of maybe.go, from the same text | SrcMaybe.v, agreement with Maybe.v in SrcMaybeRun.v |
| the text of cmd/jsval/jsval.go (embedded in SrcTextC.v): _main, _server, _cli | SrcShell.v (interpreter), SrcCli.v (the packages it calls); agreement with Cli.v in SrcCliRun.v, cases in SrcCliCases.v |
| the text of ServeHTTP, httpIndex, httpGenerateValidator in server/server.go (embedded in SrcTextC.v) | SrcServer.v, by the interpreter of SrcShell.v; agreement with Server.v in SrcServerRun.v, composition with builder and generator in SrcServerCases.v. getTemplates and Run are not run from the text |
| the text of generator.go | SrcTextG.v; interpreted in SrcGen.v, agreement with Generator.v in SrcGenAll.v |
| server/server.go | Server.v |
| cmd/jsval/jsval.go _cli | Cli.v |
| the Validate methods again, with maps in a heap | Heap.v |
| the Validate methods on structs with property methods | Custom.v |

### What is not modelled, or simplified

* pdebug tracing (compiled out unless a build tag is set).
* Sharing: one map or pointer reachable from two places of a document or from a document
  and a constraint's default value.  Documents decoded by encoding/json have no sharing.
  Heap.v models Validate on a heap for values as encoding/json makes them and proves when
  the tree model is exact (C70, C71); sharing through pointers and structs is not modelled.
* Maybe implementations other than those of maybe.go.  Structs with their own GetPropNames,
  GetPropValue, SetPropValue methods are modelled in Custom.v as the document itself, not
  as a part of one.
* Conversions of defaults to field types other than between numbers and within one scalar
  kind (object.go:223-226).
* encoding/json's text layer: JSON is abstract syntax in Maybe.v.  time.Time is an instant
  number.  Texts that fmt prints for unusual values go through the environment.
* jsschema, jsref and jspointer are not part of /repo.  The builder takes the parsed schema
  record; its fields are taken to be what jsschema's Extract leaves there (a nil
  AdditionalProperties means "not allowed", Default nil means "no default", ...).
  Resolving a reference text is a function parameter.
* regexp compilation in the builder succeeds iff a parameter says so.
* go/format's Source: taken to change the layout only; its failure on unparsable text is
  the failure of the parser in GoLang.v.  unicode.IsPrint above 0x7f and the texts fmt
  writes for bad %-verbs are parameters (`g_print`, `g_bad`).
* The generator compares constraints with == on interface values (generator.go, root
  lookup); `v_same` says which root is which reference, assumed only where stated.
* In GoEval.v Go's static typing is checked only where a call or assignment uses a value.
* HTTP plumbing, logging and flag parsing: the outcome of each stage is an input.  Files
  are texts by name; opening, creating and writing may fail as parameters say (Cli.v).
* The interpreter of the source: pdebug is off, locks do nothing, the document is a tree,
  maps made by the functions are kept by value (stuck if two variables could share one), the
  registry of struct metadata is a cache of `extract` (C39), a resolved reference a cache of
  its resolver (C31).  Of the embedded files only the functions Validate reaches are
  interpreted in theorems, and structinfo.go's extract (C77, SrcInfo.v); the Validate methods
  call `extract` and maybe.go's methods as the model's functions.
* The interpreter of the command: log.Printf and a deferred Close do nothing, flags.Parse
  fills the options or fails, jspointer.New rejects only texts that Get finds nothing with.
  server.Run either fails or returns.
* The interpreter of the handlers: a handler writes its content in one piece (no run writes
  twice), writing to the client and reading the request (io.Copy) succeed, http.NotFound is
  one step without a content type (Go's sets text/plain).
  getTemplates is a stage with an outcome; its locking is the transition system of
  Server.v, not run from the text.
* internal/cmd/* (code generation of maybe.go and of a test).

## Plan per property


* **C01** `DocSpec.v`: declarative mutually inductive Satisfies/Violates; induction on fuel. `DocDeviates.v`: runs that contradict it for each excluded feature.
* **C02** corollary of C01 and disjointness of Accepts/Rejects under the guard.
* **C03** witness (refuted) and the exact guard (in C02).
* **C04** witnesses; positive statement for default-free children from C06.
* **C05** relation Extends between values; induction on fuel with no guard.
* **C06** induction on fuel.
* **C07** loop invariants of the property loop.
* **C08** exact theorem + refutation witness.
* **C09** exact theorem + refutation witnesses.
* **C10** loop lemma on the dependency phase.
* **C11** loop lemma.
* **C12** direct.
* **C13** loop lemma, both directions.
* **C14** exact characterisation + refutation witness.
* **C15** stringification model; NoDup characterisation; refutation witness.
* **C16** list induction; permutation invariance.
* **C17** case analysis + fuel monotonicity.
* **C18** correctness of SFcompare against rationals.
* **C19** exact remainder over integers.
* **C20** floor and conversion exactness; rounding witness.
* **C21** list induction over interface equality.
* **C22** direct; formats separately.
* **C23** state machine vs split-on-dots grammar, induction on the string.
* **C24** UTF-8 rune loop vs bytes; ParseIP is an oracle, and a model of parseIPv4 if time permits.
* **C25** refutation + theorem that any other character is rejected.
* **C26** case analysis.
* **C27** induction on fuel with well-formedness predicate.
* **C28** well-founded induction on (depth, reference rank, size).
* **C29** no fuel suffices: refutation.
* **C30** direct + fuel monotonicity.
* **C31** interleaving machine, invariant.
* **C32** refinement to a finite map.
* **C33** interleaving machine, progress.
* **C34** `StructInfo.v`.
* **C35** simulation between struct and map runs.
* **C36** state machine per type.
* **C37** JSON values as abstract syntax (the JSON text layer is encoding/json and is not modelled).
* **C38** direct from the property loop.
* **C39** interleaving machine, invariant.
* **C40** algebraic laws.
* **C41** `Builder.v`, invariant on the set of compiled references.
* **C42** fuel bound by the number of references.
* **C43** `SchemaSpec.v` and composition with C01.
* **C44** refutation + always-rejects theorem.
* **C45** refutation + first-wins theorem.
* **C46** direct.
* **C47** `Generator.v`: text emission, tokeniser, parser and evaluator for the emitted Go subset; round trip.
* **C48** witnesses.
* **C49** sorting of a permutation is unique.
* **C50** direct.
* **C51** direct + witnesses.
* **C52** witness + guarded theorem.
* **C53** `ServerModel.v` with stage outcomes as inputs.
* **C54** interleaving machine.
* **C55** witness + characterisation of setter chains (`Fluent.v`).
* **C56** witness + exactness within the range where float64 is exact.
* **C57** witness + exact behaviour.
* **C58** witness (two racing operations) + race freedom of the rest, interleaving machine.
* **C59** induction on fuel over reachable references (`Local.v`).
* **C60** from the specification of Build's result (`BuildRefs.v`).
* **C61** witness + exact behaviour per type.
* **C62** witness + "builds as if the guessed types were stated".
* **C63** witness + format ignored.
* **C64** witness + exactness on one-byte characters.
* **C65** `EndToEnd.v`: composition of C41, C43 and C47, after showing that codable schemas build emittable and faithful constraints.
* **C66** witness + `EndToEnd.v` for lists of validators with consistent references.
* **C67** witness + C65/C66 through the command's loop over pointers, `CliProofs.v`.
* **C68** witness + case analysis of the run, no guard.
* **C69** witness + case analysis of the run.
* **C70** witness + simulation between the heap model and the tree model, `HeapProofs.v`; induction on fuel.
* **C71** witness + the same simulation.
* **C72** witness + frame theorem by induction on fuel.
* **C73** witness + simulation between object and map by induction on fuel, `CustomProofs.v`.
* **C74** equality of the two models by induction on fuel.
* **C75** the text embedded in Coq, parsed and interpreted there; per method a lemma that interpreting it gives the model's step, loops by induction over the entries left; induction on nesting depth (`SrcMain.v`).
* **C76** C75 composed with C01, C27, C02, C28 (`SrcCases.v`).
* **C77** `SrcInfo.v`: induction on the embedding depth, invariant "the map built so far has the entries of the model's list" for the field loop and the merge loop.
* **C78** `SrcStore.v` interprets the text over a store of cells; one lemma per constructor and setter (`SrcSetters.v`, `SrcSetObj.v`), relation `rep` between stores and constraint trees (`SrcRep.v`), one lemma per builder function, induction on the height of the schema (`SrcBuilt.v`), on fuel for compileReferences, invariant for the loop over the growing map.
* **C79** C78 composed with C76 and C43; built validators are canonical (`SrcEnd.v`).
* **C80** `SrcFluent.v`: syntax of fluent expressions, their meaning by Fluent.v, their run by the store interpreter; one invariant per kind of constraint kept by every setter, induction on the expression. `SrcFluentRun.v` composes it with C76.
* **C81** one lemma per function of generator.go (`SrcGenFun.v`, `SrcGenEnum.v`, `SrcGenStr.v`, `SrcGenTree.v`, `SrcGenObj.v`, `SrcGenCode.v`), loops by induction over the entries left (`SrcGenLoop.v`), structural induction on the constraint with the fuel as the maximum over its parts (`SrcGenAll.v`).
* **C82** `SrcGenVal.v` (generateValidatorCode), `SrcGenMerge.v` (gathering the references is the same whatever the order, since names that are already there are skipped), `SrcGenProc.v` (each loop of Process by induction over the entries left; the buffers made for the references pile up after Process's own).
* **C83** `SrcGenRun.v`: emittable constraints are tame; C82 composed with C47.
* **C84** `SrcTidy.v`: running any file keeps "every constraint is in canonical form" (induction on expressions, one case per API call); `SrcWay.v`: C78, C82, C65 and C75 composed.
* **C85** `SrcMaybe.v`: a small interpreter for the methods of maybe.go (receivers by pointer or by value and struct fields read off the text too); `SrcMaybeRun.v`: one step lemma per kind of statement, then every method on every value by cases on the dynamic type of the argument.
* **C86** `SrcShell.v`: an interpreter in continuation-passing style, so that a package call may end the run; `SrcCli.v`: what the packages do, in terms of the host of `Cli.v`; `SrcCliRun.v`: one statement at a time, with one lemma for each of the two loops stated for any body that meets a pointwise specification; `SrcCliCases.v`: C67-C69 carried over, concrete runs.
* **C87** `SrcServer.v`: the http.ResponseWriter as status, content type and one piece of content, headers lost once the status is out; `SrcServerRun.v`: no loops, so the run is computed for each of the three paths and compared by cases on what each stage returns; `SrcServerCases.v`: C53 carried over, and the served code by way of `cli_generates` on a host made for the purpose.
* **C88** `SrcShellWay.v`: C86 and C87, then `run_canonical` and `speaks_source` (C84) on the code delivered.
