import json
P=[]
def p(id,title,st,q,why,*anch):
    P.append(dict(id=id,title=title,statement=st,quantifier=q,why_tests_cant=why,anchors=list(anch)))
p("C01","Validate decides exactly the documented meaning of the constraint",
"For a constraint built with the fluent API (references resolved through one ConstraintMap) and a decoded document, Validate returns nil exactly when the document satisfies the declarative meaning of the constraint (types, bounds, required/additional/pattern properties, dependencies, items, combinators) and returns an error exactly when it violates it.",
"every constraint tree, every set of named references, every JSON-like document of any size and depth, every Go map iteration order",
"the constraint and document spaces are infinite and nested, and the iteration order is random per run",
"object.go:ObjectConstraint.Validate","array.go:ArrayConstraint.Validate","combinations.go","reference.go:ReferenceConstraint.Validate")
p("C02","The verdict does not depend on Go's map iteration order",
"Two runs of Validate on equal inputs return the same verdict, and when they pass they leave the same value behind, whatever order Go iterates the property, pattern and dependency maps in, as long as no two patterns of one object match the same unlisted property and no default can be inserted below Any/OneOf/Not or a schema dependency.",
"every pair of iteration orders, every constraint meeting the guard, every document",
"Go randomises map order; a passing test run says nothing about the other orders",
"object.go:ObjectConstraint.Validate")
p("C03","Every pattern matching a property is enforced",
"When a property name matches several PatternProperties, the value is accepted only if it satisfies all of their constraints, independently of iteration order. (False of the code: only one matching pattern is applied, and which one depends on map order.)",
"every object constraint with overlapping patterns, every iteration order",
"the failure appears only under some iteration orders",
"object.go:ObjectConstraint.Validate")
p("C04","A failing alternative leaves no trace",
"When Any, OneOf or Not tries a child constraint and that child rejects the value, the value is unchanged, so that later alternatives see the caller's input. (False of the code: defaults inserted by the failing child stay, and can flip the overall verdict depending on map order.)",
"every combinator, every child, every document, every iteration order",
"the leak and the verdict flip need specific map orders",
"combinations.go:AnyConstraint.Validate","combinations.go:OneOfConstraint.Validate","basic.go:NotConstraint.Validate","object.go:ObjectConstraint.setProp")
p("C05","Validate never removes or overwrites data",
"Whatever the verdict (pass, error or panic), every entry present in the document before Validate is still present afterwards with the same scalar content, and every added entry was absent before and holds the default declared by some property constraint.",
"every constraint (no guard), every reference map, every value, every iteration order, every outcome",
"a frame condition over all inputs including failing runs",
"object.go:ObjectConstraint.setProp","object.go:ObjectConstraint.Validate")
p("C06","Validation without defaults is read-only",
"If no property constraint reachable from the validator declares a default, Validate leaves the value exactly as it was, whatever the outcome.",
"every default-free constraint, every Go value (maps, structs, pointers, slices), every iteration order and outcome",
"must hold for all inputs and failing paths",
"object.go:ObjectConstraint.Validate")
p("C07","A passing object has all its listed properties or their defaults",
"If Validate of an Object constraint passes on a map, then every name added with AddProp that was absent before is not Required, and now holds its declared non-nil default if there is one; every name that was present is still there.",
"every object constraint, every map, every iteration order",
"quantifies over all property sets and orders",
"object.go:ObjectConstraint.Validate","object.go:Required","object.go:AddProp")
p("C08","Required is enforced for every required name",
"Validate rejects any object that lacks a name passed to Required. (False of the code: a required name never given to AddProp is not checked.) It holds exactly for names that were also given to AddProp.",
"every object constraint, every name, every map",
"needs all combinations of Required and AddProp sets",
"object.go:Required","object.go:IsPropRequired","object.go:ObjectConstraint.Validate")
p("C09","Property dependencies",
"If PropDependency(from, to...) was given and Validate passes, then whenever `from` is present each `to` is present. (False of the code when `from` is neither listed with AddProp nor matched by a pattern; and a present `to` that is only an additional property is reported missing.) Exactly: it is enforced among listed or pattern-matched names.",
"every dependency map, every object, every iteration order",
"universal over dependency graphs and documents",
"object.go:PropDependency","object.go:GetPropDependencies","object.go:ObjectConstraint.Validate")
p("C10","Schema dependencies",
"If Validate passes, the whole object satisfies the constraint registered with SchemaDependency(from, c) for every listed or pattern-matched property `from` that is present and has no property dependency of its own.",
"every object constraint and document, every iteration order",
"universal over dependency maps and documents",
"object.go:SchemaDependency","object.go:GetSchemaDependency","object.go:ObjectConstraint.Validate")
p("C11","Additional properties",
"A property that is neither listed nor matched by any pattern makes Validate fail when no AdditionalProperties constraint was given, and is validated against it otherwise; listed or matched properties are never checked against it.",
"every object constraint and document",
"universal over property sets",
"object.go:AdditionalProperties","object.go:ObjectConstraint.Validate")
p("C12","minProperties and maxProperties",
"An object passes only if the number of properties supplied by the caller (before defaults) is at least MinProperties and at most MaxProperties; negative bounds mean unchecked.",
"every bound and every object",
"boundaries at every size",
"object.go:MinProperties","object.go:MaxProperties","object.go:ObjectConstraint.Validate")
p("C13","Array length bounds and Items",
"An Array constraint with Items accepts exactly the slices whose length lies within MinItems/MaxItems (negative = unchecked), whose elements are unique when UniqueItems is on, and all of whose elements satisfy the Items constraint; everything that is not a slice is rejected with an error.",
"every slice of any length and every element constraint",
"unbounded lengths and nesting",
"array.go:ArrayConstraint.Validate","array.go:Items","array.go:MinItems","array.go:MaxItems")
p("C14","Positional and additional items",
"With PositionalItems of length k, element i<k is checked against position i, elements beyond k against AdditionalItems, and with no AdditionalItems constraint more than k elements are rejected. (False of the code: when there are more than k elements, element k-1 is also checked against AdditionalItems.) The exact acceptance condition, including that off-by-one, is proved.",
"every list of positional constraints, every additional constraint, every slice",
"unbounded lengths; the off-by-one is visible only for particular constraints",
"array.go:ArrayConstraint.Validate","array.go:PositionalItems","array.go:AdditionalItems")
p("C15","UniqueItems",
"With UniqueItems(true), a slice with two equal elements is always rejected, and a slice of pairwise different strings is always accepted. (For general elements distinct values can be rejected because they stringify alike.)",
"every slice of any length; every pair of positions",
"quadratically many pairs, unbounded lengths",
"array.go:UniqueItems","array.go:ArrayConstraint.Validate")
p("C16","Combinators are boolean connectives",
"Any passes iff some child passes, All iff every child passes, OneOf iff exactly one child passes, Not iff its child fails (an unset child is an error); with children that do not insert defaults the verdict does not depend on the order children were added in.",
"every list of children of any length, every value",
"unbounded child lists and nested constraints",
"combinations.go","basic.go:NotConstraint.Validate")
p("C17","Reduce preserves meaning",
"For Any, All and OneOf, the constraint returned by Reduce gives the same verdict and the same final value as the combinator itself on every value.",
"every combinator and every value",
"semantic equivalence over all values",
"combinations.go:reduceCombined")
p("C18","Number bounds are exact",
"Number accepts a float exactly when it is not below the minimum (not at or below when exclusive) and not above the maximum (dually), in the exact real ordering of IEEE-754 binary64 values with infinities; NaN passes every bound; any non-float is rejected.",
"every binary64/binary32 value and bound, including infinities, NaN and signed zeros",
"2^128 pairs of floats",
"number.go:NumberConstraint.Validate","number.go:Minimum","number.go:Maximum")
p("C19","multipleOf is exact divisibility",
"With MultipleOf(m), m finite and non-zero, a finite float x passes iff x is an exact integer multiple of m as real numbers; MultipleOf(0) imposes nothing; NaN and infinities fail.",
"every pair of binary64 values",
"2^128 pairs of floats; no tolerance",
"number.go:MultipleOf","number.go:NumberConstraint.Validate")
p("C20","Integer accepts exactly integral numbers",
"Integer rejects finite floats with a fractional part and NaN, accepts integral floats and every Go int/uint kind, and then applies the Number rules to the value converted to float64; the conversion is exact for |n| <= 2^53. (Beyond that the bound checks can be wrong by rounding.)",
"every float and every 64-bit integer",
"2^64 integers per bound",
"number.go:IntegerConstraint.Validate")
p("C21","Enum is membership by Go interface equality",
"Enum accepts a value iff it is == to one of the listed values (same dynamic type and equal), and never panics when the listed values are all of comparable types.",
"every list of enum values and every value",
"unbounded lists and type combinations",
"enum.go:EnumConstraint.Validate")
p("C22","String constraints",
"String accepts exactly string-kind values (through at most one pointer) whose byte length is within MinLength/MaxLength, that satisfy the format, match the regexp, and are in the enum when these are set.",
"every string, every configuration",
"unbounded strings and configurations",
"string.go:StringConstraint.Validate")
p("C23","hostname format is the RFC 1035 label grammar",
"Format(\"hostname\") accepts a string iff it is 1..255 bytes, is a dot separated list of labels (optionally followed by one trailing dot), every label is 1..63 letters, digits, '_' or '-', does not begin or end with '-', and at least one label contains a letter or '_'.",
"every byte string",
"strings of any length; state-machine corner cases",
"string.go:isDomainName")
p("C24","ipv4 format",
"Format(\"ipv4\") accepts exactly the strings made of digits and dots that net.ParseIP accepts; no IPv6 text is ever accepted.",
"every byte string (UTF-8 or not)",
"unbounded strings",
"string.go:StringConstraint.Validate")
p("C25","ipv6 format",
"Format(\"ipv6\") accepts every valid IPv6 text. (False of the code: any address with a hexadecimal letter or embedded IPv4 part is rejected, since only digits and ':' are allowed.)",
"every byte string",
"unbounded strings",
"string.go:StringConstraint.Validate")
p("C26","Null, Boolean and Empty",
"NullConstraint accepts exactly nil and typed nils of chan, func, map, pointer and slice kinds; Boolean accepts exactly bool-kind values; EmptyConstraint accepts everything.",
"every Go value",
"all dynamic kinds",
"basic.go:nullConstraint.Validate","bool.go:BooleanConstraint.Validate")
p("C27","Validate does not panic on decoded documents",
"On any document produced by decoding JSON into interface{}, Validate of a constraint with no nil children and only comparable enum values returns (nil or error) and never panics.",
"every such constraint, every document, every iteration order",
"absence of panics over all inputs",
"object.go","array.go","string.go","number.go","enum.go","reference.go")
p("C28","Validate terminates when reference cycles descend",
"If every cycle of references passes through an object property or an array item and defaults are scalars, Validate terminates on every finite value.",
"every reference map meeting the guard, every value of any depth",
"termination over unbounded recursion",
"reference.go:ReferenceConstraint.Validate","object.go:ObjectConstraint.Validate","array.go:ArrayConstraint.Validate")
p("C29","Cyclic references",
"A reference that resolves to itself through references and combinators only is reported as an error rather than looping. (False of the code: Validate recurses without bound.)",
"every fuel/stack depth",
"non-termination cannot be observed by a test",
"reference.go:ReferenceConstraint.Validate","reference.go:HasDefault")
p("C30","References are transparent",
"Validating against Reference(m).RefersTo(n) gives the same verdict and final value as validating against the constraint registered under n, has the same default, and fails with an error when n is not registered.",
"every reference map, name and value",
"semantic equivalence over all values",
"reference.go")
p("C31","A reference resolves once",
"In every history of SetReference/GetReference/Resolved calls by any number of goroutines, all successful Resolved calls on one reference constraint return the same constraint, which is one that was registered under its name; later SetReference calls do not change it.",
"every history and every interleaving of any number of threads",
"all schedules",
"reference.go:Resolved","reference.go:SetReference","reference.go:GetReference")
p("C32","ConstraintMap is a map",
"GetReference returns the constraint most recently registered under that name and an error iff none was; Len is the number of distinct names registered.",
"every history of operations",
"unbounded histories",
"reference.go:ConstraintMap")
p("C33","Resolving and registering never deadlock",
"In every interleaving of Resolved, GetReference and SetReference calls there is always an enabled step until all calls have finished, and the two mutexes are each held by at most one thread.",
"every interleaving of any number of threads",
"all schedules",
"reference.go:Resolved","reference.go:SetReference")
p("C34","Struct property names follow the json tags",
"For a struct type with exported, non-embedded fields and distinct property names, the property names jsval uses are exactly: the part of the json tag before the first comma when non-empty, the Go field name otherwise, and fields tagged \"-\" and unexported fields have none; looking a name up finds exactly the field it came from.",
"every struct type and tag string",
"unbounded tag strings and field lists",
"structinfo.go:extract","structinfo.go:FieldName","structinfo.go:PropNames")
p("C35","Validating a struct equals validating the corresponding map",
"For a pointer to (or value of) a struct with non-embedded fields, an Object constraint without defaults gives the same verdict as on the map from property names to field values, where invalid Maybe fields are absent and valid ones are unwrapped.",
"every such struct and every object constraint",
"two infinite families compared pointwise",
"object.go:getProp","object.go:getPropNames","structinfo.go","maybe.go")
p("C36","Maybe values",
"For each Maybe type, after any history of Set and Reset, Valid is true iff the last successful Set is more recent than the last Reset, Value is the (converted) argument of the last successful Set, and Set succeeds exactly on the listed Go types and otherwise changes nothing.",
"every history of operations on each of the six Maybe types",
"unbounded histories; all dynamic types",
"maybe.go")
p("C37","Maybe JSON round trip",
"Encoding a valid Maybe and decoding the result gives a valid Maybe with the same value. (False of the code for MaybeTime, whose decoder never marks the value valid.) Decoding JSON null marks the other Maybe types valid with the zero value.",
"every value of each Maybe type",
"all values",
"maybe.go:MarshalJSON","maybe.go:UnmarshalJSON")
p("C38","Defaults reach Maybe fields through a pointer",
"Validating a pointer to a struct with an invalid Maybe field whose property has a (convertible) default and is not required makes the field valid with that default when it passes. Passing the struct by value, or nesting it by value, panics instead.",
"every struct, default and constraint",
"all combinations of field type and default type",
"object.go:setProp","object.go:coerceValue","maybe.go")
p("C39","Struct info cache is transparent",
"In every interleaving of Lookup/Register calls by any number of goroutines, whatever is returned for a type is what extracting it afresh gives, and the registry never holds anything else.",
"every interleaving",
"all schedules",
"structinfo.go:Lookup","structinfo.go:Register")
p("C40","Fluent setters",
"Each setter changes only its own aspect: setters for different aspects commute, the last call of a setter wins, Required and AddProp accumulate, AddProp overrides an earlier AddProp of the same name, PropDependency accumulates.",
"every sequence of setter calls",
"unbounded call sequences",
"object.go","array.go","string.go","number.go","combinations.go:Add")
p("C41","Built validators have all their references",
"When Build succeeds, every reference reachable from the validator's root or from any registered definition is registered, so validation never fails with 'reference not found'.",
"every schema document, every iteration order of the reference set",
"unbounded reference graphs and random map order, with the set growing while iterated",
"builder/builder.go:BuildWithCtx","builder/builder.go:compileReferences")
p("C42","Build terminates on recursive schemas",
"BuildWithCtx terminates for every finite document, even if its references are mutually recursive, and builds each reference at most once.",
"every finite reference graph, every iteration order",
"termination over unbounded graphs",
"builder/builder.go:compileReferences")
p("C43","The built validator means what the schema says",
"For a schema that states its type(s), the built validator accepts a decoded JSON document iff the document satisfies the JSON-Schema meaning of the type, numeric, string, array and object keywords, for the keywords the builder supports.",
"every schema in the fragment and every document",
"two infinite nested families",
"builder/builder.go:buildFromSchema","builder/number.go","builder/string.go","builder/array.go","builder/object.go")
p("C44","Number enumerations survive Build",
"A schema {type: number, enum: [..]} accepts exactly the listed numbers. (False of the code: the enumeration is wrapped in a one-element list, so every number is rejected.)",
"every enum list and number",
"universal over lists",
"builder/number.go:buildNumberConstraint")
p("C45","All combinator keywords are enforced",
"If a schema has several of not/allOf/anyOf/oneOf, the built validator enforces all of them. (False of the code: only the first in that order is used.)",
"every schema",
"universal over schemas",
"builder/builder.go:buildFromSchema")
p("C46","Build reports bad schemas as errors",
"Build(nil) and schemas with an unknown type return an error; errors in any sub-schema make Build fail; Build never returns both a validator and an error.",
"every schema",
"all nesting positions",
"builder/builder.go")
p("C47","Generated code rebuilds the validator",
"The Go code printed by Generator.Process, when run, rebuilds a validator that gives the same verdicts as the original, for constraints without the aspects the generator drops.",
"every constraint in the supported fragment, every string content without '%'",
"unbounded constraints and string contents",
"generator.go")
p("C48","Generation is lossless",
"The generated validator is equivalent to the original for every constraint. (False of the code: multipleOf, number enums, min/maxProperties, schema dependencies, forbidden additional items, fractional integer bounds are dropped, Not cannot be generated, and '%' in strings is mangled.)",
"every constraint",
"universal",
"generator.go")
p("C49","Generated code is deterministic",
"The text printed by the generator for a constraint does not depend on map iteration order when pattern sources are distinct.",
"every constraint and every iteration order",
"random map order",
"generator.go:generateObjectCode","generator.go:Process")
p("C50","JSVal.Validate reports the root's verdict",
"JSVal.Validate returns nil exactly when its root constraint accepts, and otherwise an error whose text starts with the validator's name and ends with the root's error text; with no root it panics.",
"every validator and value",
"universal over roots and values",
"jsval.go:JSVal.Validate")
p("C51","Pointers are followed consistently",
"Validating a pointer to a map or struct gives the same verdict as validating what it points to. (For pointers to interface variables and pointers to pointers the code lists the properties but then fails to read them.)",
"every value and object constraint",
"universal over values",
"object.go:ObjectConstraint.Validate","object.go:getProp","object.go:getPropNames")
p("C52","Validation is repeatable",
"If Validate passes, validating the resulting value again passes and changes nothing. (False of the code when an inserted default does not itself satisfy the constraint.) Holds when declared defaults satisfy their own constraints and there are no property-count or dependency checks.",
"every constraint and value",
"universal over values after mutation",
"object.go:ObjectConstraint.Validate")
p("C53","Playground endpoint",
"The generate endpoint answers success=true with the generated code iff reading, decoding, building and generating all succeed, and success=false with the first failing stage's message otherwise; other paths than / and /generate.json get 404.",
"every request",
"all stage outcome combinations",
"server/server.go")
p("C54","Page templates are parsed once",
"In every sequence of concurrent requests the template is parsed at most once successfully and every request sees the same template.",
"every interleaving of requests",
"all schedules",
"server/server.go:getTemplates")
p("C55","Integer() chains stay integers",
"A chain of setters on Integer() yields a constraint that rejects fractional numbers. (False of the code: MultipleOf and Enum are promoted from the embedded NumberConstraint and return it, so a chain containing them yields a number constraint.) Exactly the chains without those two are integer constraints.",
"every chain of calls and every number",
"all call sequences",
"number.go:IntegerConstraint","number.go:NumberConstraint.MultipleOf","number.go:NumberConstraint.Enum")
p("C56","Integer bounds are exact",
"An integer value passes a bound iff it satisfies it as a mathematical integer. (False beyond 2^53, where the value is rounded to float64 first.) For |z| <= 2^53 exact, and up to 2^64 no value within the bounds is rejected.",
"every Go integer and every bound",
"rounding differs only on sparse values",
"number.go:IntegerConstraint.Validate")
p("C57","Unspecified AdditionalItems",
"If AdditionalItems was not specified, extra items beyond PositionalItems are not allowed (as documented). (False of the code: the default is EmptyConstraint, so every extra item is allowed; only an explicit nil forbids them.)",
"every list of positional constraints and every array",
"universal over arrays and constraints",
"array.go:Array","array.go:ArrayConstraint.AdditionalItems")
p("C58","ConstraintMap is free of data races",
"No interleaving of SetReference, GetReference and Len writes the map while another access is in progress. (False of the code: Len takes no lock.) Holds for all programs without Len.",
"every number of goroutines, programs and interleavings",
"all schedules",
"reference.go:ConstraintMap.Len","reference.go:ConstraintMap.SetReference","reference.go:ConstraintMap.GetReference")
p("C59","Verdicts depend only on reachable references",
"Two reference maps that agree on every name reachable from a constraint give identical runs of Validate.",
"every constraint, value, and pair of reference maps",
"universal over maps",
"reference.go:ReferenceConstraint.Validate")
p("C60","Build does not depend on iteration order",
"Two successful builds of the same document, whatever order Go iterates the maps involved (including a map that grows while being ranged over), give the same root and the same registered references.",
"every schema document and every pair of iteration orders",
"Go randomises map order",
"builder/builder.go:Builder.BuildWithCtx","builder/object.go")
p("C61","Enumerations apply to every type",
"A schema with a type and an enumeration accepts only listed values. (False of the code: for boolean, object, array and null the enumeration has no effect; for number everything is rejected.)",
"every schema and document",
"universal over schemas",
"builder/bool.go","builder/builder.go:buildFromSchema")
p("C62","Keywords do not restrict the type",
"A schema without type accepts values of types its keywords do not speak about. (False of the code: the type is guessed from the keywords, and other types are rejected.) Exactly: such a schema builds as if its guessed types had been stated.",
"every schema without type",
"universal over schemas",
"builder/builder.go:guessSchemaType")
p("C63","The date-time format is checked",
"A string schema with format date-time accepts only RFC 3339 date-times. (False of the code: the format constant checked is 'datetime', so 'date-time' has no effect.)",
"every string",
"universal over strings",
"string.go:StringConstraint.Validate","builder/string.go")
p("C64","String lengths count characters",
"minLength/maxLength count characters of the text. (False of the code: bytes are counted.) Exact on strings all of whose characters are one byte long.",
"every UTF-8 string",
"universal over strings",
"string.go:StringConstraint.Validate","builder/string.go")
p("C65","Code generated from a schema means what the schema says",
"Build a validator from a schema, generate code for it, compile and run that code: the resulting validator accepts exactly the documents valid against the schema. (False of the code in general: the generator drops keywords, e.g. multipleOf.) Exact for all schemas every part of which is plain (C43) and writable: such schemas always generate, and the generated validator's verdict is the schema's, whatever the iteration orders in building, generating and validating.",
"every schema, document and iteration order",
"spans three components and an external compiler; tests compare generated text",
"builder/builder.go:Builder.BuildWithCtx","generator.go:Generator.Process","jsval.go:JSVal.Validate")
p("C66","Validators generated together keep their meaning",
"Process called with several validators writes code in which each behaves as it does alone. (False of the code: the references of all validators go to one map where the first definition of a name wins, so a second validator using '#' for itself gets the first one's root.) Exact when no two validators mean different constraints by one name.",
"every list of validators",
"universal over lists of validators",
"generator.go:Generator.Process","cmd/jsval/jsval.go:_cli")
p("C67","The jsval command generates validators for the schemas it is pointed at",
"A run of jsval on a readable schema document ends with status 0 and code that runs, in which the validator named prefix+i accepts exactly the documents valid against the schema at the i-th pointer. (False of the code: with prefix 'R' the names collide with those of the reference variables and the code does not compile; two schemas referring to '#' get one root.) Exact with the guards of C65 and C66 on the schemas, a prefix not among the names the generator uses, and a working file system; and then every run ends.",
"every schema document, list of pointers, prefix and iteration order",
"spans the command, the builder and the generator",
"cmd/jsval/jsval.go:_cli")
p("C68","A failing run leaves files as they were",
"When jsval exits with a non-zero status no file has changed. (False of the code: the output file is created, and so emptied, before the generator runs; if that fails an existing file is lost, even the schema when named as output.) Exactly: a failing run changes nothing, or it empties the output file and the generator failed on the validators built.",
"every invocation and file system",
"universal over invocations",
"cmd/jsval/jsval.go:_cli")
p("C69","Exit status 0 means the code was written",
"When jsval exits with status 0 the generated code is in the output file, or on standard output. (False of the code: the error of the final write is ignored.) Exact when writing works; no other file changes.",
"every invocation and file system",
"a full device is not part of any test",
"cmd/jsval/jsval.go:_cli","generator.go:Generator.Process")
p("C70","A validator gives equal documents equal verdicts however often it was used",
"Validating a document leaves the validator as it was: an equal document validated later gets the same verdict. (False of the code: a default value that is a map is put into the document itself, not a copy, and a later constraint may fill in defaults inside it; the same empty document passes the first time and fails the second.) Exact when no default value contains a map: validating any number of documents that share nothing gives each the verdict it gets alone, and the tree model of Validate.v is exact for heaps.",
"every constraint, heap and list of documents",
"needs two runs and a default that is itself an object",
"object.go:ObjectConstraint.Validate","object.go:ObjectConstraint.setProp")
p("C71","The verdict depends on what a document contains, not on how its maps are shared",
"Two Go values standing for the same JSON document get the same verdict. (False of the code: when two members are one map, a default filled in below one appears below the other.) Exact when neither value shares a map, and for all acyclic values when the constraints have no default values; in the latter case nothing is changed.",
"every constraint and heap",
"universal over aliasing patterns",
"object.go:ObjectConstraint.Validate")
p("C72","Validation changes nothing outside the document",
"Maps not reachable from the document are as they were after validation. (False of the code: maps kept as default values may change.) Exactly: for every set of maps closed under membership that contains the document and the default values, nothing outside it changes, and it stays closed; with default values without maps the document alone suffices.",
"every constraint, heap and closed set of maps",
"universal over heaps",
"object.go:ObjectConstraint.Validate","object.go:ObjectConstraint.setProp")
p("C73","An object is validated like the map its methods describe",
"A struct whose GetPropNames, GetPropValue and SetPropValue methods describe a map gets the verdict of that map and afterwards describes what the map would have become. (False of the code: a null member counts as missing but its name stays on the list, which panics or reports it as not allowed; a nil default panics; a Maybe handed out by GetPropValue is opened.) Exact for every implementation when no member and no default is nil or a Maybe, and no enumeration the object itself is compared with holds maps or structs of its type.",
"every implementation of the methods, constraint and iteration order",
"universal over user-written types",
"object.go:ObjectConstraint.getPropNames","object.go:ObjectConstraint.getProp","object.go:ObjectConstraint.setProp")
p("C74","Property methods that return errors count for nothing",
"A struct whose GetPropNames and GetPropValue methods return errors and which has no SetPropValue method is validated exactly as the same struct without methods: same verdict, same message, same changes.",
"every struct, constraint and iteration order",
"universal over types",
"object.go:ObjectConstraint.getPropNames","object.go:ObjectConstraint.getProp")
p("C75","The model is what the source text does",
"Running the Go source of the Validate methods, statement by statement as written in /repo, gives the verdict, error message, document and map-iteration choices the model of Validate.v gives; it never reaches a statement or library call without a meaning. The same for HasDefault/DefaultValue and JSVal.Validate.",
"every constraint, document, iteration order and nesting depth",
"universal; compares a program with a model of it",
"object.go:ObjectConstraint.Validate","array.go:ArrayConstraint.Validate","string.go:StringConstraint.Validate","number.go:NumberConstraint.Validate","combinations.go:AnyConstraint.Validate","reference.go:ReferenceConstraint.Validate","jsval.go:JSVal.Validate")
p("C76","The source text means what is documented, in every iteration order",
"Running the source of Validate: for regular constraints and JSON documents it passes exactly the documents the documentation accepts; for well-formed constraints it does not panic; its verdict is independent of map iteration order where one constraint applies per property; it terminates under the condition on reference cycles; every order of a map's entries is visited by some run and every run visits such an order; loops other than the five that use the document or the constraint's maps have no visible order.",
"every constraint, document and iteration order",
"universal over orders and documents",
"object.go:ObjectConstraint.Validate")
p("C77","The source text of the struct metadata extraction gives the model's metadata",
"Running the text of structinfo.go's extract on any struct type, with the maps of embedded types iterated in any order, returns a map with exactly the entries of the model's extract (property name, Go field, Maybe or not), and panics exactly where the model says a type without fields is embedded.",
"every struct type, any nesting of embedded types, any tag, every iteration order",
"universal over struct types; a test inspects a few",
"structinfo.go:extract")
p("C78","The source text of the builder gives the model's validators",
"Running the Go source of the builder package and of the constructors and setters it calls, statement by statement over a store of cells, on any schema, resolver and iteration order: Build and BuildWithCtx return a validator whose cells hold exactly the constraint tree and the registered references the model's builder gives, or the model's error, or panic where the model panics. A store holds at most one validator at an address, so the result is determined.",
"every schema, resolver, context value, initial store and iteration order, including the loop over the map of pending references that grows while it is ranged over",
"universal; compares a program with a model of it",
"builder/builder.go:Builder.Build","builder/builder.go:Builder.BuildWithCtx","builder/builder.go:buildFromSchema","builder/builder.go:compileReferences","builder/object.go:buildObjectConstraint","builder/array.go:buildArrayConstraint","builder/string.go:buildStringConstraint","builder/number.go:buildNumberConstraint","builder/reference.go")
p("C79","From schema to verdict, by the source text alone",
"For every sound schema whose references name finitely many schemas, the text of Build returns a validator, and the text of Validate run on that validator accepts a JSON document iff the document is valid against the schema and rejects it iff it is invalid (same guard as C43); on schemas that make progress every run ends. Faulty schemas that are not hollow give an error. On every schema the text of Build ends and meets no construct without a meaning.",
"every schema, document and iteration order of both programs",
"universal over schemas, documents and orders",
"builder/builder.go:Builder.Build","object.go:ObjectConstraint.Validate")
p("C80","The source text of the fluent API builds what its calls say",
"Every expression of the fluent API (constructors, setters in any number and order, nested expressions as arguments, combinators with or without Reduce, references), run from the Go source of the constructors and setters, returns one value; the cells it leaves represent exactly one constraint tree, the one whose every aspect is the argument of the last call of its setter (C40); no cell that existed before is changed. The text of Validate run on what stands in the store then accepts exactly the documents the documentation accepts, for regular constraints (C76).",
"every expression of any size and nesting, every initial store",
"universal over expressions; tests use a few dozen",
"string.go:String","number.go:Integer","array.go:ArrayConstraint.Items","object.go:ObjectConstraint.AddProp","combinations.go:AnyConstraint.Reduce","reference.go:ReferenceConstraint.RefersTo","boolean.go:BooleanConstraint.Default")
p("C81","The source text of the code generator writes what the model of the generator says",
"Interpreting the text of generator.go (generateCode and the fourteen functions it calls) on any constraint writes exactly the text the model of the generator gives, takes the orders of its map loops in the same way, returns an error where the model reports one (with the same message up to its tail) and panics where the model panics; it meets no construct without a meaning and ends with enough fuel. So every theorem about generated code (C47-C49, C65-C69) is about the text of generator.go.",
"every constraint tree of any size and depth, every iteration order of every map loop",
"universal over constraints and orders; tests generate from a handful of schemas",
"generator.go:generateCode","generator.go:generateObjectCode","generator.go:generateArrayCode","generator.go:generateStringCode","generator.go:generateComboCode","generator.go:generateEnumCode")
p("C82","The source text of Generator.Process writes the file the model of the generator says",
"Interpreting the text of generator.go from Generator.Process down (references gathered from every validator, names given to unnamed validators, references and validators sorted, variable declarations, init function, references stripped of leading space, SetReference calls, format.Source) on any list of validators writes exactly the file the model gives, leaves the validators named as the model names them, returns an error where the model reports one and panics where the model panics. In particular the file does not depend on the orders in which the reference maps are gone through.",
"every list of validators with any references and constraints, every iteration order of every map loop",
"universal over lists of validators and orders; tests generate from a handful of schemas",
"generator.go:Generator.Process","generator.go:generateValidatorCode","generator.go:generateCode")
p("C83","From the source text of the generator to the validators its files build",
"For every list of validators whose contents the generator can express (C47), the file written by the text of generator.go is accepted by the model of the Go front end, its init function runs to the end, and each validator it leaves under its name gives, on every document, exactly the results of the validator it was generated from.",
"every list of expressible validators, every iteration order, every document",
"universal over validators, orders and documents; tests compile a handful of generated files",
"generator.go:Generator.Process","generator.go:generateCode","jsval.go:JSVal.Validate")
p("C84","From a schema through generated code to a verdict, everything from source text",
"Build as written in builder/ on a schema; Process as written in generator.go on the validator it returns; the file it writes, run; Validate as written on the validator the file leaves. For every schema every part of which is plain and that the generator can express (C65), all four succeed and the last answers pass exactly on the documents valid against the schema and an error on the others, whatever the orders of the map loops; for steady schemas it always answers. Running any generated file leaves only constraints in canonical form.",
"every codable schema, every document, every iteration order of every map loop in all four runs",
"universal over schemas, documents and orders; no test goes through all four",
"builder/builder.go:Builder.Build","generator.go:Generator.Process","jsval.go:JSVal.Validate")
p("C85","The source text of maybe.go does what the model of the Maybe types says",
"Interpreting the text of maybe.go on any value of the six Maybe types: Valid, Value, Reset, Set, MarshalJSON and UnmarshalJSON return and leave behind exactly what the model of the Maybe types says, and the text of an error of Set is what the text of ErrInvalidMaybeValue.Error returns. Every method answers on every argument without panic. After Set returned nil the value is Valid; after an error of Set or UnmarshalJSON it is as it was; after Reset it is not Valid and its content stays. So the theorems about Maybe values (C36-C38) are about the text of maybe.go.",
"every value of the six types, every interface{} argument, every JSON value, every time.Parse and Format",
"universal over values and arguments; tests set a handful of literals",
"maybe.go:MaybeBool.Set","maybe.go:MaybeFloat.Set","maybe.go:MaybeInt.Set","maybe.go:MaybeString.Set","maybe.go:MaybeTime.Set","maybe.go:MaybeUint.Set","maybe.go:MaybeTime.UnmarshalJSON","maybe.go:ErrInvalidMaybeValue.Error","maybe.go:ValidFlag.Reset")
p('C86','The source text of the jsval command does what the model of the command says',
  "Interpreting the text of cmd/jsval/jsval.go, _main started with any arguments and options on any files ends as follows. If the first argument is server: the status is 0 exactly if the flags parse and the server's Run ends without an error, and no file is touched. Otherwise, for every option record, document, pointer list, prefix and output file, and every behaviour of os.Open, os.Create, encoding/json, jspointer, jsschema, jsref and of writing, and every map iteration order: the run is never without a meaning, and exit status, crash, files and standard output are those of the model of the command. So what is proved of the model (C67-C69) holds of the text: status 0 means that the named schemas were built in order and that their code was generated and passed to the output; a failing run leaves all files, or only the output file emptied.",
  'every argument list, option record, file system, document, behaviour of the packages called, order of map iteration',
  'A test runs the command on a few schema files; it cannot cover every combination of pointers, failing steps and file contents, nor tell a wrong order of steps (creating the output before reading) from a right one on runs that succeed.',
  'cmd/jsval/jsval.go:_main','cmd/jsval/jsval.go:_server','cmd/jsval/jsval.go:_cli')
p('C87','The source text of the playground handlers answers as the model says',
  "Interpreting the text of ServeHTTP, httpIndex and httpGenerateValidator on any path and body, whatever schema.Read, the JSON decoder, the builder, the generator, getTemplates and ExecuteTemplate return or panic with: the run has a meaning, writes exactly one answer, and status, content type and content are those of the model; headers set after the status line has gone out are lost. So C53 holds of the text. With the builder and the generator of the model in place: for every plain schema that can be built and written, /generate.json answers 200 with code that runs, and the validator V0 it defines accepts exactly the documents valid against the schema sent.",
  'every path, body, behaviour of the packages called; for the last part every plain, writable schema and every map iteration order',
  'universal over requests and over failures of every stage; the tests of the repository never start the server',
  'server/server.go:Server.ServeHTTP','server/server.go:Server.httpIndex','server/server.go:Server.httpGenerateValidator')
p('C88','From the text of the command and of the playground to the verdicts of the text of Validate',
  "Run from the text of cmd/jsval/jsval.go on any readable document with plain, writable schemas, the command ends with status 0 and delivers code that runs; and the text of Validate, on each validator that code leaves under the name made of the prefix and the number of the schema, accepts exactly the documents valid against that schema and rejects exactly the invalid ones, in every map iteration order of build, generation and validation. The same holds for V0 in the code that the text of the playground handlers answers with.",
  'every such document, pointer list, prefix, body; every JSON value validated; every order of map iteration at all three stages',
  'universal over schemas, documents and orders, and it composes four programs that the tests exercise separately on a few files',
  'cmd/jsval/jsval.go:_cli','server/server.go:Server.httpGenerateValidator','jsval.go:JSVal.Validate','generator.go:Generator.Process')
with open('/verif/properties.jsonl','w') as f:
    for x in P: f.write(json.dumps(x)+"\n")
print(len(P))
