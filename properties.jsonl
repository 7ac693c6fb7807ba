{"id": "C01", "title": "Validate decides exactly the documented meaning of the constraint", "statement": "For a constraint built with the fluent API (references resolved through one ConstraintMap) and a decoded document, Validate returns nil exactly when the document satisfies the declarative meaning of the constraint (types, bounds, required/additional/pattern properties, dependencies, items, combinators) and returns an error exactly when it violates it.", "quantifier": "every constraint tree, every set of named references, every JSON-like document of any size and depth, every Go map iteration order", "why_tests_cant": "the constraint and document spaces are infinite and nested, and the iteration order is random per run", "anchors": ["object.go:ObjectConstraint.Validate", "array.go:ArrayConstraint.Validate", "combinations.go", "reference.go:ReferenceConstraint.Validate"]}
{"id": "C02", "title": "The verdict does not depend on Go's map iteration order", "statement": "Two runs of Validate on equal inputs return the same verdict, and when they pass they leave the same value behind, whatever order Go iterates the property, pattern and dependency maps in, as long as no two patterns of one object match the same unlisted property and no default can be inserted below Any/OneOf/Not or a schema dependency.", "quantifier": "every pair of iteration orders, every constraint meeting the guard, every document", "why_tests_cant": "Go randomises map order; a passing test run says nothing about the other orders", "anchors": ["object.go:ObjectConstraint.Validate"]}
{"id": "C03", "title": "Every pattern matching a property is enforced", "statement": "When a property name matches several PatternProperties, the value is accepted only if it satisfies all of their constraints, independently of iteration order. (False of the code: only one matching pattern is applied, and which one depends on map order.)", "quantifier": "every object constraint with overlapping patterns, every iteration order", "why_tests_cant": "the failure appears only under some iteration orders", "anchors": ["object.go:ObjectConstraint.Validate"]}
{"id": "C04", "title": "A failing alternative leaves no trace", "statement": "When Any, OneOf or Not tries a child constraint and that child rejects the value, the value is unchanged, so that later alternatives see the caller's input. (False of the code: defaults inserted by the failing child stay, and can flip the overall verdict depending on map order.)", "quantifier": "every combinator, every child, every document, every iteration order", "why_tests_cant": "the leak and the verdict flip need specific map orders", "anchors": ["combinations.go:AnyConstraint.Validate", "combinations.go:OneOfConstraint.Validate", "basic.go:NotConstraint.Validate", "object.go:ObjectConstraint.setProp"]}
{"id": "C05", "title": "Validate never removes or overwrites data", "statement": "Whatever the verdict (pass, error or panic), every entry present in the document before Validate is still present afterwards with the same scalar content, and every added entry was absent before and holds the default declared by some property constraint.", "quantifier": "every constraint (no guard), every reference map, every value, every iteration order, every outcome", "why_tests_cant": "a frame condition over all inputs including failing runs", "anchors": ["object.go:ObjectConstraint.setProp", "object.go:ObjectConstraint.Validate"]}
{"id": "C06", "title": "Validation without defaults is read-only", "statement": "If no property constraint reachable from the validator declares a default, Validate leaves the value exactly as it was, whatever the outcome.", "quantifier": "every default-free constraint, every Go value (maps, structs, pointers, slices), every iteration order and outcome", "why_tests_cant": "must hold for all inputs and failing paths", "anchors": ["object.go:ObjectConstraint.Validate"]}
{"id": "C07", "title": "A passing object has all its listed properties or their defaults", "statement": "If Validate of an Object constraint passes on a map, then every name added with AddProp that was absent before is not Required, and now holds its declared non-nil default if there is one; every name that was present is still there.", "quantifier": "every object constraint, every map, every iteration order", "why_tests_cant": "quantifies over all property sets and orders", "anchors": ["object.go:ObjectConstraint.Validate", "object.go:Required", "object.go:AddProp"]}
{"id": "C08", "title": "Required is enforced for every required name", "statement": "Validate rejects any object that lacks a name passed to Required. (False of the code: a required name never given to AddProp is not checked.) It holds exactly for names that were also given to AddProp.", "quantifier": "every object constraint, every name, every map", "why_tests_cant": "needs all combinations of Required and AddProp sets", "anchors": ["object.go:Required", "object.go:IsPropRequired", "object.go:ObjectConstraint.Validate"]}
{"id": "C09", "title": "Property dependencies", "statement": "If PropDependency(from, to...) was given and Validate passes, then whenever `from` is present each `to` is present. (False of the code when `from` is neither listed with AddProp nor matched by a pattern; and a present `to` that is only an additional property is reported missing.) Exactly: it is enforced among listed or pattern-matched names.", "quantifier": "every dependency map, every object, every iteration order", "why_tests_cant": "universal over dependency graphs and documents", "anchors": ["object.go:PropDependency", "object.go:GetPropDependencies", "object.go:ObjectConstraint.Validate"]}
{"id": "C10", "title": "Schema dependencies", "statement": "If Validate passes, the whole object satisfies the constraint registered with SchemaDependency(from, c) for every listed or pattern-matched property `from` that is present and has no property dependency of its own.", "quantifier": "every object constraint and document, every iteration order", "why_tests_cant": "universal over dependency maps and documents", "anchors": ["object.go:SchemaDependency", "object.go:GetSchemaDependency", "object.go:ObjectConstraint.Validate"]}
{"id": "C11", "title": "Additional properties", "statement": "A property that is neither listed nor matched by any pattern makes Validate fail when no AdditionalProperties constraint was given, and is validated against it otherwise; listed or matched properties are never checked against it.", "quantifier": "every object constraint and document", "why_tests_cant": "universal over property sets", "anchors": ["object.go:AdditionalProperties", "object.go:ObjectConstraint.Validate"]}
{"id": "C12", "title": "minProperties and maxProperties", "statement": "An object passes only if the number of properties supplied by the caller (before defaults) is at least MinProperties and at most MaxProperties; negative bounds mean unchecked.", "quantifier": "every bound and every object", "why_tests_cant": "boundaries at every size", "anchors": ["object.go:MinProperties", "object.go:MaxProperties", "object.go:ObjectConstraint.Validate"]}
{"id": "C13", "title": "Array length bounds and Items", "statement": "An Array constraint with Items accepts exactly the slices whose length lies within MinItems/MaxItems (negative = unchecked), whose elements are unique when UniqueItems is on, and all of whose elements satisfy the Items constraint; everything that is not a slice is rejected with an error.", "quantifier": "every slice of any length and every element constraint", "why_tests_cant": "unbounded lengths and nesting", "anchors": ["array.go:ArrayConstraint.Validate", "array.go:Items", "array.go:MinItems", "array.go:MaxItems"]}
{"id": "C14", "title": "Positional and additional items", "statement": "With PositionalItems of length k, element i<k is checked against position i, elements beyond k against AdditionalItems, and with no AdditionalItems constraint more than k elements are rejected. (False of the code: when there are more than k elements, element k-1 is also checked against AdditionalItems.) The exact acceptance condition, including that off-by-one, is proved.", "quantifier": "every list of positional constraints, every additional constraint, every slice", "why_tests_cant": "unbounded lengths; the off-by-one is visible only for particular constraints", "anchors": ["array.go:ArrayConstraint.Validate", "array.go:PositionalItems", "array.go:AdditionalItems"]}
{"id": "C15", "title": "UniqueItems", "statement": "With UniqueItems(true), a slice with two equal elements is always rejected, and a slice of pairwise different strings is always accepted. (For general elements distinct values can be rejected because they stringify alike.)", "quantifier": "every slice of any length; every pair of positions", "why_tests_cant": "quadratically many pairs, unbounded lengths", "anchors": ["array.go:UniqueItems", "array.go:ArrayConstraint.Validate"]}
{"id": "C16", "title": "Combinators are boolean connectives", "statement": "Any passes iff some child passes, All iff every child passes, OneOf iff exactly one child passes, Not iff its child fails (an unset child is an error); with children that do not insert defaults the verdict does not depend on the order children were added in.", "quantifier": "every list of children of any length, every value", "why_tests_cant": "unbounded child lists and nested constraints", "anchors": ["combinations.go", "basic.go:NotConstraint.Validate"]}
{"id": "C17", "title": "Reduce preserves meaning", "statement": "For Any, All and OneOf, the constraint returned by Reduce gives the same verdict and the same final value as the combinator itself on every value.", "quantifier": "every combinator and every value", "why_tests_cant": "semantic equivalence over all values", "anchors": ["combinations.go:reduceCombined"]}
{"id": "C18", "title": "Number bounds are exact", "statement": "Number accepts a float exactly when it is not below the minimum (not at or below when exclusive) and not above the maximum (dually), in the exact real ordering of IEEE-754 binary64 values with infinities; NaN passes every bound; any non-float is rejected.", "quantifier": "every binary64/binary32 value and bound, including infinities, NaN and signed zeros", "why_tests_cant": "2^128 pairs of floats", "anchors": ["number.go:NumberConstraint.Validate", "number.go:Minimum", "number.go:Maximum"]}
{"id": "C19", "title": "multipleOf is exact divisibility", "statement": "With MultipleOf(m), m finite and non-zero, a finite float x passes iff x is an exact integer multiple of m as real numbers; MultipleOf(0) imposes nothing; NaN and infinities fail.", "quantifier": "every pair of binary64 values", "why_tests_cant": "2^128 pairs of floats; no tolerance", "anchors": ["number.go:MultipleOf", "number.go:NumberConstraint.Validate"]}
{"id": "C20", "title": "Integer accepts exactly integral numbers", "statement": "Integer rejects finite floats with a fractional part and NaN, accepts integral floats and every Go int/uint kind, and then applies the Number rules to the value converted to float64; the conversion is exact for |n| <= 2^53. (Beyond that the bound checks can be wrong by rounding.)", "quantifier": "every float and every 64-bit integer", "why_tests_cant": "2^64 integers per bound", "anchors": ["number.go:IntegerConstraint.Validate"]}
{"id": "C21", "title": "Enum is membership by Go interface equality", "statement": "Enum accepts a value iff it is == to one of the listed values (same dynamic type and equal), and never panics when the listed values are all of comparable types.", "quantifier": "every list of enum values and every value", "why_tests_cant": "unbounded lists and type combinations", "anchors": ["enum.go:EnumConstraint.Validate"]}
{"id": "C22", "title": "String constraints", "statement": "String accepts exactly string-kind values (through at most one pointer) whose byte length is within MinLength/MaxLength, that satisfy the format, match the regexp, and are in the enum when these are set.", "quantifier": "every string, every configuration", "why_tests_cant": "unbounded strings and configurations", "anchors": ["string.go:StringConstraint.Validate"]}
{"id": "C23", "title": "hostname format is the RFC 1035 label grammar", "statement": "Format(\"hostname\") accepts a string iff it is 1..255 bytes, is a dot separated list of labels (optionally followed by one trailing dot), every label is 1..63 letters, digits, '_' or '-', does not begin or end with '-', and at least one label contains a letter or '_'.", "quantifier": "every byte string", "why_tests_cant": "strings of any length; state-machine corner cases", "anchors": ["string.go:isDomainName"]}
{"id": "C24", "title": "ipv4 format", "statement": "Format(\"ipv4\") accepts exactly the strings made of digits and dots that net.ParseIP accepts; no IPv6 text is ever accepted.", "quantifier": "every byte string (UTF-8 or not)", "why_tests_cant": "unbounded strings", "anchors": ["string.go:StringConstraint.Validate"]}
{"id": "C25", "title": "ipv6 format", "statement": "Format(\"ipv6\") accepts every valid IPv6 text. (False of the code: any address with a hexadecimal letter or embedded IPv4 part is rejected, since only digits and ':' are allowed.)", "quantifier": "every byte string", "why_tests_cant": "unbounded strings", "anchors": ["string.go:StringConstraint.Validate"]}
{"id": "C26", "title": "Null, Boolean and Empty", "statement": "NullConstraint accepts exactly nil and typed nils of chan, func, map, pointer and slice kinds; Boolean accepts exactly bool-kind values; EmptyConstraint accepts everything.", "quantifier": "every Go value", "why_tests_cant": "all dynamic kinds", "anchors": ["basic.go:nullConstraint.Validate", "bool.go:BooleanConstraint.Validate"]}
{"id": "C27", "title": "Validate does not panic on decoded documents", "statement": "On any document produced by decoding JSON into interface{}, Validate of a constraint with no nil children and only comparable enum values returns (nil or error) and never panics.", "quantifier": "every such constraint, every document, every iteration order", "why_tests_cant": "absence of panics over all inputs", "anchors": ["object.go", "array.go", "string.go", "number.go", "enum.go", "reference.go"]}
{"id": "C28", "title": "Validate terminates when reference cycles descend", "statement": "If every cycle of references passes through an object property or an array item and defaults are scalars, Validate terminates on every finite value.", "quantifier": "every reference map meeting the guard, every value of any depth", "why_tests_cant": "termination over unbounded recursion", "anchors": ["reference.go:ReferenceConstraint.Validate", "object.go:ObjectConstraint.Validate", "array.go:ArrayConstraint.Validate"]}
{"id": "C29", "title": "Cyclic references", "statement": "A reference that resolves to itself through references and combinators only is reported as an error rather than looping. (False of the code: Validate recurses without bound.)", "quantifier": "every fuel/stack depth", "why_tests_cant": "non-termination cannot be observed by a test", "anchors": ["reference.go:ReferenceConstraint.Validate", "reference.go:HasDefault"]}
{"id": "C30", "title": "References are transparent", "statement": "Validating against Reference(m).RefersTo(n) gives the same verdict and final value as validating against the constraint registered under n, has the same default, and fails with an error when n is not registered.", "quantifier": "every reference map, name and value", "why_tests_cant": "semantic equivalence over all values", "anchors": ["reference.go"]}
{"id": "C31", "title": "A reference resolves once", "statement": "In every history of SetReference/GetReference/Resolved calls by any number of goroutines, all successful Resolved calls on one reference constraint return the same constraint, which is one that was registered under its name; later SetReference calls do not change it.", "quantifier": "every history and every interleaving of any number of threads", "why_tests_cant": "all schedules", "anchors": ["reference.go:Resolved", "reference.go:SetReference", "reference.go:GetReference"]}
{"id": "C32", "title": "ConstraintMap is a map", "statement": "GetReference returns the constraint most recently registered under that name and an error iff none was; Len is the number of distinct names registered.", "quantifier": "every history of operations", "why_tests_cant": "unbounded histories", "anchors": ["reference.go:ConstraintMap"]}
{"id": "C33", "title": "Resolving and registering never deadlock", "statement": "In every interleaving of Resolved, GetReference and SetReference calls there is always an enabled step until all calls have finished, and the two mutexes are each held by at most one thread.", "quantifier": "every interleaving of any number of threads", "why_tests_cant": "all schedules", "anchors": ["reference.go:Resolved", "reference.go:SetReference"]}
{"id": "C34", "title": "Struct property names follow the json tags", "statement": "For a struct type with exported, non-embedded fields and distinct property names, the property names jsval uses are exactly: the part of the json tag before the first comma when non-empty, the Go field name otherwise, and fields tagged \"-\" and unexported fields have none; looking a name up finds exactly the field it came from.", "quantifier": "every struct type and tag string", "why_tests_cant": "unbounded tag strings and field lists", "anchors": ["structinfo.go:extract", "structinfo.go:FieldName", "structinfo.go:PropNames"]}
{"id": "C35", "title": "Validating a struct equals validating the corresponding map", "statement": "For a pointer to (or value of) a struct with non-embedded fields, an Object constraint without defaults gives the same verdict as on the map from property names to field values, where invalid Maybe fields are absent and valid ones are unwrapped.", "quantifier": "every such struct and every object constraint", "why_tests_cant": "two infinite families compared pointwise", "anchors": ["object.go:getProp", "object.go:getPropNames", "structinfo.go", "maybe.go"]}
{"id": "C36", "title": "Maybe values", "statement": "For each Maybe type, after any history of Set and Reset, Valid is true iff the last successful Set is more recent than the last Reset, Value is the (converted) argument of the last successful Set, and Set succeeds exactly on the listed Go types and otherwise changes nothing.", "quantifier": "every history of operations on each of the six Maybe types", "why_tests_cant": "unbounded histories; all dynamic types", "anchors": ["maybe.go"]}
{"id": "C37", "title": "Maybe JSON round trip", "statement": "Encoding a valid Maybe and decoding the result gives a valid Maybe with the same value. (False of the code for MaybeTime, whose decoder never marks the value valid.) Decoding JSON null marks the other Maybe types valid with the zero value.", "quantifier": "every value of each Maybe type", "why_tests_cant": "all values", "anchors": ["maybe.go:MarshalJSON", "maybe.go:UnmarshalJSON"]}
{"id": "C38", "title": "Defaults reach Maybe fields through a pointer", "statement": "Validating a pointer to a struct with an invalid Maybe field whose property has a (convertible) default and is not required makes the field valid with that default when it passes. Passing the struct by value, or nesting it by value, panics instead.", "quantifier": "every struct, default and constraint", "why_tests_cant": "all combinations of field type and default type", "anchors": ["object.go:setProp", "object.go:coerceValue", "maybe.go"]}
{"id": "C39", "title": "Struct info cache is transparent", "statement": "In every interleaving of Lookup/Register calls by any number of goroutines, whatever is returned for a type is what extracting it afresh gives, and the registry never holds anything else.", "quantifier": "every interleaving", "why_tests_cant": "all schedules", "anchors": ["structinfo.go:Lookup", "structinfo.go:Register"]}
{"id": "C40", "title": "Fluent setters", "statement": "Each setter changes only its own aspect: setters for different aspects commute, the last call of a setter wins, Required and AddProp accumulate, AddProp overrides an earlier AddProp of the same name, PropDependency accumulates.", "quantifier": "every sequence of setter calls", "why_tests_cant": "unbounded call sequences", "anchors": ["object.go", "array.go", "string.go", "number.go", "combinations.go:Add"]}
{"id": "C41", "title": "Built validators have all their references", "statement": "When Build succeeds, every reference reachable from the validator's root or from any registered definition is registered, so validation never fails with 'reference not found'.", "quantifier": "every schema document, every iteration order of the reference set", "why_tests_cant": "unbounded reference graphs and random map order, with the set growing while iterated", "anchors": ["builder/builder.go:BuildWithCtx", "builder/builder.go:compileReferences"]}
{"id": "C42", "title": "Build terminates on recursive schemas", "statement": "BuildWithCtx terminates for every finite document, even if its references are mutually recursive, and builds each reference at most once.", "quantifier": "every finite reference graph, every iteration order", "why_tests_cant": "termination over unbounded graphs", "anchors": ["builder/builder.go:compileReferences"]}
{"id": "C43", "title": "The built validator means what the schema says", "statement": "For a schema that states its type(s), the built validator accepts a decoded JSON document iff the document satisfies the JSON-Schema meaning of the type, numeric, string, array and object keywords, for the keywords the builder supports.", "quantifier": "every schema in the fragment and every document", "why_tests_cant": "two infinite nested families", "anchors": ["builder/builder.go:buildFromSchema", "builder/number.go", "builder/string.go", "builder/array.go", "builder/object.go"]}
{"id": "C44", "title": "Number enumerations survive Build", "statement": "A schema {type: number, enum: [..]} accepts exactly the listed numbers. (False of the code: the enumeration is wrapped in a one-element list, so every number is rejected.)", "quantifier": "every enum list and number", "why_tests_cant": "universal over lists", "anchors": ["builder/number.go:buildNumberConstraint"]}
{"id": "C45", "title": "All combinator keywords are enforced", "statement": "If a schema has several of not/allOf/anyOf/oneOf, the built validator enforces all of them. (False of the code: only the first in that order is used.)", "quantifier": "every schema", "why_tests_cant": "universal over schemas", "anchors": ["builder/builder.go:buildFromSchema"]}
{"id": "C46", "title": "Build reports bad schemas as errors", "statement": "Build(nil) and schemas with an unknown type return an error; errors in any sub-schema make Build fail; Build never returns both a validator and an error.", "quantifier": "every schema", "why_tests_cant": "all nesting positions", "anchors": ["builder/builder.go"]}
{"id": "C47", "title": "Generated code rebuilds the validator", "statement": "The Go code printed by Generator.Process, when run, rebuilds a validator that gives the same verdicts as the original, for constraints without the aspects the generator drops.", "quantifier": "every constraint in the supported fragment, every string content without '%'", "why_tests_cant": "unbounded constraints and string contents", "anchors": ["generator.go"]}
{"id": "C48", "title": "Generation is lossless", "statement": "The generated validator is equivalent to the original for every constraint. (False of the code: multipleOf, number enums, min/maxProperties, schema dependencies, forbidden additional items, fractional integer bounds are dropped, Not cannot be generated, and '%' in strings is mangled.)", "quantifier": "every constraint", "why_tests_cant": "universal", "anchors": ["generator.go"]}
{"id": "C49", "title": "Generated code is deterministic", "statement": "The text printed by the generator for a constraint does not depend on map iteration order when pattern sources are distinct.", "quantifier": "every constraint and every iteration order", "why_tests_cant": "random map order", "anchors": ["generator.go:generateObjectCode", "generator.go:Process"]}
{"id": "C50", "title": "JSVal.Validate reports the root's verdict", "statement": "JSVal.Validate returns nil exactly when its root constraint accepts, and otherwise an error whose text starts with the validator's name and ends with the root's error text; with no root it panics.", "quantifier": "every validator and value", "why_tests_cant": "universal over roots and values", "anchors": ["jsval.go:JSVal.Validate"]}
{"id": "C51", "title": "Pointers are followed consistently", "statement": "Validating a pointer to a map or struct gives the same verdict as validating what it points to. (For pointers to interface variables and pointers to pointers the code lists the properties but then fails to read them.)", "quantifier": "every value and object constraint", "why_tests_cant": "universal over values", "anchors": ["object.go:ObjectConstraint.Validate", "object.go:getProp", "object.go:getPropNames"]}
{"id": "C52", "title": "Validation is repeatable", "statement": "If Validate passes, validating the resulting value again passes and changes nothing. (False of the code when an inserted default does not itself satisfy the constraint.) Holds when declared defaults satisfy their own constraints and there are no property-count or dependency checks.", "quantifier": "every constraint and value", "why_tests_cant": "universal over values after mutation", "anchors": ["object.go:ObjectConstraint.Validate"]}
{"id": "C53", "title": "Playground endpoint", "statement": "The generate endpoint answers success=true with the generated code iff reading, decoding, building and generating all succeed, and success=false with the first failing stage's message otherwise; other paths than / and /generate.json get 404.", "quantifier": "every request", "why_tests_cant": "all stage outcome combinations", "anchors": ["server/server.go"]}
{"id": "C54", "title": "Page templates are parsed once", "statement": "In every sequence of concurrent requests the template is parsed at most once successfully and every request sees the same template.", "quantifier": "every interleaving of requests", "why_tests_cant": "all schedules", "anchors": ["server/server.go:getTemplates"]}
{"id": "C55", "title": "Integer() chains stay integers", "statement": "A chain of setters on Integer() yields a constraint that rejects fractional numbers. (False of the code: MultipleOf and Enum are promoted from the embedded NumberConstraint and return it, so a chain containing them yields a number constraint.) Exactly the chains without those two are integer constraints.", "quantifier": "every chain of calls and every number", "why_tests_cant": "all call sequences", "anchors": ["number.go:IntegerConstraint", "number.go:NumberConstraint.MultipleOf", "number.go:NumberConstraint.Enum"]}
{"id": "C56", "title": "Integer bounds are exact", "statement": "An integer value passes a bound iff it satisfies it as a mathematical integer. (False beyond 2^53, where the value is rounded to float64 first.) For |z| <= 2^53 exact, and up to 2^64 no value within the bounds is rejected.", "quantifier": "every Go integer and every bound", "why_tests_cant": "rounding differs only on sparse values", "anchors": ["number.go:IntegerConstraint.Validate"]}
{"id": "C57", "title": "Unspecified AdditionalItems", "statement": "If AdditionalItems was not specified, extra items beyond PositionalItems are not allowed (as documented). (False of the code: the default is EmptyConstraint, so every extra item is allowed; only an explicit nil forbids them.)", "quantifier": "every list of positional constraints and every array", "why_tests_cant": "universal over arrays and constraints", "anchors": ["array.go:Array", "array.go:ArrayConstraint.AdditionalItems"]}
{"id": "C58", "title": "ConstraintMap is free of data races", "statement": "No interleaving of SetReference, GetReference and Len writes the map while another access is in progress. (False of the code: Len takes no lock.) Holds for all programs without Len.", "quantifier": "every number of goroutines, programs and interleavings", "why_tests_cant": "all schedules", "anchors": ["reference.go:ConstraintMap.Len", "reference.go:ConstraintMap.SetReference", "reference.go:ConstraintMap.GetReference"]}
{"id": "C59", "title": "Verdicts depend only on reachable references", "statement": "Two reference maps that agree on every name reachable from a constraint give identical runs of Validate.", "quantifier": "every constraint, value, and pair of reference maps", "why_tests_cant": "universal over maps", "anchors": ["reference.go:ReferenceConstraint.Validate"]}
{"id": "C60", "title": "Build does not depend on iteration order", "statement": "Two successful builds of the same document, whatever order Go iterates the maps involved (including a map that grows while being ranged over), give the same root and the same registered references.", "quantifier": "every schema document and every pair of iteration orders", "why_tests_cant": "Go randomises map order", "anchors": ["builder/builder.go:Builder.BuildWithCtx", "builder/object.go"]}
{"id": "C61", "title": "Enumerations apply to every type", "statement": "A schema with a type and an enumeration accepts only listed values. (False of the code: for boolean, object, array and null the enumeration has no effect; for number everything is rejected.)", "quantifier": "every schema and document", "why_tests_cant": "universal over schemas", "anchors": ["builder/bool.go", "builder/builder.go:buildFromSchema"]}
{"id": "C62", "title": "Keywords do not restrict the type", "statement": "A schema without type accepts values of types its keywords do not speak about. (False of the code: the type is guessed from the keywords, and other types are rejected.) Exactly: such a schema builds as if its guessed types had been stated.", "quantifier": "every schema without type", "why_tests_cant": "universal over schemas", "anchors": ["builder/builder.go:guessSchemaType"]}
{"id": "C63", "title": "The date-time format is checked", "statement": "A string schema with format date-time accepts only RFC 3339 date-times. (False of the code: the format constant checked is 'datetime', so 'date-time' has no effect.)", "quantifier": "every string", "why_tests_cant": "universal over strings", "anchors": ["string.go:StringConstraint.Validate", "builder/string.go"]}
{"id": "C64", "title": "String lengths count characters", "statement": "minLength/maxLength count characters of the text. (False of the code: bytes are counted.) Exact on strings all of whose characters are one byte long.", "quantifier": "every UTF-8 string", "why_tests_cant": "universal over strings", "anchors": ["string.go:StringConstraint.Validate", "builder/string.go"]}
{"id": "C65", "title": "Code generated from a schema means what the schema says", "statement": "Build a validator from a schema, generate code for it, compile and run that code: the resulting validator accepts exactly the documents valid against the schema. (False of the code in general: the generator drops keywords, e.g. multipleOf.) Exact for all schemas every part of which is plain (C43) and writable: such schemas always generate, and the generated validator's verdict is the schema's, whatever the iteration orders in building, generating and validating.", "quantifier": "every schema, document and iteration order", "why_tests_cant": "spans three components and an external compiler; tests compare generated text", "anchors": ["builder/builder.go:Builder.BuildWithCtx", "generator.go:Generator.Process", "jsval.go:JSVal.Validate"]}
{"id": "C66", "title": "Validators generated together keep their meaning", "statement": "Process called with several validators writes code in which each behaves as it does alone. (False of the code: the references of all validators go to one map where the first definition of a name wins, so a second validator using '#' for itself gets the first one's root.) Exact when no two validators mean different constraints by one name.", "quantifier": "every list of validators", "why_tests_cant": "universal over lists of validators", "anchors": ["generator.go:Generator.Process", "cmd/jsval/jsval.go:_cli"]}
{"id": "C67", "title": "The jsval command generates validators for the schemas it is pointed at", "statement": "A run of jsval on a readable schema document ends with status 0 and code that runs, in which the validator named prefix+i accepts exactly the documents valid against the schema at the i-th pointer. (False of the code: with prefix 'R' the names collide with those of the reference variables and the code does not compile; two schemas referring to '#' get one root.) Exact with the guards of C65 and C66 on the schemas, a prefix not among the names the generator uses, and a working file system; and then every run ends.", "quantifier": "every schema document, list of pointers, prefix and iteration order", "why_tests_cant": "spans the command, the builder and the generator", "anchors": ["cmd/jsval/jsval.go:_cli"]}
{"id": "C68", "title": "A failing run leaves files as they were", "statement": "When jsval exits with a non-zero status no file has changed. (False of the code: the output file is created, and so emptied, before the generator runs; if that fails an existing file is lost, even the schema when named as output.) Exactly: a failing run changes nothing, or it empties the output file and the generator failed on the validators built.", "quantifier": "every invocation and file system", "why_tests_cant": "universal over invocations", "anchors": ["cmd/jsval/jsval.go:_cli"]}
{"id": "C69", "title": "Exit status 0 means the code was written", "statement": "When jsval exits with status 0 the generated code is in the output file, or on standard output. (False of the code: the error of the final write is ignored.) Exact when writing works; no other file changes.", "quantifier": "every invocation and file system", "why_tests_cant": "a full device is not part of any test", "anchors": ["cmd/jsval/jsval.go:_cli", "generator.go:Generator.Process"]}
{"id": "C70", "title": "A validator gives equal documents equal verdicts however often it was used", "statement": "Validating a document leaves the validator as it was: an equal document validated later gets the same verdict. (False of the code: a default value that is a map is put into the document itself, not a copy, and a later constraint may fill in defaults inside it; the same empty document passes the first time and fails the second.) Exact when no default value contains a map: validating any number of documents that share nothing gives each the verdict it gets alone, and the tree model of Validate.v is exact for heaps.", "quantifier": "every constraint, heap and list of documents", "why_tests_cant": "needs two runs and a default that is itself an object", "anchors": ["object.go:ObjectConstraint.Validate", "object.go:ObjectConstraint.setProp"]}
{"id": "C71", "title": "The verdict depends on what a document contains, not on how its maps are shared", "statement": "Two Go values standing for the same JSON document get the same verdict. (False of the code: when two members are one map, a default filled in below one appears below the other.) Exact when neither value shares a map, and for all acyclic values when the constraints have no default values; in the latter case nothing is changed.", "quantifier": "every constraint and heap", "why_tests_cant": "universal over aliasing patterns", "anchors": ["object.go:ObjectConstraint.Validate"]}
{"id": "C72", "title": "Validation changes nothing outside the document", "statement": "Maps not reachable from the document are as they were after validation. (False of the code: maps kept as default values may change.) Exactly: for every set of maps closed under membership that contains the document and the default values, nothing outside it changes, and it stays closed; with default values without maps the document alone suffices.", "quantifier": "every constraint, heap and closed set of maps", "why_tests_cant": "universal over heaps", "anchors": ["object.go:ObjectConstraint.Validate", "object.go:ObjectConstraint.setProp"]}
{"id": "C73", "title": "An object is validated like the map its methods describe", "statement": "A struct whose GetPropNames, GetPropValue and SetPropValue methods describe a map gets the verdict of that map and afterwards describes what the map would have become. (False of the code: a null member counts as missing but its name stays on the list, which panics or reports it as not allowed; a nil default panics; a Maybe handed out by GetPropValue is opened.) Exact for every implementation when no member and no default is nil or a Maybe, and no enumeration the object itself is compared with holds maps or structs of its type.", "quantifier": "every implementation of the methods, constraint and iteration order", "why_tests_cant": "universal over user-written types", "anchors": ["object.go:ObjectConstraint.getPropNames", "object.go:ObjectConstraint.getProp", "object.go:ObjectConstraint.setProp"]}
{"id": "C74", "title": "Property methods that return errors count for nothing", "statement": "A struct whose GetPropNames and GetPropValue methods return errors and which has no SetPropValue method is validated exactly as the same struct without methods: same verdict, same message, same changes.", "quantifier": "every struct, constraint and iteration order", "why_tests_cant": "universal over types", "anchors": ["object.go:ObjectConstraint.getPropNames", "object.go:ObjectConstraint.getProp"]}
{"id": "C75", "title": "The model is what the source text does", "statement": "Running the Go source of the Validate methods, statement by statement as written in /repo, gives the verdict, error message, document and map-iteration choices the model of Validate.v gives; it never reaches a statement or library call without a meaning. The same for HasDefault/DefaultValue and JSVal.Validate.", "quantifier": "every constraint, document, iteration order and nesting depth", "why_tests_cant": "universal; compares a program with a model of it", "anchors": ["object.go:ObjectConstraint.Validate", "array.go:ArrayConstraint.Validate", "string.go:StringConstraint.Validate", "number.go:NumberConstraint.Validate", "combinations.go:AnyConstraint.Validate", "reference.go:ReferenceConstraint.Validate", "jsval.go:JSVal.Validate"]}
{"id": "C76", "title": "The source text means what is documented, in every iteration order", "statement": "Running the source of Validate: for regular constraints and JSON documents it passes exactly the documents the documentation accepts; for well-formed constraints it does not panic; its verdict is independent of map iteration order where one constraint applies per property; it terminates under the condition on reference cycles; every order of a map's entries is visited by some run and every run visits such an order; loops other than the five that use the document or the constraint's maps have no visible order.", "quantifier": "every constraint, document and iteration order", "why_tests_cant": "universal over orders and documents", "anchors": ["object.go:ObjectConstraint.Validate"]}
{"id": "C77", "title": "The source text of the struct metadata extraction gives the model's metadata", "statement": "Running the text of structinfo.go's extract on any struct type, with the maps of embedded types iterated in any order, returns a map with exactly the entries of the model's extract (property name, Go field, Maybe or not), and panics exactly where the model says a type without fields is embedded.", "quantifier": "every struct type, any nesting of embedded types, any tag, every iteration order", "why_tests_cant": "universal over struct types; a test inspects a few", "anchors": ["structinfo.go:extract"]}
{"id": "C78", "title": "The source text of the builder gives the model's validators", "statement": "Running the Go source of the builder package and of the constructors and setters it calls, statement by statement over a store of cells, on any schema, resolver and iteration order: Build and BuildWithCtx return a validator whose cells hold exactly the constraint tree and the registered references the model's builder gives, or the model's error, or panic where the model panics. A store holds at most one validator at an address, so the result is determined.", "quantifier": "every schema, resolver, context value, initial store and iteration order, including the loop over the map of pending references that grows while it is ranged over", "why_tests_cant": "universal; compares a program with a model of it", "anchors": ["builder/builder.go:Builder.Build", "builder/builder.go:Builder.BuildWithCtx", "builder/builder.go:buildFromSchema", "builder/builder.go:compileReferences", "builder/object.go:buildObjectConstraint", "builder/array.go:buildArrayConstraint", "builder/string.go:buildStringConstraint", "builder/number.go:buildNumberConstraint", "builder/reference.go"]}
{"id": "C79", "title": "From schema to verdict, by the source text alone", "statement": "For every sound schema whose references name finitely many schemas, the text of Build returns a validator, and the text of Validate run on that validator accepts a JSON document iff the document is valid against the schema and rejects it iff it is invalid (same guard as C43); on schemas that make progress every run ends. Faulty schemas that are not hollow give an error. On every schema the text of Build ends and meets no construct without a meaning.", "quantifier": "every schema, document and iteration order of both programs", "why_tests_cant": "universal over schemas, documents and orders", "anchors": ["builder/builder.go:Builder.Build", "object.go:ObjectConstraint.Validate"]}
{"id": "C80", "title": "The source text of the fluent API builds what its calls say", "statement": "Every expression of the fluent API (constructors, setters in any number and order, nested expressions as arguments, combinators with or without Reduce, references), run from the Go source of the constructors and setters, returns one value; the cells it leaves represent exactly one constraint tree, the one whose every aspect is the argument of the last call of its setter (C40); no cell that existed before is changed. The text of Validate run on what stands in the store then accepts exactly the documents the documentation accepts, for regular constraints (C76).", "quantifier": "every expression of any size and nesting, every initial store", "why_tests_cant": "universal over expressions; tests use a few dozen", "anchors": ["string.go:String", "number.go:Integer", "array.go:ArrayConstraint.Items", "object.go:ObjectConstraint.AddProp", "combinations.go:AnyConstraint.Reduce", "reference.go:ReferenceConstraint.RefersTo", "boolean.go:BooleanConstraint.Default"]}
{"id": "C81", "title": "The source text of the code generator writes what the model of the generator says", "statement": "Interpreting the text of generator.go (generateCode and the fourteen functions it calls) on any constraint writes exactly the text the model of the generator gives, takes the orders of its map loops in the same way, returns an error where the model reports one (with the same message up to its tail) and panics where the model panics; it meets no construct without a meaning and ends with enough fuel. So every theorem about generated code (C47-C49, C65-C69) is about the text of generator.go.", "quantifier": "every constraint tree of any size and depth, every iteration order of every map loop", "why_tests_cant": "universal over constraints and orders; tests generate from a handful of schemas", "anchors": ["generator.go:generateCode", "generator.go:generateObjectCode", "generator.go:generateArrayCode", "generator.go:generateStringCode", "generator.go:generateComboCode", "generator.go:generateEnumCode"]}
{"id": "C82", "title": "The source text of Generator.Process writes the file the model of the generator says", "statement": "Interpreting the text of generator.go from Generator.Process down (references gathered from every validator, names given to unnamed validators, references and validators sorted, variable declarations, init function, references stripped of leading space, SetReference calls, format.Source) on any list of validators writes exactly the file the model gives, leaves the validators named as the model names them, returns an error where the model reports one and panics where the model panics. In particular the file does not depend on the orders in which the reference maps are gone through.", "quantifier": "every list of validators with any references and constraints, every iteration order of every map loop", "why_tests_cant": "universal over lists of validators and orders; tests generate from a handful of schemas", "anchors": ["generator.go:Generator.Process", "generator.go:generateValidatorCode", "generator.go:generateCode"]}
{"id": "C83", "title": "From the source text of the generator to the validators its files build", "statement": "For every list of validators whose contents the generator can express (C47), the file written by the text of generator.go is accepted by the model of the Go front end, its init function runs to the end, and each validator it leaves under its name gives, on every document, exactly the results of the validator it was generated from.", "quantifier": "every list of expressible validators, every iteration order, every document", "why_tests_cant": "universal over validators, orders and documents; tests compile a handful of generated files", "anchors": ["generator.go:Generator.Process", "generator.go:generateCode", "jsval.go:JSVal.Validate"]}
{"id": "C84", "title": "From a schema through generated code to a verdict, everything from source text", "statement": "Build as written in builder/ on a schema; Process as written in generator.go on the validator it returns; the file it writes, run; Validate as written on the validator the file leaves. For every schema every part of which is plain and that the generator can express (C65), all four succeed and the last answers pass exactly on the documents valid against the schema and an error on the others, whatever the orders of the map loops; for steady schemas it always answers. Running any generated file leaves only constraints in canonical form.", "quantifier": "every codable schema, every document, every iteration order of every map loop in all four runs", "why_tests_cant": "universal over schemas, documents and orders; no test goes through all four", "anchors": ["builder/builder.go:Builder.Build", "generator.go:Generator.Process", "jsval.go:JSVal.Validate"]}
{"id": "C85", "title": "The source text of maybe.go does what the model of the Maybe types says", "statement": "Interpreting the text of maybe.go on any value of the six Maybe types: Valid, Value, Reset, Set, MarshalJSON and UnmarshalJSON return and leave behind exactly what the model of the Maybe types says, and the text of an error of Set is what the text of ErrInvalidMaybeValue.Error returns. Every method answers on every argument without panic. After Set returned nil the value is Valid; after an error of Set or UnmarshalJSON it is as it was; after Reset it is not Valid and its content stays. So the theorems about Maybe values (C36-C38) are about the text of maybe.go.", "quantifier": "every value of the six types, every interface{} argument, every JSON value, every time.Parse and Format", "why_tests_cant": "universal over values and arguments; tests set a handful of literals", "anchors": ["maybe.go:MaybeBool.Set", "maybe.go:MaybeFloat.Set", "maybe.go:MaybeInt.Set", "maybe.go:MaybeString.Set", "maybe.go:MaybeTime.Set", "maybe.go:MaybeUint.Set", "maybe.go:MaybeTime.UnmarshalJSON", "maybe.go:ErrInvalidMaybeValue.Error", "maybe.go:ValidFlag.Reset"]}
{"id": "C86", "title": "The source text of the jsval command does what the model of the command says", "statement": "Interpreting the text of cmd/jsval/jsval.go, _main started with any arguments and options on any files ends as follows. If the first argument is server: the status is 0 exactly if the flags parse and the server's Run ends without an error, and no file is touched. Otherwise, for every option record, document, pointer list, prefix and output file, and every behaviour of os.Open, os.Create, encoding/json, jspointer, jsschema, jsref and of writing, and every map iteration order: the run is never without a meaning, and exit status, crash, files and standard output are those of the model of the command. So what is proved of the model (C67-C69) holds of the text: status 0 means that the named schemas were built in order and that their code was generated and passed to the output; a failing run leaves all files, or only the output file emptied.", "quantifier": "every argument list, option record, file system, document, behaviour of the packages called, order of map iteration", "why_tests_cant": "A test runs the command on a few schema files; it cannot cover every combination of pointers, failing steps and file contents, nor tell a wrong order of steps (creating the output before reading) from a right one on runs that succeed.", "anchors": ["cmd/jsval/jsval.go:_main", "cmd/jsval/jsval.go:_server", "cmd/jsval/jsval.go:_cli"]}
{"id": "C87", "title": "The source text of the playground handlers answers as the model says", "statement": "Interpreting the text of ServeHTTP, httpIndex and httpGenerateValidator on any path and body, whatever schema.Read, the JSON decoder, the builder, the generator, getTemplates and ExecuteTemplate return or panic with: the run has a meaning, writes exactly one answer, and status, content type and content are those of the model; headers set after the status line has gone out are lost. So C53 holds of the text. With the builder and the generator of the model in place: for every plain schema that can be built and written, /generate.json answers 200 with code that runs, and the validator V0 it defines accepts exactly the documents valid against the schema sent.", "quantifier": "every path, body, behaviour of the packages called; for the last part every plain, writable schema and every map iteration order", "why_tests_cant": "universal over requests and over failures of every stage; the tests of the repository never start the server", "anchors": ["server/server.go:Server.ServeHTTP", "server/server.go:Server.httpIndex", "server/server.go:Server.httpGenerateValidator"]}
{"id": "C88", "title": "From the text of the command and of the playground to the verdicts of the text of Validate", "statement": "Run from the text of cmd/jsval/jsval.go on any readable document with plain, writable schemas, the command ends with status 0 and delivers code that runs; and the text of Validate, on each validator that code leaves under the name made of the prefix and the number of the schema, accepts exactly the documents valid against that schema and rejects exactly the invalid ones, in every map iteration order of build, generation and validation. The same holds for V0 in the code that the text of the playground handlers answers with.", "quantifier": "every such document, pointer list, prefix, body; every JSON value validated; every order of map iteration at all three stages", "why_tests_cant": "universal over schemas, documents and orders, and it composes four programs that the tests exercise separately on a few files", "anchors": ["cmd/jsval/jsval.go:_cli", "server/server.go:Server.httpGenerateValidator", "jsval.go:JSVal.Validate", "generator.go:Generator.Process"]}
