(** Generated by tools/embed.py: the text of Go files of /repo, one string per line. *)
From Coq Require Import String List.
Import ListNotations.
Open Scope string_scope.

(** interface.go *)
Definition text_interface : list string := [
"package jsval";
"";
"import (";
"	""reflect""";
"	""regexp""";
"	""sync""";
"";
"	""github.com/lestrrat-go/jsref""";
")";
"";
"var zeroval = reflect.Value{}";
"";
"// JSVal is the main validator object.";
"type JSVal struct {";
"	*ConstraintMap";
"	// Name is the name that will be used to generate code for this validator.";
"	// If unspecified, the generator will create variable names like `V0`, `V1`,";
"	// `V2`, etc. If you want to generate more meaningful names, you should";
"	// set this value manually. For example, if you are using jsval with a";
"	// scaffold generator, you might want to set this to a human-readable value";
"	Name     string";
"	root     Constraint";
"	resolver *jsref.Resolver";
"}";
"";
"// JSValSlice is a list of JSVal validators. This exists in order to define";
"// methods to satisfy the `sort.Interface` interface";
"type JSValSlice []*JSVal";
"";
"// Constraint is an object that know how to validate";
"// individual types of input";
"type Constraint interface {";
"	DefaultValue() interface{}";
"	HasDefault() bool";
"	Validate(interface{}) error";
"}";
"";
"type emptyConstraint struct{}";
"";
"// EmptyConstraint is a constraint that returns true for any value";
"var EmptyConstraint = emptyConstraint{}";
"";
"type nullConstraint struct{}";
"";
"// NullConstraint is a constraint that only matches the JSON";
"// ""null"" value, or ""nil"" in golang";
"var NullConstraint = nullConstraint{}";
"";
"type defaultValue struct {";
"	initialized bool";
"	value       interface{}";
"}";
"";
"// BooleanConstraint implements a constraint to match against";
"// a boolean.";
"type BooleanConstraint struct {";
"	defaultValue";
"}";
"";
"// StringConstraint implements a constraint to match against";
"// a string";
"type StringConstraint struct {";
"	defaultValue";
"	enums     *EnumConstraint";
"	maxLength int";
"	minLength int";
"	regexp    *regexp.Regexp";
"	format    string";
"}";
"";
"// NumberConstraint implements a constraint to match against";
"// a number (i.e. float) type.";
"type NumberConstraint struct {";
"	defaultValue";
"	applyMinimum     bool";
"	applyMaximum     bool";
"	applyMultipleOf  bool";
"	minimum          float64";
"	maximum          float64";
"	multipleOf       float64";
"	exclusiveMinimum bool";
"	exclusiveMaximum bool";
"	enums            *EnumConstraint";
"}";
"";
"// IntegerConstraint implements a constraint to match against";
"// an integer type. Note that after checking if the value is";
"// an int (i.e. floor(x) == x), the rest of the logic follows";
"// exactly that of NumberConstraint";
"type IntegerConstraint struct {";
"	NumberConstraint";
"}";
"";
"// ArrayConstraint implements a constraint to match against";
"// various aspects of a Array/Slice structure";
"type ArrayConstraint struct {";
"	defaultValue";
"	items           Constraint";
"	positionalItems []Constraint";
"	additionalItems Constraint";
"	minItems        int";
"	maxItems        int";
"	uniqueItems     bool";
"}";
"";
"// ObjectConstraint implements a constraint to match against";
"// various aspects of a Map-like structure.";
"type ObjectConstraint struct {";
"	defaultValue";
"	additionalProperties Constraint";
"	deplock              sync.Mutex";
"	patternProperties    map[*regexp.Regexp]Constraint";
"	proplock             sync.Mutex";
"	properties           map[string]Constraint";
"	propdeps             map[string][]string";
"	reqlock              sync.Mutex";
"	required             map[string]struct{}";
"	maxProperties        int";
"	minProperties        int";
"	schemadeps           map[string]Constraint";
"";
"	// FieldNameFromName takes a struct wrapped in reflect.Value, and a";
"	// field name -- in JSON format (i.e. what you specified in your";
"	// JSON struct tags, or the actual field name). It returns the";
"	// struct field name to pass to `Value.FieldByName()`. If you do";
"	// not specify one, DefaultFieldNameFromName will be used.";
"	FieldNameFromName func(reflect.Value, string) string";
"";
"	// FieldNamesFromStruct takes a struct wrapped in reflect.Value, and";
"	// returns the name of all public fields. Note that the returned";
"	// names will be JSON names, which may not necessarily be the same";
"	// as the field name. If you do not specify one, DefaultFieldNamesFromStruct";
"	// will be used";
"	FieldNamesFromStruct func(reflect.Value) []string";
"}";
"";
"// EnumConstraint implements a constraint where the incoming";
"// value must match one of the values enumerated in the constraint.";
"// Note that due to various language specific reasons, you should";
"// only use simple types where the ""=="" operator can distinguish";
"// between different values";
"type EnumConstraint struct {";
"	emptyConstraint";
"	enums []interface{}";
"}";
"";
"type comboconstraint struct {";
"	emptyConstraint";
"	constraints []Constraint";
"}";
"";
"// AnyConstraint implements a constraint where at least 1";
"// child constraint must pass in order for this validation to pass.";
"type AnyConstraint struct {";
"	comboconstraint";
"}";
"";
"// AllConstraint implements a constraint where all of the";
"// child constraints' validation must pass in order for this";
"// validation to pass.";
"type AllConstraint struct {";
"	comboconstraint";
"}";
"";
"// OneOfConstraint implements a constraint where only exactly";
"// one of the child constraints' validation can pass. If";
"// none of the constraints passes, or more than 1 constraint";
"// passes, the expressions deemed to have failed.";
"type OneOfConstraint struct {";
"	comboconstraint";
"}";
"";
"// NotConstraint implements a constraint where the result of";
"// child constraint is negated -- that is, validation passes";
"// only if the child constraint fails.";
"type NotConstraint struct {";
"	child Constraint";
"}"
].

(** builder/array.go *)
Definition text_b_array : list string := [
"package builder";
"";
"import (";
"	""github.com/lestrrat-go/jsschema""";
"	""github.com/lestrrat-go/jsval""";
"	""github.com/lestrrat-go/pdebug""";
")";
"";
"func buildArrayConstraint(ctx *buildctx, c *jsval.ArrayConstraint, s *schema.Schema) (err error) {";
"	if pdebug.Enabled {";
"		g := pdebug.IPrintf(""START buildArrayConstraint"")";
"		defer func() {";
"			if err == nil {";
"				g.IRelease(""END buildArrayConstraint (PASS)"")";
"			} else {";
"				g.IRelease(""END buildArrayConstraint (FAIL): %s"", err)";
"			}";
"		}()";
"	}";
"";
"	if items := s.Items; items != nil {";
"		if !items.TupleMode {";
"			specs, err := buildFromSchema(ctx, items.Schemas[0])";
"			if err != nil {";
"				return err";
"			}";
"			c.Items(specs)";
"		} else {";
"			specs := make([]jsval.Constraint, len(items.Schemas))";
"			for i, espec := range items.Schemas {";
"				item, err := buildFromSchema(ctx, espec)";
"				if err != nil {";
"					return err";
"				}";
"				specs[i] = item";
"			}";
"			c.PositionalItems(specs)";
"";
"			aitems := s.AdditionalItems";
"			if aitems == nil {";
"				if pdebug.Enabled {";
"					pdebug.Printf(""Disabling additional items"")";
"				}";
"				// No additional items";
"				c.AdditionalItems(nil)";
"			} else if as := aitems.Schema; as != nil {";
"				spec, err := buildFromSchema(ctx, as)";
"				if err != nil {";
"					return err";
"				}";
"				if pdebug.Enabled {";
"					pdebug.Printf(""Using constraint for additional items "")";
"				}";
"				c.AdditionalItems(spec)";
"			} else {";
"				if pdebug.Enabled {";
"					pdebug.Printf(""Additional items will be allowed freely"")";
"				}";
"				c.AdditionalItems(jsval.EmptyConstraint)";
"			}";
"		}";
"	}";
"";
"	if s.MinItems.Initialized {";
"		c.MinItems(s.MinItems.Val)";
"	}";
"";
"	if s.MaxItems.Initialized {";
"		c.MaxItems(s.MaxItems.Val)";
"	}";
"";
"	if s.UniqueItems.Initialized {";
"		c.UniqueItems(s.UniqueItems.Val)";
"	}";
"";
"	return nil";
"}"
].

(** builder/bool.go *)
Definition text_b_bool : list string := [
"package builder";
"";
"import (";
"	""github.com/lestrrat-go/jsschema""";
"	""github.com/lestrrat-go/jsval""";
")";
"";
"func buildBooleanConstraint(_ *buildctx, c *jsval.BooleanConstraint, s *schema.Schema) error {";
"	v := s.Default";
"	switch v.(type) {";
"	case bool:";
"		c.Default(v.(bool))";
"	}";
"	return nil";
"}"
].

(** builder/builder.go *)
Definition text_b_builder : list string := [
"package builder";
"";
"/* Package builder contains structures and methods responsible for";
" * generating a jsval.JSVal structure from a JSON schema";
" */";
"";
"import (";
"	""errors""";
"	""math""";
"	""reflect""";
"	""sort""";
"";
"	""github.com/lestrrat-go/jsref""";
"	""github.com/lestrrat-go/jsschema""";
"	""github.com/lestrrat-go/jsval""";
"	""github.com/lestrrat-go/pdebug""";
")";
"";
"// Builder builds Validator objects from JSON schemas";
"type Builder struct{}";
"";
"type buildctx struct {";
"	V *jsval.JSVal";
"	S *schema.Schema";
"	R map[string]struct{}";
"}";
"";
"// New creates a new builder object";
"func New() *Builder {";
"	return &Builder{}";
"}";
"";
"// Build creates a new validator from the specified schema";
"func (b *Builder) Build(s *schema.Schema) (v *jsval.JSVal, err error) {";
"	if pdebug.Enabled {";
"		g := pdebug.IPrintf(""START Builder.Build"")";
"		defer func() {";
"			if err == nil {";
"				g.IRelease(""END Builder.Build (OK)"")";
"			} else {";
"				g.IRelease(""END Builder.Build (FAIL): %s"", err)";
"			}";
"		}()";
"	}";
"";
"	if s == nil {";
"		return nil, errors.New(""nil schema"")";
"	}";
"";
"	return b.BuildWithCtx(s, nil)";
"}";
"";
"// BuildWithCtx creates a new validator from the specified schema, using";
"// the jsctx parameter as the context to resolve JSON References with.";
"// If you expect your schema to contain JSON references to itself,";
"// you will have to pass the context as a map with raw decoded JSON data";
"func (b *Builder) BuildWithCtx(s *schema.Schema, jsctx interface{}) (v *jsval.JSVal, err error) {";
"	if pdebug.Enabled {";
"		g := pdebug.IPrintf(""START Builder.BuildWithCtx"")";
"		defer func() {";
"			if err == nil {";
"				g.IRelease(""END Builder.BuildWithCtx (OK)"")";
"			} else {";
"				g.IRelease(""END Builder.BuildWithCtx (FAIL): %s"", err)";
"			}";
"		}()";
"	}";
"";
"	if s == nil {";
"		return nil, errors.New(""nil schema"")";
"	}";
"";
"	v = jsval.New()";
"	ctx := buildctx{";
"		V: v,";
"		S: s,";
"		R: map[string]struct{}{}, // names of references used";
"	}";
"";
"	c, err := buildFromSchema(&ctx, s)";
"	if err != nil {";
"		return nil, err";
"	}";
"";
"	if _, ok := ctx.R[""#""]; ok {";
"		v.SetReference(""#"", c)";
"		delete(ctx.R, ""#"")";
"	}";
"";
"	// Now, resolve references that were used in the schema";
"	if len(ctx.R) > 0 {";
"		if pdebug.Enabled {";
"			pdebug.Printf(""Checking references now"")";
"		}";
"		if jsctx == nil {";
"			jsctx = s";
"		}";
"";
"		r := jsref.New()";
"		for ref := range ctx.R {";
"			if err := compileReferences(&ctx, r, v, ref, jsctx); err != nil {";
"				return nil, err";
"			}";
"		}";
"	}";
"	v.SetRoot(c)";
"	return v, nil";
"}";
"";
"func compileReferences(ctx *buildctx, r *jsref.Resolver, v *jsval.JSVal, ref string, jsctx interface{}) error {";
"	if _, err := v.GetReference(ref); err == nil {";
"		if pdebug.Enabled {";
"			pdebug.Printf(""Already resolved constraints for reference '%s'"", ref)";
"		}";
"		return nil";
"	}";
"";
"	if pdebug.Enabled {";
"		pdebug.Printf(""Building constraints for reference '%s'"", ref)";
"	}";
"";
"	thing, err := r.Resolve(jsctx, ref)";
"	if err != nil {";
"		return err";
"	}";
"";
"	if pdebug.Enabled {";
"		pdebug.Printf(""'%s' resolves to the main schema"", ref)";
"	}";
"";
"	var s1 *schema.Schema";
"	switch thing.(type) {";
"	case *schema.Schema:";
"		s1 = thing.(*schema.Schema)";
"	case map[string]interface{}:";
"		s1 = schema.New()";
"		if err := s1.Extract(thing.(map[string]interface{})); err != nil {";
"			return err";
"		}";
"	}";
"";
"	c1, err := buildFromSchema(ctx, s1)";
"	if err != nil {";
"		return err";
"	}";
"";
"	v.SetReference(ref, c1)";
"	for ref := range ctx.R {";
"		if err := compileReferences(ctx, r, v, ref, jsctx); err != nil {";
"			return err";
"		}";
"	}";
"	return nil";
"}";
"";
"func buildFromSchema(ctx *buildctx, s *schema.Schema) (jsval.Constraint, error) {";
"	if ref := s.Reference; ref != """" {";
"		c := jsval.Reference(ctx.V)";
"		if err := buildReferenceConstraint(ctx, c, s); err != nil {";
"			return nil, err";
"		}";
"		ctx.R[ref] = struct{}{}";
"		return c, nil";
"	}";
"";
"	ct := jsval.All()";
"";
"	switch {";
"	case s.Not != nil:";
"		if pdebug.Enabled {";
"			pdebug.Printf(""Not constraint"")";
"		}";
"		c1, err := buildFromSchema(ctx, s.Not)";
"		if err != nil {";
"			return nil, err";
"		}";
"		ct.Add(jsval.Not(c1))";
"	case len(s.AllOf) > 0:";
"		if pdebug.Enabled {";
"			pdebug.Printf(""AllOf constraint"")";
"		}";
"		ac := jsval.All()";
"		for _, s1 := range s.AllOf {";
"			c1, err := buildFromSchema(ctx, s1)";
"			if err != nil {";
"				return nil, err";
"			}";
"			ac.Add(c1)";
"		}";
"		ct.Add(ac.Reduce())";
"	case len(s.AnyOf) > 0:";
"		if pdebug.Enabled {";
"			pdebug.Printf(""AnyOf constraint"")";
"		}";
"		ac := jsval.Any()";
"		for _, s1 := range s.AnyOf {";
"			c1, err := buildFromSchema(ctx, s1)";
"			if err != nil {";
"				return nil, err";
"			}";
"			ac.Add(c1)";
"		}";
"		ct.Add(ac.Reduce())";
"	case len(s.OneOf) > 0:";
"		if pdebug.Enabled {";
"			pdebug.Printf(""OneOf constraint"")";
"		}";
"		oc := jsval.OneOf()";
"		for _, s1 := range s.OneOf {";
"			c1, err := buildFromSchema(ctx, s1)";
"			if err != nil {";
"				return nil, err";
"			}";
"			oc.Add(c1)";
"		}";
"		ct.Add(oc.Reduce())";
"	}";
"";
"	var sts schema.PrimitiveTypes";
"	if l := len(s.Type); l > 0 {";
"		sts = make(schema.PrimitiveTypes, l)";
"		copy(sts, s.Type)";
"	} else {";
"		if pdebug.Enabled {";
"			pdebug.Printf(""Schema doesn't seem to contain a 'type' field. Now guessing..."")";
"		}";
"		sts = guessSchemaType(s)";
"	}";
"	sort.Sort(sts)";
"";
"	if len(sts) > 0 {";
"		tct := jsval.Any()";
"		for _, st := range sts {";
"			var c jsval.Constraint";
"			switch st {";
"			case schema.StringType:";
"				sc := jsval.String()";
"				if err := buildStringConstraint(ctx, sc, s); err != nil {";
"					return nil, err";
"				}";
"				c = sc";
"			case schema.NumberType:";
"				nc := jsval.Number()";
"				if err := buildNumberConstraint(ctx, nc, s); err != nil {";
"					return nil, err";
"				}";
"				c = nc";
"			case schema.IntegerType:";
"				ic := jsval.Integer()";
"				if err := buildIntegerConstraint(ctx, ic, s); err != nil {";
"					return nil, err";
"				}";
"				c = ic";
"			case schema.BooleanType:";
"				bc := jsval.Boolean()";
"				if err := buildBooleanConstraint(ctx, bc, s); err != nil {";
"					return nil, err";
"				}";
"				c = bc";
"			case schema.ArrayType:";
"				ac := jsval.Array()";
"				if err := buildArrayConstraint(ctx, ac, s); err != nil {";
"					return nil, err";
"				}";
"				c = ac";
"			case schema.ObjectType:";
"				oc := jsval.Object()";
"				if err := buildObjectConstraint(ctx, oc, s); err != nil {";
"					return nil, err";
"				}";
"				c = oc";
"			case schema.NullType:";
"				c = jsval.NullConstraint";
"			default:";
"				return nil, errors.New(""unknown type: "" + st.String())";
"			}";
"			tct.Add(c)";
"		}";
"		ct.Add(tct.Reduce())";
"	} else {";
"		// All else failed, check if we have some enumeration?";
"		if len(s.Enum) > 0 {";
"			ec := jsval.Enum(s.Enum...)";
"			ct.Add(ec)";
"		}";
"	}";
"";
"	return ct.Reduce(), nil";
"}";
"";
"func guessSchemaType(s *schema.Schema) schema.PrimitiveTypes {";
"	if pdebug.Enabled {";
"		g := pdebug.IPrintf(""START guessSchemaType"")";
"		defer g.IRelease(""END guessSchemaType"")";
"	}";
"";
"	var sts schema.PrimitiveTypes";
"	if schemaLooksLikeObject(s) {";
"		if pdebug.Enabled {";
"			pdebug.Printf(""Looks like it could be an object..."")";
"		}";
"		sts = append(sts, schema.ObjectType)";
"	}";
"";
"	if schemaLooksLikeArray(s) {";
"		if pdebug.Enabled {";
"			pdebug.Printf(""Looks like it could be an array..."")";
"		}";
"		sts = append(sts, schema.ArrayType)";
"	}";
"";
"	if schemaLooksLikeString(s) {";
"		if pdebug.Enabled {";
"			pdebug.Printf(""Looks like it could be a string..."")";
"		}";
"		sts = append(sts, schema.StringType)";
"	}";
"";
"	if ok, typ := schemaLooksLikeNumber(s); ok {";
"		if pdebug.Enabled {";
"			pdebug.Printf(""Looks like it could be a number..."")";
"		}";
"		sts = append(sts, typ)";
"	}";
"";
"	if schemaLooksLikeBool(s) {";
"		if pdebug.Enabled {";
"			pdebug.Printf(""Looks like it could be a bool..."")";
"		}";
"		sts = append(sts, schema.BooleanType)";
"	}";
"";
"	if pdebug.Enabled {";
"		pdebug.Printf(""Guessed types: %#v"", sts)";
"	}";
"";
"	return sts";
"}";
"";
"func schemaLooksLikeObject(s *schema.Schema) bool {";
"	if len(s.Properties) > 0 {";
"		return true";
"	}";
"";
"	if s.AdditionalProperties == nil {";
"		return true";
"	}";
"";
"	if s.AdditionalProperties.Schema != nil {";
"		return true";
"	}";
"";
"	if s.MinProperties.Initialized {";
"		return true";
"	}";
"";
"	if s.MaxProperties.Initialized {";
"		return true";
"	}";
"";
"	if len(s.Required) > 0 {";
"		return true";
"	}";
"";
"	if len(s.PatternProperties) > 0 {";
"		return true";
"	}";
"";
"	for _, v := range s.Enum {";
"		rv := reflect.ValueOf(v)";
"		switch rv.Kind() {";
"		case reflect.Map, reflect.Struct:";
"			return true";
"		}";
"	}";
"";
"	return false";
"}";
"";
"func schemaLooksLikeArray(s *schema.Schema) bool {";
"	if s.Items != nil {";
"		return true";
"	}";
"";
"	if s.AdditionalItems == nil {";
"		return true";
"	}";
"";
"	if s.AdditionalItems.Schema != nil {";
"		return true";
"	}";
"";
"	if s.Items != nil {";
"		return true";
"	}";
"";
"	if s.MinItems.Initialized {";
"		return true";
"	}";
"";
"	if s.MaxItems.Initialized {";
"		return true";
"	}";
"";
"	if s.UniqueItems.Initialized {";
"		return true";
"	}";
"";
"	for _, v := range s.Enum {";
"		rv := reflect.ValueOf(v)";
"		switch rv.Kind() {";
"		case reflect.Slice:";
"			return true";
"		}";
"	}";
"";
"	return false";
"}";
"";
"func schemaLooksLikeString(s *schema.Schema) bool {";
"	if s.MinLength.Initialized {";
"		return true";
"	}";
"";
"	if s.MaxLength.Initialized {";
"		return true";
"	}";
"";
"	if s.Pattern != nil {";
"		return true";
"	}";
"";
"	switch s.Format {";
"	case schema.FormatDateTime, schema.FormatEmail, schema.FormatHostname, schema.FormatIPv4, schema.FormatIPv6, schema.FormatURI:";
"		return true";
"	}";
"";
"	for _, v := range s.Enum {";
"		rv := reflect.ValueOf(v)";
"		switch rv.Kind() {";
"		case reflect.String:";
"			return true";
"		}";
"	}";
"";
"	return false";
"}";
"";
"func isInteger(n schema.Number) bool {";
"	return math.Floor(n.Val) == n.Val";
"}";
"";
"func schemaLooksLikeNumber(s *schema.Schema) (bool, schema.PrimitiveType) {";
"	if s.MultipleOf.Initialized {";
"		if isInteger(s.MultipleOf) {";
"			return true, schema.IntegerType";
"		}";
"		return true, schema.NumberType";
"	}";
"";
"	if s.Minimum.Initialized {";
"		if isInteger(s.Minimum) {";
"			return true, schema.IntegerType";
"		}";
"		return true, schema.NumberType";
"	}";
"";
"	if s.Maximum.Initialized {";
"		if isInteger(s.Maximum) {";
"			return true, schema.IntegerType";
"		}";
"		return true, schema.NumberType";
"	}";
"";
"	if s.ExclusiveMinimum.Initialized {";
"		return true, schema.NumberType";
"	}";
"";
"	if s.ExclusiveMaximum.Initialized {";
"		return true, schema.NumberType";
"	}";
"";
"	for _, v := range s.Enum {";
"		rv := reflect.ValueOf(v)";
"		switch rv.Kind() {";
"		case reflect.Int, reflect.Int8, reflect.Int16, reflect.Int32, reflect.Int64:";
"			return true, schema.IntegerType";
"		case reflect.Float32, reflect.Float64:";
"			return true, schema.NumberType";
"		}";
"	}";
"";
"	return false, schema.UnspecifiedType";
"}";
"";
"func schemaLooksLikeBool(s *schema.Schema) bool {";
"	for _, v := range s.Enum {";
"		rv := reflect.ValueOf(v)";
"		switch rv.Kind() {";
"		case reflect.Bool:";
"			return true";
"		}";
"	}";
"";
"	return false";
"}"
].

(** builder/enum.go *)
Definition text_b_enum : list string := [
"package builder";
"";
"import (";
"	""github.com/lestrrat-go/jsschema""";
"	""github.com/lestrrat-go/jsval""";
")";
"";
"func buildEnumConstraint(_ *buildctx, c *jsval.EnumConstraint, s *schema.Schema) error {";
"	l := make([]interface{}, len(s.Enum))";
"	copy(l, s.Enum)";
"	c.Enum(l)";
"	return nil";
"}"
].

(** builder/number.go *)
Definition text_b_number : list string := [
"package builder";
"";
"import (";
"	""errors""";
"";
"	""github.com/lestrrat-go/jsschema""";
"	""github.com/lestrrat-go/jsval""";
")";
"";
"func buildIntegerConstraint(ctx *buildctx, nc *jsval.IntegerConstraint, s *schema.Schema) error {";
"	if len(s.Type) > 0 {";
"		if !s.Type.Contains(schema.IntegerType) {";
"			return errors.New(""schema is not for integer"")";
"		}";
"	}";
"";
"	if s.Minimum.Initialized {";
"		nc.Minimum(s.Minimum.Val)";
"		if s.ExclusiveMinimum.Initialized {";
"			nc.ExclusiveMinimum(s.ExclusiveMinimum.Val)";
"		}";
"	}";
"";
"	if s.Maximum.Initialized {";
"		nc.Maximum(s.Maximum.Val)";
"		if s.ExclusiveMaximum.Initialized {";
"			nc.ExclusiveMaximum(s.ExclusiveMaximum.Val)";
"		}";
"	}";
"";
"	if s.MultipleOf.Initialized {";
"		nc.MultipleOf(s.MultipleOf.Val)";
"	}";
"";
"	if lst := s.Enum; len(lst) > 0 {";
"		nc.Enum(lst...)";
"	}";
"";
"	if v := s.Default; v != nil {";
"		nc.Default(v)";
"	}";
"";
"	return nil";
"}";
"";
"func buildNumberConstraint(ctx *buildctx, nc *jsval.NumberConstraint, s *schema.Schema) error {";
"	if len(s.Type) > 0 {";
"		if !s.Type.Contains(schema.NumberType) {";
"			return errors.New(""schema is not for number"")";
"		}";
"	}";
"";
"	if s.Minimum.Initialized {";
"		nc.Minimum(s.Minimum.Val)";
"		if s.ExclusiveMinimum.Initialized {";
"			nc.ExclusiveMinimum(s.ExclusiveMinimum.Val)";
"		}";
"	}";
"";
"	if s.Maximum.Initialized {";
"		nc.Maximum(s.Maximum.Val)";
"		if s.ExclusiveMaximum.Initialized {";
"			nc.ExclusiveMaximum(s.ExclusiveMaximum.Val)";
"		}";
"	}";
"";
"	if s.MultipleOf.Initialized {";
"		nc.MultipleOf(s.MultipleOf.Val)";
"	}";
"";
"	if lst := s.Enum; len(lst) > 0 {";
"		nc.Enum(lst)";
"	}";
"";
"	if v := s.Default; v != nil {";
"		nc.Default(v)";
"	}";
"";
"	return nil";
"}"
].

(** builder/object.go *)
Definition text_b_object : list string := [
"package builder";
"";
"import (";
"	""github.com/lestrrat-go/jsschema""";
"	""github.com/lestrrat-go/jsval""";
"	""github.com/lestrrat-go/pdebug""";
")";
"";
"func buildObjectConstraint(ctx *buildctx, c *jsval.ObjectConstraint, s *schema.Schema) error {";
"	if pdebug.Enabled {";
"		g := pdebug.IPrintf(""START ObjectConstraint.FromSchema"")";
"		defer g.IRelease(""END ObjectConstraint.FromSchema"")";
"	}";
"";
"	if l := s.Required; len(l) > 0 {";
"		c.Required(l...)";
"	}";
"";
"	if s.MinProperties.Initialized {";
"		c.MinProperties(s.MinProperties.Val)";
"	}";
"";
"	if s.MaxProperties.Initialized {";
"		c.MaxProperties(s.MaxProperties.Val)";
"	}";
"";
"	for pname, pdef := range s.Properties {";
"		cprop, err := buildFromSchema(ctx, pdef)";
"		if err != nil {";
"			return err";
"		}";
"";
"		c.AddProp(pname, cprop)";
"	}";
"";
"	for rx, pdef := range s.PatternProperties {";
"		cprop, err := buildFromSchema(ctx, pdef)";
"		if err != nil {";
"			return err";
"		}";
"		c.PatternProperties(rx, cprop)";
"	}";
"";
"	if aprops := s.AdditionalProperties; aprops != nil {";
"		if sc := aprops.Schema; sc != nil {";
"			aitem, err := buildFromSchema(ctx, sc)";
"			if err != nil {";
"				return err";
"			}";
"			c.AdditionalProperties(aitem)";
"		} else {";
"			c.AdditionalProperties(jsval.EmptyConstraint)";
"		}";
"	}";
"";
"	for from, to := range s.Dependencies.Names {";
"		c.PropDependency(from, to...)";
"	}";
"";
"	if depschemas := s.Dependencies.Schemas; len(depschemas) > 0 {";
"		for pname, depschema := range depschemas {";
"			depc, err := buildFromSchema(ctx, depschema)";
"			if err != nil {";
"				return err";
"			}";
"";
"			c.SchemaDependency(pname, depc)";
"		}";
"	}";
"";
"	return nil";
"}"
].

(** builder/reference.go *)
Definition text_b_reference : list string := [
"package builder";
"";
"import (";
"	""errors""";
"";
"	""github.com/lestrrat-go/jsschema""";
"	""github.com/lestrrat-go/jsval""";
"	""github.com/lestrrat-go/pdebug""";
")";
"";
"func buildReferenceConstraint(_ *buildctx, r *jsval.ReferenceConstraint, s *schema.Schema) error {";
"	pdebug.Printf(""ReferenceConstraint.buildFromSchema '%s'"", s.Reference)";
"	if s.Reference == """" {";
"		return errors.New(""schema does not contain a reference"")";
"	}";
"	r.RefersTo(s.Reference)";
"";
"	return nil";
"}"
].

(** builder/string.go *)
Definition text_b_string : list string := [
"package builder";
"";
"import (";
"	""errors""";
"";
"	""github.com/lestrrat-go/jsschema""";
"	""github.com/lestrrat-go/jsval""";
")";
"";
"func buildStringConstraint(ctx *buildctx, c *jsval.StringConstraint, s *schema.Schema) error {";
"	if len(s.Type) > 0 {";
"		if !s.Type.Contains(schema.StringType) {";
"			return errors.New(""schema is not for string"")";
"		}";
"	}";
"";
"	if s.MaxLength.Initialized {";
"		c.MaxLength(s.MaxLength.Val)";
"	}";
"";
"	if s.MinLength.Initialized {";
"		c.MinLength(s.MinLength.Val)";
"	}";
"";
"	if pat := s.Pattern; pat != nil {";
"		c.Regexp(pat)";
"	}";
"";
"	if f := s.Format; f != """" {";
"		c.Format(string(f))";
"	}";
"";
"	if lst := s.Enum; len(lst) > 0 {";
"		c.Enum(lst...)";
"	}";
"";
"	if v := s.Default; v != nil {";
"		c.Default(v)";
"	}";
"";
"	return nil";
"}"
].
