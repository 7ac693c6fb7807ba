(** Generated by tools/embed.py: the text of Go files of /repo, one string per line. *)
From Coq Require Import String List.
Import ListNotations.
Open Scope string_scope.

(** array.go *)
Definition text_array : list string := [
"package jsval";
"";
"import (";
"	""errors""";
"	""fmt""";
"	""reflect""";
"";
"	""github.com/lestrrat-go/pdebug""";
")";
"";
"// Array creates a new ArrayConstraint";
"func Array() *ArrayConstraint {";
"	return &ArrayConstraint{";
"		additionalItems: EmptyConstraint,";
"		maxItems:        -1,";
"		minItems:        -1,";
"	}";
"}";
"";
"// Validate validates the given value against this Constraint";
"func (c *ArrayConstraint) Validate(v interface{}) (err error) {";
"	if pdebug.Enabled {";
"		g := pdebug.IPrintf(""START ArrayConstraint.Validate"")";
"		defer func() {";
"			if err == nil {";
"				g.IRelease(""END ArrayConstraint.Validate (PASS)"")";
"			} else {";
"				g.IRelease(""END ArrayConstraint.Validate (FAIL): %s"", err)";
"			}";
"		}()";
"	}";
"";
"	rv := reflect.ValueOf(v)";
"	switch rv.Kind() {";
"	case reflect.Slice:";
"	default:";
"		var typ string";
"		if rv == zeroval {";
"			typ = ""invalid""";
"		} else {";
"			typ = rv.Type().String()";
"		}";
"		return errors.New(""value must be a slice (was: "" + typ + "")"")";
"	}";
"";
"	l := rv.Len()";
"";
"	if mi := c.minItems; mi > -1 && l < mi {";
"		return errors.New(""fewer items than minItems"")";
"	}";
"";
"	if mi := c.maxItems; mi > -1 && l > mi {";
"		return errors.New(""more items than maxItems"")";
"	}";
"";
"	var uitems map[string]struct{}";
"	if c.uniqueItems {";
"		pdebug.Printf(""Check for unique items enabled"")";
"		uitems = make(map[string]struct{})";
"		for i := 0; i < l; i++ {";
"			iv := rv.Index(i).Interface()";
"			kv := fmt.Sprintf(""%s"", iv)";
"pdebug.Printf(""unique? -> %s"", kv)";
"			if _, ok := uitems[kv]; ok {";
"				return errors.New(""duplicate element found"")";
"			}";
"			uitems[kv] = struct{}{}";
"		}";
"	}";
"";
"	if celem := c.items; celem != nil {";
"		if pdebug.Enabled {";
"			pdebug.Printf(""Checking if all items match a spec"")";
"		}";
"		// if this is set, then all items must fulfill this.";
"		// additional items are ignored";
"		for i := 0; i < l; i++ {";
"			iv := rv.Index(i).Interface()";
"			if err := celem.Validate(iv); err != nil {";
"				return err";
"			}";
"		}";
"	} else {";
"		// otherwise, check the positional specs, and apply the";
"		// additionalItems constraint";
"		lv := rv.Len()";
"		for i, cpos := range c.positionalItems {";
"			if lv <= i {";
"				break";
"			}";
"			if pdebug.Enabled {";
"				pdebug.Printf(""Checking positional item at '%d'"", i)";
"			}";
"			iv := rv.Index(i).Interface()";
"			if err := cpos.Validate(iv); err != nil {";
"				return err";
"			}";
"		}";
"";
"		lp := len(c.positionalItems)";
"		if lp > 0 && l > lp { // we got more than positional schemas";
"			cadd := c.additionalItems";
"			if cadd == nil { // you can't have additionalItems!";
"				return errors.New(""additional elements found in array"")";
"			}";
"			for i := lp - 1; i < l; i++ {";
"				iv := rv.Index(i).Interface()";
"				if err := cadd.Validate(iv); err != nil {";
"					return err";
"				}";
"			}";
"		}";
"	}";
"	return nil";
"}";
"";
"// AdditionalItems specifies the constraint that additional items";
"// must be validated against. Note that if you specify `Items`";
"// with this constraint, `AdditionalItems` has no effect. This";
"// constraint only makes sense when used along side with the";
"// `PositionalItems` constraint.";
"//";
"// If you want to allow any additional items, pass `EmptyConstraint`";
"// to this method. If unspecified, no extra items are allowed.";
"func (c *ArrayConstraint) AdditionalItems(ac Constraint) *ArrayConstraint {";
"	c.additionalItems = ac";
"	return c";
"}";
"";
"// Items specifies the constraint that all items in the array";
"// must be validated against";
"func (c *ArrayConstraint) Items(ac Constraint) *ArrayConstraint {";
"	c.items = ac";
"	return c";
"}";
"";
"// MinItems specifies the minimum number of items in the value.";
"// If unspecified, the check is not performed.";
"func (c *ArrayConstraint) MinItems(i int) *ArrayConstraint {";
"	c.minItems = i";
"	return c";
"}";
"";
"// MaxItems specifies the maximum number of items in the value.";
"// If unspecified, the check is not performed.";
"func (c *ArrayConstraint) MaxItems(i int) *ArrayConstraint {";
"	c.maxItems = i";
"	return c";
"}";
"";
"// PositionalItems specifies the constraint that elements in";
"// each position of the array being validated. Extra items in";
"// the array are validated against the constraint specified for";
"// `AdditionalItems`.";
"func (c *ArrayConstraint) PositionalItems(ac []Constraint) *ArrayConstraint {";
"	c.positionalItems = ac";
"	return c";
"}";
"";
"// UniqueItems specifies if the array can hold non-unique items.";
"// When set to true, the validation will fail unless all of your";
"// elements are unique.";
"//";
"// Caveat: Currently we stringify the elements before comparing";
"// for uniqueness. This could/should be fixed.";
"func (c *ArrayConstraint) UniqueItems(b bool) *ArrayConstraint {";
"	if pdebug.Enabled {";
"		pdebug.Printf(""Setting uniqueItems = %t"", b)";
"	}";
"	c.uniqueItems = b";
"	return c";
"}"
].

(** basic.go *)
Definition text_basic : list string := [
"package jsval";
"";
"import (";
"	""errors""";
"	""reflect""";
"";
"	""github.com/lestrrat-go/pdebug""";
")";
"";
"func (dv defaultValue) HasDefault() bool {";
"	return dv.initialized";
"}";
"";
"func (dv defaultValue) DefaultValue() interface{} {";
"	return dv.value";
"}";
"";
"func (nc emptyConstraint) Validate(_ interface{}) error {";
"	return nil";
"}";
"";
"func (nc emptyConstraint) HasDefault() bool {";
"	return false";
"}";
"";
"func (nc emptyConstraint) DefaultValue() interface{} {";
"	return nil";
"}";
"";
"func (nc nullConstraint) HasDefault() bool {";
"	return false";
"}";
"";
"func (nc nullConstraint) DefaultValue() interface{} {";
"	return nil";
"}";
"";
"func (nc nullConstraint) Validate(v interface{}) (err error) {";
"	if pdebug.Enabled {";
"		g := pdebug.Marker(""NullConstraint.Validate"").BindError(&err)";
"		defer g.End()";
"	}";
"";
"	rv := reflect.ValueOf(v)";
"	if rv == zeroval {";
"		return nil";
"	}";
"";
"	switch rv.Kind() {";
"	case reflect.Chan, reflect.Func, reflect.Interface, reflect.Map, reflect.Ptr, reflect.Slice:";
"		if rv.IsNil() {";
"			return nil";
"		}";
"	}";
"	return errors.New(""value is not null"")";
"}";
"";
"// Not creates a new NotConstraint. You must pass in the";
"// child constraint to be run";
"func Not(c Constraint) *NotConstraint {";
"	return &NotConstraint{child: c}";
"}";
"";
"// HasDefault is a no op for this constraint";
"func (nc NotConstraint) HasDefault() bool {";
"	return false";
"}";
"";
"// DefaultValue is a no op for this constraint";
"func (nc NotConstraint) DefaultValue() interface{} {";
"	return nil";
"}";
"";
"// Validate runs the validation, and returns an error unless";
"// the child constraint fails";
"func (nc NotConstraint) Validate(v interface{}) (err error) {";
"	if pdebug.Enabled {";
"		g := pdebug.Marker(""NotConstraint.Validate"").BindError(&err)";
"		defer g.End()";
"	}";
"";
"	if nc.child == nil {";
"		return errors.New(""'not' constraint does not have a child constraint"")";
"	}";
"";
"	if err := nc.child.Validate(v); err == nil {";
"		return errors.New(""'not' validation failed"")";
"	}";
"	return nil";
"}"
].

(** bool.go *)
Definition text_bool : list string := [
"package jsval";
"";
"import (";
"	""errors""";
"	""reflect""";
")";
"";
"// Boolean creates a new BooleanConsraint";
"func Boolean() *BooleanConstraint {";
"	return &BooleanConstraint{}";
"}";
"";
"// Default specifies the default value to apply";
"func (bc *BooleanConstraint) Default(v interface{}) *BooleanConstraint {";
"	bc.defaultValue.initialized = true";
"	bc.defaultValue.value = v";
"	return bc";
"}";
"";
"// Validate vaidates the value against the given value";
"func (bc *BooleanConstraint) Validate(v interface{}) error {";
"	rv := reflect.ValueOf(v)";
"	switch rv.Kind() {";
"	case reflect.Bool:";
"	default:";
"		return errors.New(""value is not a boolean"")";
"	}";
"	return nil";
"}"
].

(** combinations.go *)
Definition text_combinations : list string := [
"package jsval";
"";
"import (";
"	""errors""";
"";
"	""github.com/lestrrat-go/pdebug""";
")";
"";
"func (c *comboconstraint) Add(v Constraint) {";
"	c.constraints = append(c.constraints, v)";
"}";
"";
"func (c *comboconstraint) Constraints() []Constraint {";
"	return c.constraints";
"}";
"";
"func reduceCombined(cc interface {";
"	Constraint";
"	Constraints() []Constraint";
"}) Constraint {";
"	l := cc.Constraints()";
"	if len(l) == 1 {";
"		return l[0]";
"	}";
"	return cc";
"}";
"";
"// Any creates a new AnyConstraint";
"func Any() *AnyConstraint {";
"	return &AnyConstraint{}";
"}";
"";
"// Reduce returns the child Constraint, if this constraint";
"// has only 1 child constraint.";
"func (c *AnyConstraint) Reduce() Constraint {";
"	return reduceCombined(c)";
"}";
"";
"// Add appends a new Constraint";
"func (c *AnyConstraint) Add(c2 Constraint) *AnyConstraint {";
"	c.comboconstraint.Add(c2)";
"	return c";
"}";
"";
"// Validate validates the value against the input value.";
"// For AnyConstraints, it will return success the moment";
"// one child Constraint succeeds. It will return an error";
"// if none of the child Constraints succeeds";
"func (c *AnyConstraint) Validate(v interface{}) (err error) {";
"	if pdebug.Enabled {";
"		g := pdebug.Marker(""AnyConstraint.Validate"").BindError(&err)";
"		defer g.End()";
"	}";
"	for _, celem := range c.constraints {";
"		if err := celem.Validate(v); err == nil {";
"			return nil";
"		}";
"	}";
"	return errors.New(""could not validate against any of the constraints"")";
"}";
"";
"// All creates a new AllConstraint";
"func All() *AllConstraint {";
"	return &AllConstraint{}";
"}";
"";
"// Reduce returns the child Constraint, if this constraint";
"// has only 1 child constraint.";
"func (c *AllConstraint) Reduce() Constraint {";
"	return reduceCombined(c)";
"}";
"";
"// Add appends a new Constraint";
"func (c *AllConstraint) Add(c2 Constraint) *AllConstraint {";
"	c.comboconstraint.Add(c2)";
"	return c";
"}";
"";
"// Validate validates the value against the input value.";
"// For AllConstraints, it will only return success if";
"// all of the child Constraints succeeded.";
"func (c *AllConstraint) Validate(v interface{}) (err error) {";
"	if pdebug.Enabled {";
"		g := pdebug.Marker(""AllConstraint.Validate"").BindError(&err)";
"		defer g.End()";
"	}";
"";
"	for _, celem := range c.constraints {";
"		if err := celem.Validate(v); err != nil {";
"			return err";
"		}";
"	}";
"	return nil";
"}";
"";
"// OneOf creates a new OneOfConstraint";
"func OneOf() *OneOfConstraint {";
"	return &OneOfConstraint{}";
"}";
"";
"// Reduce returns the child Constraint, if this constraint";
"// has only 1 child constraint.";
"func (c *OneOfConstraint) Reduce() Constraint {";
"	return reduceCombined(c)";
"}";
"";
"// Add appends a new Constraint";
"func (c *OneOfConstraint) Add(c2 Constraint) *OneOfConstraint {";
"	c.comboconstraint.Add(c2)";
"	return c";
"}";
"";
"// Validate validates the value against the input value.";
"// For OneOfConstraints, it will return success only if";
"// exactly 1 child Constraint succeeds.";
"func (c *OneOfConstraint) Validate(v interface{}) (err error) {";
"	if pdebug.Enabled {";
"		g := pdebug.Marker(""OneOfConstraint.Validate"").BindError(&err)";
"		defer g.End()";
"	}";
"";
"	count := 0";
"	for _, celem := range c.constraints {";
"		if err := celem.Validate(v); err == nil {";
"			count++";
"		}";
"	}";
"";
"	if count == 0 {";
"		return errors.New(""none of the constraints passed"")";
"	} else if count > 1 {";
"		return errors.New(""more than 1 of the constraints passed"")";
"	}";
"	return nil // Yes!";
"}"
].

(** enum.go *)
Definition text_enum : list string := [
"package jsval";
"";
"import (";
"	""errors""";
"";
"	""github.com/lestrrat-go/pdebug""";
")";
"";
"// Enum creates a new EnumConstraint";
"func Enum(v ...interface{}) *EnumConstraint {";
"	return &EnumConstraint{enums: v}";
"}";
"";
"// Enum method sets the possible enumerations";
"func (c *EnumConstraint) Enum(v ...interface{}) *EnumConstraint {";
"	c.enums = v";
"	return c";
"}";
"";
"// Validate validates the value against the list of enumerations";
"func (c *EnumConstraint) Validate(v interface{}) (err error) {";
"	if pdebug.Enabled {";
"		g := pdebug.Marker(""EnumConstraint.Validate (%s)"", v).BindError(&err)";
"		defer g.End()";
"	}";
"	for _, e := range c.enums {";
"		if e == v {";
"			return nil";
"		}";
"	}";
"	return errors.New(""value is not in enumeration"")";
"}"
].

(** jsval.go *)
Definition text_jsval : list string := [
"//go:generate go run internal/cmd/gentest/gentest.go schema.json generated_validator_test.go";
"//go:generate go run internal/cmd/genmaybe/genmaybe.go";
"";
"// Package jsval implements an input validator, based on JSON Schema.";
"// The main purpose is to validate JSON Schemas (see";
"// https://github.com/lestrrat-go/jsschema), and to automatically";
"// generate validators from schemas, but jsval can be used independently";
"// of JSON Schema.";
"package jsval";
"";
"import ""github.com/pkg/errors""";
"";
"// New creates a new JSVal instance.";
"func New() *JSVal {";
"	return &JSVal{";
"		ConstraintMap: &ConstraintMap{},";
"	}";
"}";
"";
"// Validate validates the input, and return an error";
"// if any of the validations fail";
"func (v *JSVal) Validate(x interface{}) error {";
"	name := v.Name";
"	if len(name) == 0 {";
"		return errors.Wrapf(v.root.Validate(x), ""validator %p failed"", v)";
"	}";
"	return errors.Wrapf(v.root.Validate(x), ""validator %s failed"", name)";
"}";
"";
"// SetName sets the name for the validator";
"func (v *JSVal) SetName(s string) *JSVal {";
"	v.Name = s";
"	return v";
"}";
"";
"// SetRoot sets the root Constraint object.";
"func (v *JSVal) SetRoot(c Constraint) *JSVal {";
"	v.root = c";
"	return v";
"}";
"";
"// Root returns the root Constraint object.";
"func (v *JSVal) Root() Constraint {";
"	return v.root";
"}";
"";
"// SetConstraintMap allows you to set the map that is referred to";
"// when resolving JSON references within constraints. By setting";
"// this to a common map, for example, you can share the same references";
"// to save you some memory space and sanity. See an example in the";
"// `generated_validator_test.go` file.";
"func (v *JSVal) SetConstraintMap(cm *ConstraintMap) *JSVal {";
"	v.ConstraintMap = cm";
"	return v";
"}";
"";
"func (p JSValSlice) Len() int           { return len(p) }";
"func (p JSValSlice) Less(i, j int) bool { return p[i].Name < p[j].Name }";
"func (p JSValSlice) Swap(i, j int)      { p[i], p[j] = p[j], p[i] }"
].

(** maybe.go *)
Definition text_maybe : list string := [
"package jsval";
"";
"import (";
"	""bytes""";
"	""encoding/json""";
"	""reflect""";
"	""time""";
")";
"";
"type ErrInvalidMaybeValue struct {";
"	Value interface{}";
"}";
"";
"func (e ErrInvalidMaybeValue) Error() string {";
"	buf := bytes.Buffer{}";
"	buf.WriteString(""invalid Maybe value: "")";
"	t := reflect.TypeOf(e.Value)";
"	switch t {";
"	case nil:";
"		buf.WriteString(""(nil)"")";
"	default:";
"		buf.WriteByte('(')";
"		buf.WriteString(t.String())";
"		buf.WriteByte(')')";
"	}";
"";
"	return buf.String()";
"}";
"";
"// Maybe is an interface that can be used for struct fields which";
"// want to differentiate between initialized and uninitialized state.";
"// For example, a string field, if uninitialized, will contain the zero";
"// value of """", but that empty string *could* be a valid value for";
"// our validation purposes.";
"//";
"// To differentiate between an uninitialized string and an empty string,";
"// you should wrap it with a wrapper that implements the Maybe interface";
"// and JSVal will do its best to figure this out";
"type Maybe interface {";
"	// Valid should return true if this value has been properly initialized.";
"	// If this returns false, JSVal will treat as if the field is has not been";
"	// provided at all.";
"	Valid() bool";
"";
"	// Value should return whatever the underlying value is.";
"	Value() interface{}";
"";
"	// Set sets a value to this Maybe value, and turns on the Valid flag.";
"	// An error may be returned if the value could not be set (e.g.";
"	// you provided a value with the wrong type)";
"	Set(interface{}) error";
"";
"	// Reset clears the Maybe value, and sets the Valid flag to false.";
"	Reset()";
"}";
"";
"type ValidFlag bool";
"";
"func (v *ValidFlag) Reset() {";
"	*v = false";
"}";
"";
"func (v ValidFlag) Valid() bool {";
"	return bool(v)";
"}";
"";
"type MaybeBool struct {";
"	ValidFlag";
"	Bool bool";
"}";
"";
"func (v *MaybeBool) Set(x interface{}) error {";
"	s, ok := x.(bool)";
"	if !ok {";
"		return ErrInvalidMaybeValue{Value: x}";
"	}";
"	v.ValidFlag = true";
"	v.Bool = s";
"	return nil";
"}";
"";
"func (v MaybeBool) Value() interface{} {";
"	return v.Bool";
"}";
"";
"func (v MaybeBool) MarshalJSON() ([]byte, error) {";
"	return json.Marshal(v.Bool)";
"}";
"";
"func (v *MaybeBool) UnmarshalJSON(data []byte) error {";
"	var in bool";
"	if err := json.Unmarshal(data, &in); err != nil {";
"		return err";
"	}";
"	return v.Set(in)";
"}";
"";
"type MaybeFloat struct {";
"	ValidFlag";
"	Float float64";
"}";
"";
"func (v *MaybeFloat) Set(x interface{}) error {";
"	switch x.(type) {";
"	case float32:";
"		v.Float = float64(x.(float32))";
"	case float64:";
"		v.Float = x.(float64)";
"	default:";
"		return ErrInvalidMaybeValue{Value: x}";
"	}";
"	v.ValidFlag = true";
"	return nil";
"}";
"";
"func (v MaybeFloat) Value() interface{} {";
"	return v.Float";
"}";
"";
"func (v MaybeFloat) MarshalJSON() ([]byte, error) {";
"	return json.Marshal(v.Float)";
"}";
"";
"func (v *MaybeFloat) UnmarshalJSON(data []byte) error {";
"	var in float64";
"	if err := json.Unmarshal(data, &in); err != nil {";
"		return err";
"	}";
"	return v.Set(in)";
"}";
"";
"type MaybeInt struct {";
"	ValidFlag";
"	Int int64";
"}";
"";
"func (v *MaybeInt) Set(x interface{}) error {";
"	switch x.(type) {";
"	case int:";
"		v.Int = int64(x.(int))";
"	case int8:";
"		v.Int = int64(x.(int8))";
"	case int16:";
"		v.Int = int64(x.(int16))";
"	case int32:";
"		v.Int = int64(x.(int32))";
"	case float64:";
"		v.Int = int64(x.(float64))";
"	case int64:";
"		v.Int = x.(int64)";
"	default:";
"		return ErrInvalidMaybeValue{Value: x}";
"	}";
"	v.ValidFlag = true";
"	return nil";
"}";
"";
"func (v MaybeInt) Value() interface{} {";
"	return v.Int";
"}";
"";
"func (v MaybeInt) MarshalJSON() ([]byte, error) {";
"	return json.Marshal(v.Int)";
"}";
"";
"func (v *MaybeInt) UnmarshalJSON(data []byte) error {";
"	var in int64";
"	if err := json.Unmarshal(data, &in); err != nil {";
"		return err";
"	}";
"	return v.Set(in)";
"}";
"";
"type MaybeString struct {";
"	ValidFlag";
"	String string";
"}";
"";
"func (v *MaybeString) Set(x interface{}) error {";
"	s, ok := x.(string)";
"	if !ok {";
"		return ErrInvalidMaybeValue{Value: x}";
"	}";
"	v.ValidFlag = true";
"	v.String = s";
"	return nil";
"}";
"";
"func (v MaybeString) Value() interface{} {";
"	return v.String";
"}";
"";
"func (v MaybeString) MarshalJSON() ([]byte, error) {";
"	return json.Marshal(v.String)";
"}";
"";
"func (v *MaybeString) UnmarshalJSON(data []byte) error {";
"	var in string";
"	if err := json.Unmarshal(data, &in); err != nil {";
"		return err";
"	}";
"	return v.Set(in)";
"}";
"";
"type MaybeTime struct {";
"	ValidFlag";
"	Time time.Time";
"}";
"";
"func (v *MaybeTime) Set(x interface{}) error {";
"	switch x.(type) {";
"	case string:";
"		tv, err := time.Parse(time.RFC3339, x.(string))";
"		if err != nil {";
"			return err";
"		}";
"		v.ValidFlag = true";
"		v.Time = tv";
"	case time.Time:";
"		v.ValidFlag = true";
"		v.Time = x.(time.Time)";
"	default:";
"		return ErrInvalidMaybeValue{Value: x}";
"	}";
"	return nil";
"}";
"";
"func (v MaybeTime) Value() interface{} {";
"	return v.Time";
"}";
"";
"func (v MaybeTime) MarshalJSON() ([]byte, error) {";
"	return json.Marshal(v.Time.Format(time.RFC3339))";
"}";
"";
"func (v *MaybeTime) UnmarshalJSON(data []byte) error {";
"	var s string";
"	if err := json.Unmarshal(data, &s); err != nil {";
"		return err";
"	}";
"	t, err := time.Parse(time.RFC3339, s)";
"	if err != nil {";
"		return err";
"	}";
"	v.Time = t";
"	return nil";
"}";
"";
"type MaybeUint struct {";
"	ValidFlag";
"	Uint uint64";
"}";
"";
"func (v *MaybeUint) Set(x interface{}) error {";
"	switch x.(type) {";
"	case uint:";
"		v.Uint = uint64(x.(uint))";
"	case uint8:";
"		v.Uint = uint64(x.(uint8))";
"	case uint16:";
"		v.Uint = uint64(x.(uint16))";
"	case uint32:";
"		v.Uint = uint64(x.(uint32))";
"	case float64:";
"		v.Uint = uint64(x.(float64))";
"	case uint64:";
"		v.Uint = x.(uint64)";
"	default:";
"		return ErrInvalidMaybeValue{Value: x}";
"	}";
"	v.ValidFlag = true";
"	return nil";
"}";
"";
"func (v MaybeUint) Value() interface{} {";
"	return v.Uint";
"}";
"";
"func (v MaybeUint) MarshalJSON() ([]byte, error) {";
"	return json.Marshal(v.Uint)";
"}";
"";
"func (v *MaybeUint) UnmarshalJSON(data []byte) error {";
"	var in uint64";
"	if err := json.Unmarshal(data, &in); err != nil {";
"		return err";
"	}";
"	return v.Set(in)";
"}"
].

(** number.go *)
Definition text_number : list string := [
"package jsval";
"";
"import (";
"	""errors""";
"	""math""";
"	""reflect""";
"";
"	""github.com/lestrrat-go/pdebug""";
")";
"";
"// Enum specifies the values that this constraint can have";
"func (nc *NumberConstraint) Enum(l ...interface{}) *NumberConstraint {";
"	if nc.enums == nil {";
"		nc.enums = Enum()";
"	}";
"	nc.enums.Enum(l...)";
"	return nc";
"}";
"";
"// Default specifies the default value for the given value";
"func (nc *NumberConstraint) Default(v interface{}) *NumberConstraint {";
"	nc.defaultValue.initialized = true";
"	nc.defaultValue.value = v";
"	return nc";
"}";
"";
"// Maximum sepcifies the maximum value that the constraint can allow";
"func (nc *NumberConstraint) Maximum(n float64) *NumberConstraint {";
"	nc.applyMaximum = true";
"	nc.maximum = n";
"	return nc";
"}";
"";
"// Minimum sepcifies the minimum value that the constraint can allow";
"func (nc *NumberConstraint) Minimum(n float64) *NumberConstraint {";
"	nc.applyMinimum = true";
"	nc.minimum = n";
"	return nc";
"}";
"";
"// MultipleOf specifies the number that the given value must be";
"// divisible by. That is, the constraint will return an error unless";
"// the given value satisfies `math.Mod(v, n) == 0`";
"func (nc *NumberConstraint) MultipleOf(n float64) *NumberConstraint {";
"	nc.applyMultipleOf = true";
"	nc.multipleOf = n";
"	return nc";
"}";
"";
"// ExclusiveMinimum specifies if the minimum value should be considered";
"// a valid value";
"func (nc *NumberConstraint) ExclusiveMinimum(b bool) *NumberConstraint {";
"	nc.exclusiveMinimum = b";
"	return nc";
"}";
"";
"// ExclusiveMaximum specifies if the maximum value should be considered";
"// a valid value";
"func (nc *NumberConstraint) ExclusiveMaximum(b bool) *NumberConstraint {";
"	nc.exclusiveMaximum = b";
"	return nc";
"}";
"";
"// Validate validates the value against this constraint";
"func (nc *NumberConstraint) Validate(v interface{}) (err error) {";
"	if pdebug.Enabled {";
"		g := pdebug.IPrintf(""START NumberConstraint.Validate"")";
"		defer func() {";
"			if err == nil {";
"				g.IRelease(""END NumberConstraint.Validate (PASS)"")";
"			} else {";
"				g.IRelease(""END NumberConstraint.Validate (FAIL): %s"", err)";
"			}";
"		}()";
"	}";
"";
"	rv := reflect.ValueOf(v)";
"	switch rv.Kind() {";
"	case reflect.Ptr, reflect.Interface:";
"		rv = rv.Elem()";
"	}";
"";
"	switch rv.Kind() {";
"	case reflect.Float32, reflect.Float64:";
"	default:";
"		return errors.New(""value is not a float"")";
"	}";
"";
"	f := rv.Float()";
"	if nc.applyMinimum {";
"		if pdebug.Enabled {";
"			pdebug.Printf(""Checking Minimum (%f)"", nc.minimum)";
"		}";
"";
"		if nc.exclusiveMinimum {";
"			if nc.minimum >= f {";
"				return errors.New(""numeric value is less than the minimum (exclusive minimum)"")";
"			}";
"		} else {";
"			if nc.minimum > f {";
"				return errors.New(""numeric value is less than the minimum"")";
"			}";
"		}";
"	}";
"";
"	if nc.applyMaximum {";
"		if pdebug.Enabled {";
"			pdebug.Printf(""Checking Maximum (%f)"", nc.maximum)";
"		}";
"		if nc.exclusiveMaximum {";
"			if nc.maximum <= f {";
"				return errors.New(""numeric value is greater than maximum (exclusive maximum)"")";
"			}";
"		} else {";
"			if nc.maximum < f {";
"				return errors.New(""numeric value is greater than maximum"")";
"			}";
"		}";
"	}";
"";
"	if nc.applyMultipleOf {";
"		if pdebug.Enabled {";
"			pdebug.Printf(""Checking MultipleOf (%f)"", nc.multipleOf)";
"		}";
"";
"		if nc.multipleOf != 0 {";
"	    if math.Mod(f, nc.multipleOf) != 0 {";
"				return errors.New(""numeric value is fails multipleOf validation"")";
"			}";
"		}";
"	}";
"";
"	if enum := nc.enums; enum != nil {";
"		if err := enum.Validate(f); err != nil {";
"			return err";
"		}";
"	}";
"";
"	return nil";
"}";
"";
"// Number creates a new NumberConstraint";
"func Number() *NumberConstraint {";
"	return &NumberConstraint{";
"		applyMinimum: false,";
"		applyMaximum: false,";
"	}";
"}";
"";
"// Integer creates a new IntegerrConstraint";
"func Integer() *IntegerConstraint {";
"	c := &IntegerConstraint{}";
"	c.applyMinimum = false";
"	c.applyMaximum = false";
"	return c";
"}";
"";
"// Default specifies the default value for the given value";
"func (ic *IntegerConstraint) Default(v interface{}) *IntegerConstraint {";
"	ic.NumberConstraint.Default(v)";
"	return ic";
"}";
"";
"// Maximum sepcifies the maximum value that the constraint can allow";
"// Maximum sepcifies the maximum value that the constraint can allow";
"func (ic *IntegerConstraint) Maximum(n float64) *IntegerConstraint {";
"	ic.applyMaximum = true";
"	ic.maximum = n";
"	return ic";
"}";
"";
"// Minimum sepcifies the minimum value that the constraint can allow";
"func (ic *IntegerConstraint) Minimum(n float64) *IntegerConstraint {";
"	ic.applyMinimum = true";
"	ic.minimum = n";
"	return ic";
"}";
"";
"// ExclusiveMinimum specifies if the minimum value should be considered";
"// a valid value";
"func (ic *IntegerConstraint) ExclusiveMinimum(b bool) *IntegerConstraint {";
"	ic.NumberConstraint.ExclusiveMinimum(b)";
"	return ic";
"}";
"";
"// ExclusiveMaximum specifies if the maximum value should be considered";
"// a valid value";
"func (ic *IntegerConstraint) ExclusiveMaximum(b bool) *IntegerConstraint {";
"	ic.NumberConstraint.ExclusiveMaximum(b)";
"	return ic";
"}";
"";
"// Validate validates the value against integer validation rules.";
"// Note that because when Go decodes JSON it FORCES float64 on numbers,";
"// this method will return true even if the *type* of the value is";
"// float32/64. We just check that `math.Floor(v) == v`";
"func (ic *IntegerConstraint) Validate(v interface{}) (err error) {";
"	if pdebug.Enabled {";
"		g := pdebug.IPrintf(""START IntegerConstraint.Validate"")";
"		defer func() {";
"			if err == nil {";
"				g.IRelease(""END IntegerConstraint.Validate (PASS)"")";
"			} else {";
"				g.IRelease(""END IntegerConstraint.Validate (FAIL): %s"", err)";
"			}";
"		}()";
"	}";
"";
"	rv := reflect.ValueOf(v)";
"	switch rv.Kind() {";
"	case reflect.Interface, reflect.Ptr:";
"		rv = rv.Elem()";
"	}";
"";
"	switch rv.Kind() {";
"	case reflect.Int, reflect.Int8, reflect.Int16, reflect.Int32, reflect.Int64:";
"		return ic.NumberConstraint.Validate(float64(rv.Int()))";
"	case reflect.Uint, reflect.Uint8, reflect.Uint16, reflect.Uint32, reflect.Uint64, reflect.Uintptr:";
"		return ic.NumberConstraint.Validate(float64(rv.Uint()))";
"	case reflect.Float32, reflect.Float64:";
"		fv := rv.Float()";
"		if math.Floor(fv) != fv {";
"			return errors.New(""value is not an int/uint"")";
"		}";
"		return ic.NumberConstraint.Validate(fv)";
"	default:";
"		return errors.New(""value is not numeric"")";
"	}";
"}"
].

(** object.go *)
Definition text_object : list string := [
"package jsval";
"";
"import (";
"	""errors""";
"	""reflect""";
"	""regexp""";
"";
"	""github.com/lestrrat-go/pdebug""";
")";
"";
"type getPropValuer interface {";
"	// Given a JSON property name, return the actual field value";
"	GetPropValue(string) (interface{}, error)";
"}";
"";
"type getPropNameser interface {";
"	// Given a lst of JSON property names";
"	GetPropNames() ([]string, error)";
"}";
"";
"// Object creates a new ObjectConstraint";
"func Object() *ObjectConstraint {";
"	return &ObjectConstraint{";
"		additionalProperties: nil,";
"		minProperties:        -1,";
"		maxProperties:        -1,";
"		patternProperties:    make(map[*regexp.Regexp]Constraint),";
"		properties:           make(map[string]Constraint),";
"		propdeps:             make(map[string][]string),";
"		required:             make(map[string]struct{}),";
"		schemadeps:           make(map[string]Constraint),";
"	}";
"}";
"";
"// Required specifies required property names";
"func (o *ObjectConstraint) Required(l ...string) *ObjectConstraint {";
"	o.reqlock.Lock()";
"	defer o.reqlock.Unlock()";
"";
"	for _, pname := range l {";
"		o.required[pname] = struct{}{}";
"	}";
"	return o";
"}";
"";
"// IsPropRequired returns true if the given name is listed under";
"// the required properties";
"func (o *ObjectConstraint) IsPropRequired(s string) bool {";
"	o.reqlock.Lock()";
"	defer o.reqlock.Unlock()";
"";
"	_, ok := o.required[s]";
"	return ok";
"}";
"";
"// MinProperties specifies the minimum number of properties this";
"// constraint can allow. If unspecified, it is not checked.";
"func (o *ObjectConstraint) MinProperties(n int) *ObjectConstraint {";
"	o.minProperties = n";
"	return o";
"}";
"";
"// MaxProperties specifies the maximum number of properties this";
"// constraint can allow. If unspecified, it is not checked.";
"func (o *ObjectConstraint) MaxProperties(n int) *ObjectConstraint {";
"	o.maxProperties = n";
"	return o";
"}";
"";
"// AdditionalProperties specifies the constraint that additional";
"// properties should be validated against.";
"func (o *ObjectConstraint) AdditionalProperties(c Constraint) *ObjectConstraint {";
"	o.additionalProperties = c";
"	return o";
"}";
"";
"// AddProp adds constraints for a named property.";
"func (o *ObjectConstraint) AddProp(name string, c Constraint) *ObjectConstraint {";
"	o.proplock.Lock()";
"	defer o.proplock.Unlock()";
"";
"	o.properties[name] = c";
"	return o";
"}";
"";
"// PatternProperties specifies constraints that properties matching";
"// this pattern must be validated against. Note that properties listed";
"// using `AddProp` takes precedence.";
"func (o *ObjectConstraint) PatternProperties(key *regexp.Regexp, c Constraint) *ObjectConstraint {";
"	o.proplock.Lock()";
"	defer o.proplock.Unlock()";
"";
"	o.patternProperties[key] = c";
"	return o";
"}";
"";
"// PatternPropertiesString is the same as PatternProperties, but takes";
"// a string representing a regular expression. If the regular expression";
"// cannot be compiled, a panic occurs.";
"func (o *ObjectConstraint) PatternPropertiesString(key string, c Constraint) *ObjectConstraint {";
"	rx := regexp.MustCompile(key)";
"	return o.PatternProperties(rx, c)";
"}";
"";
"// PropDependency specifies properties that must be present when";
"// `from` is present.";
"func (o *ObjectConstraint) PropDependency(from string, to ...string) *ObjectConstraint {";
"	o.deplock.Lock()";
"	defer o.deplock.Unlock()";
"";
"	l := o.propdeps[from]";
"	l = append(l, to...)";
"	o.propdeps[from] = l";
"	return o";
"}";
"";
"// SchemaDependency specifies a schema that the value being validated";
"// must also satisfy. Note that the ""object"" is the target that needs to";
"// be additionally validated, not the value of the `from` property";
"func (o *ObjectConstraint) SchemaDependency(from string, c Constraint) *ObjectConstraint {";
"	o.deplock.Lock()";
"	defer o.deplock.Unlock()";
"";
"	o.schemadeps[from] = c";
"	return o";
"}";
"";
"// GetPropDependencies returns the list of property names that must";
"// be present for given property name `from`";
"func (o *ObjectConstraint) GetPropDependencies(from string) []string {";
"	o.deplock.Lock()";
"	defer o.deplock.Unlock()";
"";
"	l, ok := o.propdeps[from]";
"	if !ok {";
"		return nil";
"	}";
"";
"	return l";
"}";
"";
"// GetSchemaDependency returns the Constraint that must be used when";
"// the property `from` is present.";
"func (o *ObjectConstraint) GetSchemaDependency(from string) Constraint {";
"	o.deplock.Lock()";
"	defer o.deplock.Unlock()";
"";
"	c, ok := o.schemadeps[from]";
"	if !ok {";
"		return nil";
"	}";
"";
"	return c";
"}";
"";
"var structInfoRegistry = StructInfoRegistry{";
"	registry: make(map[reflect.Type]StructInfo),";
"}";
"";
"// getProps return all of the property names for this object.";
"// XXX Map keys can be something other than strings, but";
"// we can't really allow it?";
"func (o *ObjectConstraint) getPropNames(rv reflect.Value) ([]string, error) {";
"	switch rv.Kind() {";
"	case reflect.Ptr, reflect.Interface:";
"		rv = rv.Elem()";
"	}";
"";
"	var keys []string";
"	switch rv.Kind() {";
"	case reflect.Map:";
"		vk := rv.MapKeys()";
"		keys = make([]string, len(vk))";
"		for i, v := range vk {";
"			if v.Kind() != reflect.String {";
"				return nil, errors.New(""panic: can only handle maps with string keys"")";
"			}";
"			keys[i] = v.String()";
"		}";
"	case reflect.Struct:";
"		if gpv, ok := rv.Interface().(getPropNameser); ok {";
"			pv, err := gpv.GetPropNames()";
"			if err == nil {";
"				return pv, nil";
"			}";
"		}";
"";
"		si, ok := structInfoRegistry.Lookup(rv.Type())";
"		if !ok {";
"			si = structInfoRegistry.Register(rv.Type())";
"		}";
"";
"		return si.PropNames(rv), nil";
"	default:";
"		return nil, errors.New(""cannot get property names from this value (Kind: "" + rv.Kind().String() + "")"")";
"	}";
"";
"	return keys, nil";
"}";
"";
"var (";
"	maybefloatT = reflect.TypeOf(MaybeFloat{})";
"	maybeintT   = reflect.TypeOf(MaybeInt{})";
"	intT        = reflect.TypeOf(int64(0))";
"	floatT      = reflect.TypeOf(float64(0))";
")";
"";
"func coerceValue(v interface{}, t reflect.Type) reflect.Value {";
"	vv := reflect.ValueOf(v)";
"	switch vv.Kind() {";
"	case reflect.Interface:";
"		vv = vv.Elem()";
"	}";
"";
"	// For known Maybe types, we should do our best, too";
"	switch {";
"	case t == maybefloatT:";
"		t = floatT";
"	case t == maybeintT:";
"		t = intT";
"	}";
"";
"	if vv.Type().ConvertibleTo(t) {";
"		return vv.Convert(t)";
"	}";
"	return vv";
"}";
"";
"type setPropValuer interface {";
"	SetPropValue(string, interface{}) error";
"}";
"";
"var spvType = reflect.TypeOf((*setPropValuer)(nil)).Elem()";
"";
"func (o *ObjectConstraint) setProp(rv reflect.Value, pname string, val interface{}) error {";
"	switch rv.Kind() {";
"	case reflect.Ptr, reflect.Interface:";
"		rv = rv.Elem()";
"	}";
"";
"	switch rv.Kind() {";
"	case reflect.Map:";
"		rv.SetMapIndex(reflect.ValueOf(pname), reflect.ValueOf(val))";
"		return nil";
"	case reflect.Struct:";
"		spvm := rv.MethodByName(""SetPropValue"")";
"		if spvm != zeroval {";
"			out := spvm.Call([]reflect.Value{reflect.ValueOf(pname), reflect.ValueOf(val)})";
"			if !out[0].IsNil() {";
"				return out[0].Interface().(error)";
"			}";
"			return nil";
"		}";
"";
"		f := o.getProp(rv, pname)";
"		if f == zeroval {";
"			return errors.New(""setProp: could not find field '"" + pname + ""'"")";
"		}";
"";
"		// Usability: If you specify `Default(10)` on an int64 value,";
"		// it doesn't work. But these values are compatible. We should";
"		// do our best to align them";
"		dv := coerceValue(val, f.Type())";
"";
"		// Is this a Maybe value? If so, we should use its Set() method";
"		var mv reflect.Value";
"		switch {";
"		case f.Type().Implements(maybeif):";
"			mv = f.MethodByName(""Set"")";
"		case f.CanAddr() && f.Addr().Type().Implements(maybeif):";
"			mv = f.Addr().MethodByName(""Set"")";
"		default:";
"			f.Set(dv)";
"			return nil";
"		}";
"";
"		if mv == zeroval {";
"			return errors.New(""setProp: could not get 'Set' method for value"")";
"		}";
"";
"		out := mv.Call([]reflect.Value{dv})";
"		if !out[0].IsNil() {";
"			return out[0].Interface().(error)";
"		}";
"		return nil";
"	default:";
"		return errors.New(""setProp: don't know what to do with '"" + rv.Kind().String() + ""'"")";
"	}";
"}";
"";
"func (o *ObjectConstraint) getProp(rv reflect.Value, pname string) reflect.Value {";
"	switch rv.Kind() {";
"	case reflect.Map:";
"		pv := reflect.ValueOf(pname)";
"		return rv.MapIndex(pv)";
"	case reflect.Struct:";
"		// This guy knows how to grab the value, given a name. Use that";
"		if gpv, ok := rv.Interface().(getPropValuer); ok {";
"			pv, err := gpv.GetPropValue(pname)";
"			if err == nil {";
"				return reflect.ValueOf(pv)";
"			}";
"		}";
"";
"		si, ok := structInfoRegistry.Lookup(rv.Type())";
"		if !ok {";
"			si = structInfoRegistry.Register(rv.Type())";
"		}";
"";
"		fn, ok := si.FieldName(pname)";
"		if !ok {";
"			if pdebug.Enabled {";
"				pdebug.Printf(""Could not resolve name '%s'"", pname)";
"			}";
"			return zeroval";
"		}";
"		return rv.FieldByName(fn)";
"	default:";
"		return zeroval";
"	}";
"}";
"";
"// Validate validates the given value against this ObjectConstraint";
"func (o *ObjectConstraint) Validate(v interface{}) (err error) {";
"	if pdebug.Enabled {";
"		g := pdebug.IPrintf(""START ObjectConstraint.Validate"")";
"		defer func() {";
"			if err == nil {";
"				g.IRelease(""END ObjectConstraint.Validate (PASS)"")";
"			} else {";
"				g.IRelease(""END ObjectConstraint.Validate (FAIL): %s"", err)";
"			}";
"		}()";
"	}";
"";
"	rv := reflect.ValueOf(v)";
"	switch rv.Kind() {";
"	case reflect.Ptr, reflect.Interface:";
"		rv = rv.Elem()";
"	}";
"";
"	fields, err := o.getPropNames(rv)";
"	if err != nil {";
"		return err";
"	}";
"";
"	lf := len(fields)";
"	if o.minProperties > -1 && lf < o.minProperties {";
"		return errors.New(""fewer properties than minProperties"")";
"	}";
"	if o.maxProperties > -1 && lf > o.maxProperties {";
"		return errors.New(""more properties than maxProperties"")";
"	}";
"";
"	// Find the list of field names that were passed to us";
"	// ""premain"" shows extra props, if any.";
"	// ""pseen"" shows props that we have already seen";
"	premain := map[string]struct{}{}";
"	pseen := map[string]struct{}{}";
"	for _, k := range fields {";
"		premain[k] = struct{}{}";
"	}";
"";
"	// Now, for all known constraints, validate the prop";
"	// create a copy of properties so that we don't have to keep the lock";
"	propdefs := make(map[string]Constraint)";
"	o.proplock.Lock()";
"	for pname, c := range o.properties {";
"		propdefs[pname] = c";
"	}";
"	o.proplock.Unlock()";
"";
"	for pname, c := range propdefs {";
"		if pdebug.Enabled {";
"			pdebug.Printf(""Validating property '%s'"", pname)";
"		}";
"";
"		pval := o.getProp(rv, pname)";
"		propExists := false";
"";
"		switch {";
"		case pval == zeroval:";
"			// If we got a zeroval, we're done for.";
"		case pval.Type().Implements(maybeif) || reflect.PtrTo(pval.Type()).Implements(maybeif):";
"			// If we have a Maybe value, we check the Valid() flag";
"			mv := pval.MethodByName(""Valid"")";
"			out := mv.Call(nil)";
"			if out[0].Bool() {";
"				propExists = true";
"				// Swap out pval to be the value pointed to by the Maybe value";
"				mv = pval.MethodByName(""Value"")";
"				out = mv.Call(nil)";
"				pval = out[0]";
"			}";
"		default:";
"			// Everything else, we have *something*";
"			propExists = true";
"		}";
"";
"		if !propExists {";
"			if pdebug.Enabled {";
"				pdebug.Printf(""Property '%s' does not exist"", pname)";
"			}";
"";
"			if o.IsPropRequired(pname) { // required, and not present.";
"				return errors.New(""object property '"" + pname + ""' is required"")";
"			}";
"";
"			// At this point we know that the property was not present";
"			// and that this field was indeed not required.";
"			if c.HasDefault() {";
"				if pdebug.Enabled {";
"					pdebug.Printf(""object property '"" + pname + ""' has default"")";
"				}";
"				// We have default";
"				dv := c.DefaultValue()";
"";
"				if err := o.setProp(rv, pname, dv); err != nil {";
"					return errors.New(""failed to set default value for property '"" + pname + ""': "" + err.Error())";
"				}";
"				pval = reflect.ValueOf(dv)";
"			}";
"";
"			continue";
"		}";
"";
"		// delete from remaining props";
"		delete(premain, pname)";
"		// ...and add to props that we have seen";
"		pseen[pname] = struct{}{}";
"";
"		if err := c.Validate(pval.Interface()); err != nil {";
"			return errors.New(""object property '"" + pname + ""' validation failed: "" + err.Error())";
"		}";
"	}";
"";
"	for pat, c := range o.patternProperties {";
"		if pdebug.Enabled {";
"			pdebug.Printf(""Checking patternProperty '%s'"", pat.String())";
"		}";
"		for pname := range premain {";
"			if !pat.MatchString(pname) {";
"				if pdebug.Enabled {";
"					pdebug.Printf(""Property '%s' does not match pattern..."", pname)";
"				}";
"				continue";
"			}";
"			if pdebug.Enabled {";
"				pdebug.Printf(""Property '%s' matches!"", pname)";
"			}";
"			// No need to check if this pname exists, as we're taking";
"			// this from ""premain""";
"			pval := o.getProp(rv, pname)";
"";
"			delete(premain, pname)";
"			pseen[pname] = struct{}{}";
"			if err := c.Validate(pval.Interface()); err != nil {";
"				return errors.New(""object property '"" + pname + ""' validation failed: "" + err.Error())";
"			}";
"		}";
"	}";
"";
"	if len(premain) > 0 {";
"		c := o.additionalProperties";
"		if c == nil {";
"			return errors.New(""additional properties are not allowed"")";
"		}";
"";
"		for pname := range premain {";
"			pval := o.getProp(rv, pname)";
"			if err := c.Validate(pval.Interface()); err != nil {";
"				return errors.New(""object property for '"" + pname + ""' validation failed: "" + err.Error())";
"			}";
"		}";
"	}";
"";
"	for pname := range pseen {";
"		if deps := o.GetPropDependencies(pname); len(deps) > 0 {";
"			if pdebug.Enabled {";
"				pdebug.Printf(""Property '%s' has dependencies"", pname)";
"			}";
"			for _, dep := range deps {";
"				if _, ok := pseen[dep]; !ok {";
"					return errors.New(""required dependency '"" + dep + ""' is mising"")";
"				}";
"			}";
"";
"			// can't, and shouldn't do object validation after checking prop deps";
"			continue";
"		}";
"";
"		if depc := o.GetSchemaDependency(pname); depc != nil {";
"			if err := depc.Validate(v); err != nil {";
"				return err";
"			}";
"		}";
"	}";
"";
"	return nil";
"}"
].

(** reference.go *)
Definition text_reference : list string := [
"package jsval";
"";
"import (";
"	""errors""";
"	""sync""";
"";
"	""github.com/lestrrat-go/pdebug""";
")";
"";
"// RefResolver is a mandatory object that you must pass to a ";
"// ReferenceConstraint upon its creation. This is responsible";
"// for resolving the reference to an actual constraint.";
"type RefResolver interface {";
"	GetReference(string) (Constraint, error)";
"}";
"";
"// ConstraintMap is an implementation of RefResolver";
"type ConstraintMap struct {";
"	lock sync.Mutex";
"	refs map[string]Constraint";
"}";
"";
"// Len returns the number of references stored in this ConstraintMap";
"func (cm ConstraintMap) Len() int {";
"	return len(cm.refmap())";
"}";
"";
"func (cm *ConstraintMap) refmap() map[string]Constraint {";
"	if cm.refs == nil {";
"		cm.refs = make(map[string]Constraint)";
"	}";
"	return cm.refs";
"}";
"";
"// SetReference registeres a new Constraint to a name";
"func (cm *ConstraintMap) SetReference(name string, c Constraint) {";
"	cm.lock.Lock()";
"	defer cm.lock.Unlock()";
"";
"	refs := cm.refmap()";
"	refs[name] = c";
"}";
"";
"// GetReference fetches the Constraint associated with the given name";
"func (cm *ConstraintMap) GetReference(name string) (Constraint, error) {";
"	cm.lock.Lock()";
"	defer cm.lock.Unlock()";
"";
"	refs := cm.refmap()";
"	c, ok := refs[name]";
"	if !ok {";
"		return nil, errors.New(""reference '"" + name + ""' not found"")";
"	}";
"	return c, nil";
"}";
"";
"// ReferenceConstraint is a constraint where its actual definition";
"// is stored elsewhere.";
"type ReferenceConstraint struct {";
"	resolver  RefResolver";
"	lock      sync.Mutex";
"	resolved  Constraint";
"	reference string";
"}";
"";
"// Reference creates a new ReferenceConstraint object";
"func Reference(resolver RefResolver) *ReferenceConstraint {";
"	return &ReferenceConstraint{";
"		resolver: resolver,";
"	}";
"}";
"";
"// Resolved returns the Constraint obtained by resolving";
"// the reference.";
"func (r *ReferenceConstraint) Resolved() (c Constraint, err error) {";
"	if pdebug.Enabled {";
"		g := pdebug.IPrintf(""START ReferenceConstraint.Resolved '%s'"", r.reference)";
"		defer func() {";
"			if err == nil {";
"				g.IRelease(""END ReferenceConstraint.Resolved '%s' (OK)"", r.reference)";
"			} else {";
"				g.IRelease(""END ReferenceConstraint.Resolved '%s' (FAIL): %s"", r.reference, err)";
"			}";
"		}()";
"	}";
"	r.lock.Lock()";
"	defer r.lock.Unlock()";
"";
"	if r.resolved != nil {";
"		if pdebug.Enabled {";
"			pdebug.Printf(""Reference is already resolved"")";
"		}";
"		return r.resolved, nil";
"	}";
"";
"	c, err = r.resolver.GetReference(r.reference)";
"	if err != nil {";
"		return nil, err";
"	}";
"	r.resolved = c";
"	return c, nil";
"}";
"";
"// RefersTo specifies the reference string that this constraint points to";
"func (r *ReferenceConstraint) RefersTo(s string) *ReferenceConstraint {";
"	r.reference = s";
"	return r";
"}";
"";
"// Default is a no op for this type";
"func (r *ReferenceConstraint) Default(_ interface{}) {";
"}";
"";
"// DefaultValue returns the default value from the constraint pointed";
"// by the reference";
"func (r *ReferenceConstraint) DefaultValue() interface{} {";
"	c, err := r.Resolved()";
"	if err != nil {";
"		return nil";
"	}";
"	return c.DefaultValue()";
"}";
"";
"// HasDefault returns true if the constraint pointed by the reference";
"// has defaults";
"func (r *ReferenceConstraint) HasDefault() bool {";
"	c, err := r.Resolved()";
"	if err != nil {";
"		return false";
"	}";
"	return c.HasDefault()";
"}";
"";
"// Validate validates the value against the constraint pointed to";
"// by the reference.";
"func (r *ReferenceConstraint) Validate(v interface{}) (err error) {";
"	if pdebug.Enabled {";
"		g := pdebug.IPrintf(""START ReferenceConstraint.Validate"")";
"		defer func() {";
"			if err == nil {";
"				g.IRelease(""END ReferenceConstraint.Validate (PASS)"")";
"			} else {";
"				g.IRelease(""END ReferenceConstraint.Validate (FAIL): %s"", err)";
"			}";
"		}()";
"	}";
"";
"	c, err := r.Resolved()";
"	if err != nil {";
"		return err";
"	}";
"	return c.Validate(v)";
"}"
].

(** string.go *)
Definition text_string : list string := [
"package jsval";
"";
"import (";
"	""errors""";
"	""net""";
"	""net/mail""";
"	""net/url""";
"	""reflect""";
"	""regexp""";
"	""strconv""";
"	""time""";
"";
"	""github.com/lestrrat-go/pdebug""";
")";
"";
"// Default sets the default value for this constraint.";
"func (sc *StringConstraint) Default(v interface{}) *StringConstraint {";
"	sc.defaultValue.initialized = true";
"	sc.defaultValue.value = v";
"	return sc";
"}";
"";
"// Validate runs the validation against the incoming value.";
"// Note that StringConstraint does not apply default values to the";
"// incoming string value, because the Zero value for string ("""")";
"// can be a perfectly reasonable value.";
"//";
"// The caller is the only person who can determine if a string";
"// value is ""unavailable""";
"func (sc *StringConstraint) Validate(v interface{}) (err error) {";
"	if pdebug.Enabled {";
"		g := pdebug.IPrintf(""START StringConstraint.Validate"")";
"		defer func() {";
"			if err == nil {";
"				g.IRelease(""END StringConstraint.Validate (PASS)"")";
"			} else {";
"				g.IRelease(""END StringConstraint.Validate (FAIL): %s"", err)";
"			}";
"		}()";
"	}";
"	rv := reflect.ValueOf(v)";
"	switch rv.Kind() {";
"	case reflect.Ptr, reflect.Interface:";
"		rv = rv.Elem()";
"	}";
"";
"	switch rv.Kind() {";
"	case reflect.String:";
"	default:";
"		return errors.New(""value is not a string (Kind: "" + rv.Kind().String() + "")"")";
"	}";
"";
"	str := rv.String()";
"	ls := len(str)";
"	if sc.maxLength > -1 {";
"		if pdebug.Enabled {";
"			pdebug.Printf(""Checking MaxLength (%d)"", sc.maxLength)";
"		}";
"		if ls > sc.maxLength {";
"			return errors.New(""string longer than maxLength "" + strconv.Itoa(sc.maxLength))";
"		}";
"	}";
"";
"	if sc.minLength > -1 {";
"		if pdebug.Enabled {";
"			pdebug.Printf(""Checking MinLength (%d)"", sc.minLength)";
"		}";
"		if ls < sc.minLength {";
"			return errors.New(""string shorter than minLength "" + strconv.Itoa(sc.minLength))";
"		}";
"	}";
"";
"	switch sc.format {";
"	case ""datetime"":";
"		if _, err = time.Parse(time.RFC3339, str); err != nil {";
"			return errors.New(""invalid datetime"")";
"		}";
"	case ""email"":";
"		if _, err = mail.ParseAddress(str); err != nil {";
"			return errors.New(""invalid email address: "" + err.Error())";
"		}";
"	case ""hostname"":";
"		if !isDomainName(str) {";
"			return errors.New(""invalid hostname"")";
"		}";
"	case ""ipv4"":";
"		// Should only contain numbers and "".""";
"		for _, r := range str {";
"			switch {";
"			case r == 0x2E || 0x30 <= r && r <= 0x39:";
"			default:";
"				return errors.New(""invalid IPv4 address"")";
"			}";
"		}";
"		if addr := net.ParseIP(str); addr == nil {";
"			return errors.New(""invalid IPv4 address"")";
"		}";
"	case ""ipv6"":";
"		// Should only contain numbers and "":""";
"		for _, r := range str {";
"			switch {";
"			case r == 0x3A || 0x30 <= r && r <= 0x39:";
"			default:";
"				return errors.New(""invalid IPv6 address"")";
"			}";
"		}";
"		if addr := net.ParseIP(str); addr == nil {";
"			return errors.New(""invalid IPv6 address"")";
"		}";
"	case ""uri"":";
"		if _, err = url.Parse(str); err != nil {";
"			return errors.New(""invalid URI"")";
"		}";
"	}";
"";
"	if rx := sc.regexp; rx != nil {";
"		if pdebug.Enabled {";
"			pdebug.Printf(""Checking Regexp (rs: %s, target: %s)"", rx.String(), str)";
"		}";
"		if !rx.MatchString(str) {";
"			return errors.New(""string '"" + str + ""' does not match regular expression '"" + rx.String() + ""'"")";
"		}";
"	}";
"";
"	if enum := sc.enums; enum != nil {";
"		if err := enum.Validate(str); err != nil {";
"			return err";
"		}";
"	}";
"";
"	return nil";
"}";
"";
"// stolen from src/net/dnsclient.go";
"func isDomainName(s string) bool {";
"	// See RFC 1035, RFC 3696.";
"	if len(s) == 0 {";
"		return false";
"	}";
"	if len(s) > 255 {";
"		return false";
"	}";
"";
"	last := byte('.')";
"	ok := false // Ok once we've seen a letter.";
"	partlen := 0";
"	for i := 0; i < len(s); i++ {";
"		c := s[i]";
"		switch {";
"		default:";
"			return false";
"		case 'a' <= c && c <= 'z' || 'A' <= c && c <= 'Z' || c == '_':";
"			ok = true";
"			partlen++";
"		case '0' <= c && c <= '9':";
"			// fine";
"			partlen++";
"		case c == '-':";
"			// Byte before dash cannot be dot.";
"			if last == '.' {";
"				return false";
"			}";
"			partlen++";
"		case c == '.':";
"			// Byte before dot cannot be dot, dash.";
"			if last == '.' || last == '-' {";
"				return false";
"			}";
"			if partlen > 63 || partlen == 0 {";
"				return false";
"			}";
"			partlen = 0";
"		}";
"		last = c";
"	}";
"	if last == '-' || partlen > 63 {";
"		return false";
"	}";
"";
"	return ok";
"}";
"";
"// Enum specifies the enumeration of the possible values";
"func (sc *StringConstraint) Enum(l ...interface{}) *StringConstraint {";
"	if sc.enums == nil {";
"		sc.enums = Enum()";
"	}";
"	sc.enums.Enum(l...)";
"	return sc";
"}";
"";
"// MaxLength specifies the maximum length the passed value can have";
"func (sc *StringConstraint) MaxLength(l int) *StringConstraint {";
"	sc.maxLength = l";
"	return sc";
"}";
"";
"// MinLength specifies the minimum length the passed value must have";
"func (sc *StringConstraint) MinLength(l int) *StringConstraint {";
"	sc.minLength = l";
"	return sc";
"}";
"";
"// RegexpString is the same as Regexp method, except this one";
"// takes a string and compiles it.";
"func (sc *StringConstraint) RegexpString(pat string) *StringConstraint {";
"	return sc.Regexp(regexp.MustCompile(pat))";
"}";
"";
"// Regexp specifies the `*regexp.Regexp` object that passed value";
"// must conform to";
"func (sc *StringConstraint) Regexp(rx *regexp.Regexp) *StringConstraint {";
"	sc.regexp = rx";
"	return sc";
"}";
"";
"// Format specifies the format that passed value must conform to";
"func (sc *StringConstraint) Format(f string) *StringConstraint {";
"	sc.format = f";
"	return sc";
"}";
"";
"// String creates a new StringConstraint. It unfortunately overlaps";
"// the `Stringer` interface :/";
"func String() *StringConstraint {";
"	return &StringConstraint{";
"		maxLength: -1,";
"	}";
"}"
].

(** structinfo.go *)
Definition text_structinfo : list string := [
"package jsval";
"";
"import (";
"	""reflect""";
"	""sync""";
"";
"	""github.com/lestrrat-go/pdebug""";
")";
"";
"type PropInfo struct {";
"	// Name of the Field that maps to this property";
"	FieldName string";
"	// IsMaybe is true if this property implements the Maybe interface";
"	IsMaybe bool";
"}";
"";
"type StructInfo struct {";
"	lock  sync.RWMutex";
"	props map[string]PropInfo";
"}";
"";
"type StructInfoRegistry struct {";
"	lock     sync.RWMutex";
"	registry map[reflect.Type]StructInfo";
"}";
"";
"func (si *StructInfo) FieldName(pname string) (string, bool) {";
"	si.lock.RLock()";
"	defer si.lock.RUnlock()";
"";
"	pinfo, ok := si.props[pname]";
"	if !ok {";
"		return """", false";
"	}";
"	return pinfo.FieldName, true";
"}";
"";
"// Gets the list of property names for this particuar instance of a";
"// struct. Uninitialized types are not considered, so we remove";
"// them depending on the state of this instance of the struct";
"func (si *StructInfo) PropNames(rv reflect.Value) []string {";
"	si.lock.RLock()";
"	defer si.lock.RUnlock()";
"";
"	pnames := make([]string, 0, len(si.props))";
"	for pname, pinfo := range si.props {";
"		if pinfo.IsMaybe {";
"			fv := rv.FieldByName(pinfo.FieldName)";
"			mv := fv.MethodByName(""Valid"")";
"			out := mv.Call(nil)";
"			if !out[0].Bool() {";
"				continue";
"			}";
"		}";
"";
"		pnames = append(pnames, pname)";
"	}";
"	return pnames";
"}";
"";
"func (r *StructInfoRegistry) Lookup(t reflect.Type) (StructInfo, bool) {";
"	switch t.Kind() {";
"	case reflect.Ptr, reflect.Interface:";
"		t = t.Elem()";
"	}";
"";
"	r.lock.RLock()";
"	si, ok := r.registry[t]";
"	r.lock.RUnlock()";
"";
"	return si, ok";
"}";
"";
"func (r *StructInfoRegistry) Register(t reflect.Type) StructInfo {";
"	if pdebug.Enabled {";
"		g := pdebug.Marker(""StructInfoRegistry.Register (%s)"", t.Name())";
"		defer g.End()";
"	}";
"";
"	switch t.Kind() {";
"	case reflect.Ptr, reflect.Interface:";
"		t = t.Elem()";
"	}";
"";
"	r.lock.RLock()";
"	si, ok := r.registry[t]";
"	r.lock.RUnlock()";
"";
"	if ok {";
"		return si";
"	}";
"";
"	props := extract(t)";
"	if pdebug.Enabled {";
"		pdebug.Printf(""Extracted struct with the following properties:"")";
"		for pname, pinfo := range props {";
"			if pinfo.IsMaybe {";
"				pdebug.Printf(""%s -> %s (Maybe)"", pname, pinfo.FieldName)";
"			} else {";
"				pdebug.Printf(""%s -> %s"", pname, pinfo.FieldName)";
"			}";
"		}";
"	}";
"";
"	si = StructInfo{props: props}";
"	r.lock.Lock()";
"	r.registry[t] = si";
"	r.lock.Unlock()";
"	return si";
"}";
"";
"var maybeif = reflect.TypeOf((*Maybe)(nil)).Elem()";
"";
"func extract(t reflect.Type) map[string]PropInfo {";
"	props := make(map[string]PropInfo)";
"	for i := 0; i < t.NumField(); i++ {";
"		fv := t.Field(i)";
"		if fv.Anonymous {";
"			info := extract(fv.Type)";
"			for k, v := range info {";
"				props[k] = v";
"			}";
"			continue";
"		}";
"";
"		if fv.PkgPath != """" { // not exported";
"			continue";
"		}";
"";
"		// Inspect the JSON struct tag so we know what they want to call";
"		// this field from JSON.";
"		tag := fv.Tag.Get(""json"")";
"		if tag == ""-"" { // ""Ignore me"", says the struct";
"			continue";
"		}";
"";
"		// Inspect the field type. If this field implements the Maybe";
"		// interface, we want to remember it";
"		isMaybe := fv.Type.Implements(maybeif) || reflect.PtrTo(fv.Type).Implements(maybeif)";
"		if pdebug.Enabled {";
"			pdebug.Printf(""Checking if field '%s' implements the Maybe interface -> %t"", fv.Name, isMaybe)";
"		}";
"";
"		if tag == """" || tag[0] == ',' {";
"			props[fv.Name] = PropInfo{";
"				FieldName: fv.Name,";
"				IsMaybe:   isMaybe,";
"			}";
"			continue";
"		}";
"";
"		flen := 0";
"		for j := 0; j < len(tag); j++ {";
"			if tag[j] == ',' {";
"				break";
"			}";
"			flen = j";
"		}";
"		props[tag[:flen+1]] = PropInfo{";
"			FieldName: fv.Name,";
"			IsMaybe:   isMaybe,";
"		}";
"	}";
"	return props";
"}"
].
