(** Schemas built and run: an example for the meaning theorem (C43), and what the builder
    does differently from JSON Schema (C44, C45 and others). *)
From Verif Require Import Base GoFloat FloatSpec FloatProofs GoValue Maybe Formats HostSpec Constraint StructInfo Validate Fuel Reach Terminate Builder BuildSpec BuildProofs BuildRefs BuildErr Spec SpecSound SpecMain Scalars DocSpec Height SchemaSpec SchemaForm SchemaRegular SchemaMeans SchemaMain Refuted.
Open Scope Z_scope.
Open Scope string_scope.
Open Scope list_scope.

(** ** Schemas by their keywords *)
Definition blank : scfg := {|
  sc_ref := "";
  sc_not := SNil;
  sc_allOf := [];
  sc_anyOf := [];
  sc_oneOf := [];
  sc_type := [];
  sc_enum := [];
  sc_default := GNil;
  sc_min := None;
  sc_max := None;
  sc_mult := None;
  sc_xmin := None;
  sc_xmax := None;
  sc_minLen := None;
  sc_maxLen := None;
  sc_pattern := None;
  sc_format := "";
  sc_items := None;
  sc_addItems := Some SNil;
  sc_minItems := None;
  sc_maxItems := None;
  sc_unique := None;
  sc_required := [];
  sc_minProps := None;
  sc_maxProps := None;
  sc_props := [];
  sc_pats := [];
  sc_addProps := Some SNil;
  sc_depNames := [];
  sc_depSchemas := [] |}.
Definition with_ref x (c : scfg) : scfg := {| sc_ref := x; sc_not := sc_not c; sc_allOf := sc_allOf c; sc_anyOf := sc_anyOf c; sc_oneOf := sc_oneOf c; sc_type := sc_type c; sc_enum := sc_enum c; sc_default := sc_default c; sc_min := sc_min c; sc_max := sc_max c; sc_mult := sc_mult c; sc_xmin := sc_xmin c; sc_xmax := sc_xmax c; sc_minLen := sc_minLen c; sc_maxLen := sc_maxLen c; sc_pattern := sc_pattern c; sc_format := sc_format c; sc_items := sc_items c; sc_addItems := sc_addItems c; sc_minItems := sc_minItems c; sc_maxItems := sc_maxItems c; sc_unique := sc_unique c; sc_required := sc_required c; sc_minProps := sc_minProps c; sc_maxProps := sc_maxProps c; sc_props := sc_props c; sc_pats := sc_pats c; sc_addProps := sc_addProps c; sc_depNames := sc_depNames c; sc_depSchemas := sc_depSchemas c |}.
Definition with_not x (c : scfg) : scfg := {| sc_ref := sc_ref c; sc_not := x; sc_allOf := sc_allOf c; sc_anyOf := sc_anyOf c; sc_oneOf := sc_oneOf c; sc_type := sc_type c; sc_enum := sc_enum c; sc_default := sc_default c; sc_min := sc_min c; sc_max := sc_max c; sc_mult := sc_mult c; sc_xmin := sc_xmin c; sc_xmax := sc_xmax c; sc_minLen := sc_minLen c; sc_maxLen := sc_maxLen c; sc_pattern := sc_pattern c; sc_format := sc_format c; sc_items := sc_items c; sc_addItems := sc_addItems c; sc_minItems := sc_minItems c; sc_maxItems := sc_maxItems c; sc_unique := sc_unique c; sc_required := sc_required c; sc_minProps := sc_minProps c; sc_maxProps := sc_maxProps c; sc_props := sc_props c; sc_pats := sc_pats c; sc_addProps := sc_addProps c; sc_depNames := sc_depNames c; sc_depSchemas := sc_depSchemas c |}.
Definition with_allOf x (c : scfg) : scfg := {| sc_ref := sc_ref c; sc_not := sc_not c; sc_allOf := x; sc_anyOf := sc_anyOf c; sc_oneOf := sc_oneOf c; sc_type := sc_type c; sc_enum := sc_enum c; sc_default := sc_default c; sc_min := sc_min c; sc_max := sc_max c; sc_mult := sc_mult c; sc_xmin := sc_xmin c; sc_xmax := sc_xmax c; sc_minLen := sc_minLen c; sc_maxLen := sc_maxLen c; sc_pattern := sc_pattern c; sc_format := sc_format c; sc_items := sc_items c; sc_addItems := sc_addItems c; sc_minItems := sc_minItems c; sc_maxItems := sc_maxItems c; sc_unique := sc_unique c; sc_required := sc_required c; sc_minProps := sc_minProps c; sc_maxProps := sc_maxProps c; sc_props := sc_props c; sc_pats := sc_pats c; sc_addProps := sc_addProps c; sc_depNames := sc_depNames c; sc_depSchemas := sc_depSchemas c |}.
Definition with_anyOf x (c : scfg) : scfg := {| sc_ref := sc_ref c; sc_not := sc_not c; sc_allOf := sc_allOf c; sc_anyOf := x; sc_oneOf := sc_oneOf c; sc_type := sc_type c; sc_enum := sc_enum c; sc_default := sc_default c; sc_min := sc_min c; sc_max := sc_max c; sc_mult := sc_mult c; sc_xmin := sc_xmin c; sc_xmax := sc_xmax c; sc_minLen := sc_minLen c; sc_maxLen := sc_maxLen c; sc_pattern := sc_pattern c; sc_format := sc_format c; sc_items := sc_items c; sc_addItems := sc_addItems c; sc_minItems := sc_minItems c; sc_maxItems := sc_maxItems c; sc_unique := sc_unique c; sc_required := sc_required c; sc_minProps := sc_minProps c; sc_maxProps := sc_maxProps c; sc_props := sc_props c; sc_pats := sc_pats c; sc_addProps := sc_addProps c; sc_depNames := sc_depNames c; sc_depSchemas := sc_depSchemas c |}.
Definition with_oneOf x (c : scfg) : scfg := {| sc_ref := sc_ref c; sc_not := sc_not c; sc_allOf := sc_allOf c; sc_anyOf := sc_anyOf c; sc_oneOf := x; sc_type := sc_type c; sc_enum := sc_enum c; sc_default := sc_default c; sc_min := sc_min c; sc_max := sc_max c; sc_mult := sc_mult c; sc_xmin := sc_xmin c; sc_xmax := sc_xmax c; sc_minLen := sc_minLen c; sc_maxLen := sc_maxLen c; sc_pattern := sc_pattern c; sc_format := sc_format c; sc_items := sc_items c; sc_addItems := sc_addItems c; sc_minItems := sc_minItems c; sc_maxItems := sc_maxItems c; sc_unique := sc_unique c; sc_required := sc_required c; sc_minProps := sc_minProps c; sc_maxProps := sc_maxProps c; sc_props := sc_props c; sc_pats := sc_pats c; sc_addProps := sc_addProps c; sc_depNames := sc_depNames c; sc_depSchemas := sc_depSchemas c |}.
Definition with_type x (c : scfg) : scfg := {| sc_ref := sc_ref c; sc_not := sc_not c; sc_allOf := sc_allOf c; sc_anyOf := sc_anyOf c; sc_oneOf := sc_oneOf c; sc_type := x; sc_enum := sc_enum c; sc_default := sc_default c; sc_min := sc_min c; sc_max := sc_max c; sc_mult := sc_mult c; sc_xmin := sc_xmin c; sc_xmax := sc_xmax c; sc_minLen := sc_minLen c; sc_maxLen := sc_maxLen c; sc_pattern := sc_pattern c; sc_format := sc_format c; sc_items := sc_items c; sc_addItems := sc_addItems c; sc_minItems := sc_minItems c; sc_maxItems := sc_maxItems c; sc_unique := sc_unique c; sc_required := sc_required c; sc_minProps := sc_minProps c; sc_maxProps := sc_maxProps c; sc_props := sc_props c; sc_pats := sc_pats c; sc_addProps := sc_addProps c; sc_depNames := sc_depNames c; sc_depSchemas := sc_depSchemas c |}.
Definition with_enum x (c : scfg) : scfg := {| sc_ref := sc_ref c; sc_not := sc_not c; sc_allOf := sc_allOf c; sc_anyOf := sc_anyOf c; sc_oneOf := sc_oneOf c; sc_type := sc_type c; sc_enum := x; sc_default := sc_default c; sc_min := sc_min c; sc_max := sc_max c; sc_mult := sc_mult c; sc_xmin := sc_xmin c; sc_xmax := sc_xmax c; sc_minLen := sc_minLen c; sc_maxLen := sc_maxLen c; sc_pattern := sc_pattern c; sc_format := sc_format c; sc_items := sc_items c; sc_addItems := sc_addItems c; sc_minItems := sc_minItems c; sc_maxItems := sc_maxItems c; sc_unique := sc_unique c; sc_required := sc_required c; sc_minProps := sc_minProps c; sc_maxProps := sc_maxProps c; sc_props := sc_props c; sc_pats := sc_pats c; sc_addProps := sc_addProps c; sc_depNames := sc_depNames c; sc_depSchemas := sc_depSchemas c |}.
Definition with_default x (c : scfg) : scfg := {| sc_ref := sc_ref c; sc_not := sc_not c; sc_allOf := sc_allOf c; sc_anyOf := sc_anyOf c; sc_oneOf := sc_oneOf c; sc_type := sc_type c; sc_enum := sc_enum c; sc_default := x; sc_min := sc_min c; sc_max := sc_max c; sc_mult := sc_mult c; sc_xmin := sc_xmin c; sc_xmax := sc_xmax c; sc_minLen := sc_minLen c; sc_maxLen := sc_maxLen c; sc_pattern := sc_pattern c; sc_format := sc_format c; sc_items := sc_items c; sc_addItems := sc_addItems c; sc_minItems := sc_minItems c; sc_maxItems := sc_maxItems c; sc_unique := sc_unique c; sc_required := sc_required c; sc_minProps := sc_minProps c; sc_maxProps := sc_maxProps c; sc_props := sc_props c; sc_pats := sc_pats c; sc_addProps := sc_addProps c; sc_depNames := sc_depNames c; sc_depSchemas := sc_depSchemas c |}.
Definition with_min x (c : scfg) : scfg := {| sc_ref := sc_ref c; sc_not := sc_not c; sc_allOf := sc_allOf c; sc_anyOf := sc_anyOf c; sc_oneOf := sc_oneOf c; sc_type := sc_type c; sc_enum := sc_enum c; sc_default := sc_default c; sc_min := x; sc_max := sc_max c; sc_mult := sc_mult c; sc_xmin := sc_xmin c; sc_xmax := sc_xmax c; sc_minLen := sc_minLen c; sc_maxLen := sc_maxLen c; sc_pattern := sc_pattern c; sc_format := sc_format c; sc_items := sc_items c; sc_addItems := sc_addItems c; sc_minItems := sc_minItems c; sc_maxItems := sc_maxItems c; sc_unique := sc_unique c; sc_required := sc_required c; sc_minProps := sc_minProps c; sc_maxProps := sc_maxProps c; sc_props := sc_props c; sc_pats := sc_pats c; sc_addProps := sc_addProps c; sc_depNames := sc_depNames c; sc_depSchemas := sc_depSchemas c |}.
Definition with_max x (c : scfg) : scfg := {| sc_ref := sc_ref c; sc_not := sc_not c; sc_allOf := sc_allOf c; sc_anyOf := sc_anyOf c; sc_oneOf := sc_oneOf c; sc_type := sc_type c; sc_enum := sc_enum c; sc_default := sc_default c; sc_min := sc_min c; sc_max := x; sc_mult := sc_mult c; sc_xmin := sc_xmin c; sc_xmax := sc_xmax c; sc_minLen := sc_minLen c; sc_maxLen := sc_maxLen c; sc_pattern := sc_pattern c; sc_format := sc_format c; sc_items := sc_items c; sc_addItems := sc_addItems c; sc_minItems := sc_minItems c; sc_maxItems := sc_maxItems c; sc_unique := sc_unique c; sc_required := sc_required c; sc_minProps := sc_minProps c; sc_maxProps := sc_maxProps c; sc_props := sc_props c; sc_pats := sc_pats c; sc_addProps := sc_addProps c; sc_depNames := sc_depNames c; sc_depSchemas := sc_depSchemas c |}.
Definition with_mult x (c : scfg) : scfg := {| sc_ref := sc_ref c; sc_not := sc_not c; sc_allOf := sc_allOf c; sc_anyOf := sc_anyOf c; sc_oneOf := sc_oneOf c; sc_type := sc_type c; sc_enum := sc_enum c; sc_default := sc_default c; sc_min := sc_min c; sc_max := sc_max c; sc_mult := x; sc_xmin := sc_xmin c; sc_xmax := sc_xmax c; sc_minLen := sc_minLen c; sc_maxLen := sc_maxLen c; sc_pattern := sc_pattern c; sc_format := sc_format c; sc_items := sc_items c; sc_addItems := sc_addItems c; sc_minItems := sc_minItems c; sc_maxItems := sc_maxItems c; sc_unique := sc_unique c; sc_required := sc_required c; sc_minProps := sc_minProps c; sc_maxProps := sc_maxProps c; sc_props := sc_props c; sc_pats := sc_pats c; sc_addProps := sc_addProps c; sc_depNames := sc_depNames c; sc_depSchemas := sc_depSchemas c |}.
Definition with_xmin x (c : scfg) : scfg := {| sc_ref := sc_ref c; sc_not := sc_not c; sc_allOf := sc_allOf c; sc_anyOf := sc_anyOf c; sc_oneOf := sc_oneOf c; sc_type := sc_type c; sc_enum := sc_enum c; sc_default := sc_default c; sc_min := sc_min c; sc_max := sc_max c; sc_mult := sc_mult c; sc_xmin := x; sc_xmax := sc_xmax c; sc_minLen := sc_minLen c; sc_maxLen := sc_maxLen c; sc_pattern := sc_pattern c; sc_format := sc_format c; sc_items := sc_items c; sc_addItems := sc_addItems c; sc_minItems := sc_minItems c; sc_maxItems := sc_maxItems c; sc_unique := sc_unique c; sc_required := sc_required c; sc_minProps := sc_minProps c; sc_maxProps := sc_maxProps c; sc_props := sc_props c; sc_pats := sc_pats c; sc_addProps := sc_addProps c; sc_depNames := sc_depNames c; sc_depSchemas := sc_depSchemas c |}.
Definition with_xmax x (c : scfg) : scfg := {| sc_ref := sc_ref c; sc_not := sc_not c; sc_allOf := sc_allOf c; sc_anyOf := sc_anyOf c; sc_oneOf := sc_oneOf c; sc_type := sc_type c; sc_enum := sc_enum c; sc_default := sc_default c; sc_min := sc_min c; sc_max := sc_max c; sc_mult := sc_mult c; sc_xmin := sc_xmin c; sc_xmax := x; sc_minLen := sc_minLen c; sc_maxLen := sc_maxLen c; sc_pattern := sc_pattern c; sc_format := sc_format c; sc_items := sc_items c; sc_addItems := sc_addItems c; sc_minItems := sc_minItems c; sc_maxItems := sc_maxItems c; sc_unique := sc_unique c; sc_required := sc_required c; sc_minProps := sc_minProps c; sc_maxProps := sc_maxProps c; sc_props := sc_props c; sc_pats := sc_pats c; sc_addProps := sc_addProps c; sc_depNames := sc_depNames c; sc_depSchemas := sc_depSchemas c |}.
Definition with_minLen x (c : scfg) : scfg := {| sc_ref := sc_ref c; sc_not := sc_not c; sc_allOf := sc_allOf c; sc_anyOf := sc_anyOf c; sc_oneOf := sc_oneOf c; sc_type := sc_type c; sc_enum := sc_enum c; sc_default := sc_default c; sc_min := sc_min c; sc_max := sc_max c; sc_mult := sc_mult c; sc_xmin := sc_xmin c; sc_xmax := sc_xmax c; sc_minLen := x; sc_maxLen := sc_maxLen c; sc_pattern := sc_pattern c; sc_format := sc_format c; sc_items := sc_items c; sc_addItems := sc_addItems c; sc_minItems := sc_minItems c; sc_maxItems := sc_maxItems c; sc_unique := sc_unique c; sc_required := sc_required c; sc_minProps := sc_minProps c; sc_maxProps := sc_maxProps c; sc_props := sc_props c; sc_pats := sc_pats c; sc_addProps := sc_addProps c; sc_depNames := sc_depNames c; sc_depSchemas := sc_depSchemas c |}.
Definition with_maxLen x (c : scfg) : scfg := {| sc_ref := sc_ref c; sc_not := sc_not c; sc_allOf := sc_allOf c; sc_anyOf := sc_anyOf c; sc_oneOf := sc_oneOf c; sc_type := sc_type c; sc_enum := sc_enum c; sc_default := sc_default c; sc_min := sc_min c; sc_max := sc_max c; sc_mult := sc_mult c; sc_xmin := sc_xmin c; sc_xmax := sc_xmax c; sc_minLen := sc_minLen c; sc_maxLen := x; sc_pattern := sc_pattern c; sc_format := sc_format c; sc_items := sc_items c; sc_addItems := sc_addItems c; sc_minItems := sc_minItems c; sc_maxItems := sc_maxItems c; sc_unique := sc_unique c; sc_required := sc_required c; sc_minProps := sc_minProps c; sc_maxProps := sc_maxProps c; sc_props := sc_props c; sc_pats := sc_pats c; sc_addProps := sc_addProps c; sc_depNames := sc_depNames c; sc_depSchemas := sc_depSchemas c |}.
Definition with_pattern x (c : scfg) : scfg := {| sc_ref := sc_ref c; sc_not := sc_not c; sc_allOf := sc_allOf c; sc_anyOf := sc_anyOf c; sc_oneOf := sc_oneOf c; sc_type := sc_type c; sc_enum := sc_enum c; sc_default := sc_default c; sc_min := sc_min c; sc_max := sc_max c; sc_mult := sc_mult c; sc_xmin := sc_xmin c; sc_xmax := sc_xmax c; sc_minLen := sc_minLen c; sc_maxLen := sc_maxLen c; sc_pattern := x; sc_format := sc_format c; sc_items := sc_items c; sc_addItems := sc_addItems c; sc_minItems := sc_minItems c; sc_maxItems := sc_maxItems c; sc_unique := sc_unique c; sc_required := sc_required c; sc_minProps := sc_minProps c; sc_maxProps := sc_maxProps c; sc_props := sc_props c; sc_pats := sc_pats c; sc_addProps := sc_addProps c; sc_depNames := sc_depNames c; sc_depSchemas := sc_depSchemas c |}.
Definition with_format x (c : scfg) : scfg := {| sc_ref := sc_ref c; sc_not := sc_not c; sc_allOf := sc_allOf c; sc_anyOf := sc_anyOf c; sc_oneOf := sc_oneOf c; sc_type := sc_type c; sc_enum := sc_enum c; sc_default := sc_default c; sc_min := sc_min c; sc_max := sc_max c; sc_mult := sc_mult c; sc_xmin := sc_xmin c; sc_xmax := sc_xmax c; sc_minLen := sc_minLen c; sc_maxLen := sc_maxLen c; sc_pattern := sc_pattern c; sc_format := x; sc_items := sc_items c; sc_addItems := sc_addItems c; sc_minItems := sc_minItems c; sc_maxItems := sc_maxItems c; sc_unique := sc_unique c; sc_required := sc_required c; sc_minProps := sc_minProps c; sc_maxProps := sc_maxProps c; sc_props := sc_props c; sc_pats := sc_pats c; sc_addProps := sc_addProps c; sc_depNames := sc_depNames c; sc_depSchemas := sc_depSchemas c |}.
Definition with_items x (c : scfg) : scfg := {| sc_ref := sc_ref c; sc_not := sc_not c; sc_allOf := sc_allOf c; sc_anyOf := sc_anyOf c; sc_oneOf := sc_oneOf c; sc_type := sc_type c; sc_enum := sc_enum c; sc_default := sc_default c; sc_min := sc_min c; sc_max := sc_max c; sc_mult := sc_mult c; sc_xmin := sc_xmin c; sc_xmax := sc_xmax c; sc_minLen := sc_minLen c; sc_maxLen := sc_maxLen c; sc_pattern := sc_pattern c; sc_format := sc_format c; sc_items := x; sc_addItems := sc_addItems c; sc_minItems := sc_minItems c; sc_maxItems := sc_maxItems c; sc_unique := sc_unique c; sc_required := sc_required c; sc_minProps := sc_minProps c; sc_maxProps := sc_maxProps c; sc_props := sc_props c; sc_pats := sc_pats c; sc_addProps := sc_addProps c; sc_depNames := sc_depNames c; sc_depSchemas := sc_depSchemas c |}.
Definition with_addItems x (c : scfg) : scfg := {| sc_ref := sc_ref c; sc_not := sc_not c; sc_allOf := sc_allOf c; sc_anyOf := sc_anyOf c; sc_oneOf := sc_oneOf c; sc_type := sc_type c; sc_enum := sc_enum c; sc_default := sc_default c; sc_min := sc_min c; sc_max := sc_max c; sc_mult := sc_mult c; sc_xmin := sc_xmin c; sc_xmax := sc_xmax c; sc_minLen := sc_minLen c; sc_maxLen := sc_maxLen c; sc_pattern := sc_pattern c; sc_format := sc_format c; sc_items := sc_items c; sc_addItems := x; sc_minItems := sc_minItems c; sc_maxItems := sc_maxItems c; sc_unique := sc_unique c; sc_required := sc_required c; sc_minProps := sc_minProps c; sc_maxProps := sc_maxProps c; sc_props := sc_props c; sc_pats := sc_pats c; sc_addProps := sc_addProps c; sc_depNames := sc_depNames c; sc_depSchemas := sc_depSchemas c |}.
Definition with_minItems x (c : scfg) : scfg := {| sc_ref := sc_ref c; sc_not := sc_not c; sc_allOf := sc_allOf c; sc_anyOf := sc_anyOf c; sc_oneOf := sc_oneOf c; sc_type := sc_type c; sc_enum := sc_enum c; sc_default := sc_default c; sc_min := sc_min c; sc_max := sc_max c; sc_mult := sc_mult c; sc_xmin := sc_xmin c; sc_xmax := sc_xmax c; sc_minLen := sc_minLen c; sc_maxLen := sc_maxLen c; sc_pattern := sc_pattern c; sc_format := sc_format c; sc_items := sc_items c; sc_addItems := sc_addItems c; sc_minItems := x; sc_maxItems := sc_maxItems c; sc_unique := sc_unique c; sc_required := sc_required c; sc_minProps := sc_minProps c; sc_maxProps := sc_maxProps c; sc_props := sc_props c; sc_pats := sc_pats c; sc_addProps := sc_addProps c; sc_depNames := sc_depNames c; sc_depSchemas := sc_depSchemas c |}.
Definition with_maxItems x (c : scfg) : scfg := {| sc_ref := sc_ref c; sc_not := sc_not c; sc_allOf := sc_allOf c; sc_anyOf := sc_anyOf c; sc_oneOf := sc_oneOf c; sc_type := sc_type c; sc_enum := sc_enum c; sc_default := sc_default c; sc_min := sc_min c; sc_max := sc_max c; sc_mult := sc_mult c; sc_xmin := sc_xmin c; sc_xmax := sc_xmax c; sc_minLen := sc_minLen c; sc_maxLen := sc_maxLen c; sc_pattern := sc_pattern c; sc_format := sc_format c; sc_items := sc_items c; sc_addItems := sc_addItems c; sc_minItems := sc_minItems c; sc_maxItems := x; sc_unique := sc_unique c; sc_required := sc_required c; sc_minProps := sc_minProps c; sc_maxProps := sc_maxProps c; sc_props := sc_props c; sc_pats := sc_pats c; sc_addProps := sc_addProps c; sc_depNames := sc_depNames c; sc_depSchemas := sc_depSchemas c |}.
Definition with_unique x (c : scfg) : scfg := {| sc_ref := sc_ref c; sc_not := sc_not c; sc_allOf := sc_allOf c; sc_anyOf := sc_anyOf c; sc_oneOf := sc_oneOf c; sc_type := sc_type c; sc_enum := sc_enum c; sc_default := sc_default c; sc_min := sc_min c; sc_max := sc_max c; sc_mult := sc_mult c; sc_xmin := sc_xmin c; sc_xmax := sc_xmax c; sc_minLen := sc_minLen c; sc_maxLen := sc_maxLen c; sc_pattern := sc_pattern c; sc_format := sc_format c; sc_items := sc_items c; sc_addItems := sc_addItems c; sc_minItems := sc_minItems c; sc_maxItems := sc_maxItems c; sc_unique := x; sc_required := sc_required c; sc_minProps := sc_minProps c; sc_maxProps := sc_maxProps c; sc_props := sc_props c; sc_pats := sc_pats c; sc_addProps := sc_addProps c; sc_depNames := sc_depNames c; sc_depSchemas := sc_depSchemas c |}.
Definition with_required x (c : scfg) : scfg := {| sc_ref := sc_ref c; sc_not := sc_not c; sc_allOf := sc_allOf c; sc_anyOf := sc_anyOf c; sc_oneOf := sc_oneOf c; sc_type := sc_type c; sc_enum := sc_enum c; sc_default := sc_default c; sc_min := sc_min c; sc_max := sc_max c; sc_mult := sc_mult c; sc_xmin := sc_xmin c; sc_xmax := sc_xmax c; sc_minLen := sc_minLen c; sc_maxLen := sc_maxLen c; sc_pattern := sc_pattern c; sc_format := sc_format c; sc_items := sc_items c; sc_addItems := sc_addItems c; sc_minItems := sc_minItems c; sc_maxItems := sc_maxItems c; sc_unique := sc_unique c; sc_required := x; sc_minProps := sc_minProps c; sc_maxProps := sc_maxProps c; sc_props := sc_props c; sc_pats := sc_pats c; sc_addProps := sc_addProps c; sc_depNames := sc_depNames c; sc_depSchemas := sc_depSchemas c |}.
Definition with_minProps x (c : scfg) : scfg := {| sc_ref := sc_ref c; sc_not := sc_not c; sc_allOf := sc_allOf c; sc_anyOf := sc_anyOf c; sc_oneOf := sc_oneOf c; sc_type := sc_type c; sc_enum := sc_enum c; sc_default := sc_default c; sc_min := sc_min c; sc_max := sc_max c; sc_mult := sc_mult c; sc_xmin := sc_xmin c; sc_xmax := sc_xmax c; sc_minLen := sc_minLen c; sc_maxLen := sc_maxLen c; sc_pattern := sc_pattern c; sc_format := sc_format c; sc_items := sc_items c; sc_addItems := sc_addItems c; sc_minItems := sc_minItems c; sc_maxItems := sc_maxItems c; sc_unique := sc_unique c; sc_required := sc_required c; sc_minProps := x; sc_maxProps := sc_maxProps c; sc_props := sc_props c; sc_pats := sc_pats c; sc_addProps := sc_addProps c; sc_depNames := sc_depNames c; sc_depSchemas := sc_depSchemas c |}.
Definition with_maxProps x (c : scfg) : scfg := {| sc_ref := sc_ref c; sc_not := sc_not c; sc_allOf := sc_allOf c; sc_anyOf := sc_anyOf c; sc_oneOf := sc_oneOf c; sc_type := sc_type c; sc_enum := sc_enum c; sc_default := sc_default c; sc_min := sc_min c; sc_max := sc_max c; sc_mult := sc_mult c; sc_xmin := sc_xmin c; sc_xmax := sc_xmax c; sc_minLen := sc_minLen c; sc_maxLen := sc_maxLen c; sc_pattern := sc_pattern c; sc_format := sc_format c; sc_items := sc_items c; sc_addItems := sc_addItems c; sc_minItems := sc_minItems c; sc_maxItems := sc_maxItems c; sc_unique := sc_unique c; sc_required := sc_required c; sc_minProps := sc_minProps c; sc_maxProps := x; sc_props := sc_props c; sc_pats := sc_pats c; sc_addProps := sc_addProps c; sc_depNames := sc_depNames c; sc_depSchemas := sc_depSchemas c |}.
Definition with_props x (c : scfg) : scfg := {| sc_ref := sc_ref c; sc_not := sc_not c; sc_allOf := sc_allOf c; sc_anyOf := sc_anyOf c; sc_oneOf := sc_oneOf c; sc_type := sc_type c; sc_enum := sc_enum c; sc_default := sc_default c; sc_min := sc_min c; sc_max := sc_max c; sc_mult := sc_mult c; sc_xmin := sc_xmin c; sc_xmax := sc_xmax c; sc_minLen := sc_minLen c; sc_maxLen := sc_maxLen c; sc_pattern := sc_pattern c; sc_format := sc_format c; sc_items := sc_items c; sc_addItems := sc_addItems c; sc_minItems := sc_minItems c; sc_maxItems := sc_maxItems c; sc_unique := sc_unique c; sc_required := sc_required c; sc_minProps := sc_minProps c; sc_maxProps := sc_maxProps c; sc_props := x; sc_pats := sc_pats c; sc_addProps := sc_addProps c; sc_depNames := sc_depNames c; sc_depSchemas := sc_depSchemas c |}.
Definition with_pats x (c : scfg) : scfg := {| sc_ref := sc_ref c; sc_not := sc_not c; sc_allOf := sc_allOf c; sc_anyOf := sc_anyOf c; sc_oneOf := sc_oneOf c; sc_type := sc_type c; sc_enum := sc_enum c; sc_default := sc_default c; sc_min := sc_min c; sc_max := sc_max c; sc_mult := sc_mult c; sc_xmin := sc_xmin c; sc_xmax := sc_xmax c; sc_minLen := sc_minLen c; sc_maxLen := sc_maxLen c; sc_pattern := sc_pattern c; sc_format := sc_format c; sc_items := sc_items c; sc_addItems := sc_addItems c; sc_minItems := sc_minItems c; sc_maxItems := sc_maxItems c; sc_unique := sc_unique c; sc_required := sc_required c; sc_minProps := sc_minProps c; sc_maxProps := sc_maxProps c; sc_props := sc_props c; sc_pats := x; sc_addProps := sc_addProps c; sc_depNames := sc_depNames c; sc_depSchemas := sc_depSchemas c |}.
Definition with_addProps x (c : scfg) : scfg := {| sc_ref := sc_ref c; sc_not := sc_not c; sc_allOf := sc_allOf c; sc_anyOf := sc_anyOf c; sc_oneOf := sc_oneOf c; sc_type := sc_type c; sc_enum := sc_enum c; sc_default := sc_default c; sc_min := sc_min c; sc_max := sc_max c; sc_mult := sc_mult c; sc_xmin := sc_xmin c; sc_xmax := sc_xmax c; sc_minLen := sc_minLen c; sc_maxLen := sc_maxLen c; sc_pattern := sc_pattern c; sc_format := sc_format c; sc_items := sc_items c; sc_addItems := sc_addItems c; sc_minItems := sc_minItems c; sc_maxItems := sc_maxItems c; sc_unique := sc_unique c; sc_required := sc_required c; sc_minProps := sc_minProps c; sc_maxProps := sc_maxProps c; sc_props := sc_props c; sc_pats := sc_pats c; sc_addProps := x; sc_depNames := sc_depNames c; sc_depSchemas := sc_depSchemas c |}.
Definition with_depNames x (c : scfg) : scfg := {| sc_ref := sc_ref c; sc_not := sc_not c; sc_allOf := sc_allOf c; sc_anyOf := sc_anyOf c; sc_oneOf := sc_oneOf c; sc_type := sc_type c; sc_enum := sc_enum c; sc_default := sc_default c; sc_min := sc_min c; sc_max := sc_max c; sc_mult := sc_mult c; sc_xmin := sc_xmin c; sc_xmax := sc_xmax c; sc_minLen := sc_minLen c; sc_maxLen := sc_maxLen c; sc_pattern := sc_pattern c; sc_format := sc_format c; sc_items := sc_items c; sc_addItems := sc_addItems c; sc_minItems := sc_minItems c; sc_maxItems := sc_maxItems c; sc_unique := sc_unique c; sc_required := sc_required c; sc_minProps := sc_minProps c; sc_maxProps := sc_maxProps c; sc_props := sc_props c; sc_pats := sc_pats c; sc_addProps := sc_addProps c; sc_depNames := x; sc_depSchemas := sc_depSchemas c |}.
Definition with_depSchemas x (c : scfg) : scfg := {| sc_ref := sc_ref c; sc_not := sc_not c; sc_allOf := sc_allOf c; sc_anyOf := sc_anyOf c; sc_oneOf := sc_oneOf c; sc_type := sc_type c; sc_enum := sc_enum c; sc_default := sc_default c; sc_min := sc_min c; sc_max := sc_max c; sc_mult := sc_mult c; sc_xmin := sc_xmin c; sc_xmax := sc_xmax c; sc_minLen := sc_minLen c; sc_maxLen := sc_maxLen c; sc_pattern := sc_pattern c; sc_format := sc_format c; sc_items := sc_items c; sc_addItems := sc_addItems c; sc_minItems := sc_minItems c; sc_maxItems := sc_maxItems c; sc_unique := sc_unique c; sc_required := sc_required c; sc_minProps := sc_minProps c; sc_maxProps := sc_maxProps c; sc_props := sc_props c; sc_pats := sc_pats c; sc_addProps := sc_addProps c; sc_depNames := sc_depNames c; sc_depSchemas := x |}.

Definition no_names : resolver := fun _ => RError "not found".

(** ** An example: a tree with two definitions, the root among them *)
Definition pos_s : scfg := with_xmin (Some true) (with_min (Some (f64_of_Z 0)) (with_type [TInteger] blank)).
Definition ref_pos : scfg := with_ref "#/definitions/pos" blank.
Definition ref_root : scfg := with_ref "#" blank.
Definition kids_s : scfg := with_maxItems (Some 3) (with_items (Some (false, [Sch ref_root])) (with_type [TArray] blank)).
Definition text_x : scfg := with_pattern (Some "x") (with_type [TString] blank).
Definition null_s : scfg := with_type [TNull] blank.
Definition note_s : scfg := with_oneOf [Sch text_x; Sch null_s] blank.
Definition tag_s : scfg := with_minLen (Some 1) (with_enum [gstr "a"; gstr "b"] (with_type [TString] blank)).
Definition flag_s : scfg := with_type [TNumber; TBoolean] blank.
Definition tree : scfg :=
  with_depNames [("note", ["tag"])] (with_addProps None (with_required ["weight"] (with_pats [((0%nat, "y-"), Sch flag_s)]
   (with_props [("kids", Sch kids_s); ("note", Sch note_s); ("tag", Sch tag_s); ("weight", Sch ref_pos)] (with_type [TObject] blank))))).
Definition names_t : resolver := fun n => if String.eqb n "#/definitions/pos" then RSchema (Sch pos_s) else RError "not found".

Definition parts_t : list scfg := [pos_s; ref_pos; ref_root; kids_s; text_x; null_s; note_s; tag_s; flag_s; tree].

Definition tree_c : constr := bc (Sch tree).
Definition tree_refs : refs := [("#", tree_c); ("#/definitions/pos", bc (Sch pos_s))].
Example tree_builds : build_with 10 names_t (Sch tree) [] = Built tree_c tree_refs ["#/definitions/pos"].
Proof. vm_compute. reflexivity. Qed.

Lemma tree_uses : Used (Sch tree) "#".
Proof.
  apply (us_kid _ (Sch kids_s)); [reflexivity|apply kid_object; vm_compute; auto|].
  apply (us_kid _ (Sch ref_root)); [reflexivity|apply kid_array; vm_compute; auto|].
  apply us_here. discriminate.
Qed.
Ltac in_list H := repeat (destruct H as [H|H]; [|]); try contradiction.
Lemma kid_parts c x : In c parts_t -> Kid c x -> exists c', x = Sch c' /\ In c' parts_t.
Proof.
  intros I K. assert (A : forall l, Forall (fun x => exists c', x = Sch c' /\ In c' parts_t) l -> In x l -> exists c', x = Sch c' /\ In c' parts_t).
  { intros l F. rewrite Forall_forall in F. auto. }
  cbn in I. repeat destruct I as [<-|I]; try contradiction; destruct K as [x I|x _ I|x _ I]; revert I; apply A;
    cbn; repeat (constructor; [eexists; split; [reflexivity|cbn; tauto]|]); constructor.
Qed.
Lemma tree_sub x : Sub names_t (Sch tree) (Sch tree) x -> exists c, x = Sch c /\ In c parts_t.
Proof.
  induction 1 as [|c x _ (c' & Q & I) R K|c x _ (c' & Q & I) R Ds].
  - exists tree. split; [reflexivity|cbn; tauto].
  - injection Q as <-. eapply kid_parts; eauto.
  - injection Q as <-. cbn in I. repeat destruct I as [<-|I]; try contradiction; try (exfalso; now apply R).
    + inversion Ds as [|n s' N L]; subst. vm_compute in L. injection L as <-. exists pos_s. split; [reflexivity|cbn; tauto].
    + inversion Ds as [|n s' N L]; subst; [exists tree; split; [reflexivity|cbn; tauto]|]. exfalso. apply N. split; [reflexivity|apply tree_uses].
Qed.
Lemma tree_clean : clean names_t (Sch tree) (Sch tree).
Proof. intros c H _. apply tree_sub in H as (c' & Q & I). injection Q as <-. cbn in I. repeat destruct I as [<-|I]; try contradiction; reflexivity. Qed.
Lemma tree_kid_clean c x : In c parts_t -> Sub names_t (Sch tree) (Sch tree) (Sch c) -> sc_ref c = "" -> Kid c x -> clean names_t (Sch tree) x.
Proof.
  intros I S R K c' H. apply tree_clean. eapply Sub_trans; [|exact H]. eapply sub_kid; eauto.
Qed.
Lemma tree_plain E : e_rx E = contains -> all_plain E names_t (Sch tree) true (Sch tree).
Proof.
  intros ER c Hs R. pose proof (tree_sub _ Hs) as (c' & Q & I). injection Q as <-.
  assert (KC : forall x, Kid c x -> clean names_t (Sch tree) x) by (intros x K; eapply tree_kid_clean; eauto).
  assert (F0 : forall z f, Some (f64_of_Z z) = Some f -> finite (f64_of_Z z) -> valid64 (f64_of_Z z) = true -> valid64 f = true /\ finite f) by (intros z f [= <-]; auto).
  constructor.
  - cbn in I. repeat destruct I as [<-|I]; try contradiction; try (left; discriminate); right; repeat split.
  - cbn in I. repeat destruct I as [<-|I]; try contradiction; intros N; now destruct N.
  - cbn in I. repeat destruct I as [<-|I]; try contradiction; intros N; now destruct N.
  - cbn in I. repeat destruct I as [<-|I]; try contradiction; intros N; now destruct N.
  - intros x Hx. apply KC. now apply kid_comb.
  - intros _. exact KC.
  - cbn in I. repeat destruct I as [<-|I]; try contradiction; constructor.
  - intros e He. cbn in I. repeat destruct I as [<-|I]; try contradiction; cbn in He; try contradiction.
    destruct He as [<-|[<-|[]]]; repeat split; try discriminate; constructor.
  - intros N t Ht. cbn in I. repeat destruct I as [<-|I]; try contradiction; try (now destruct N). destruct Ht as [<-|[]]. now left.
  - intros f Hf. cbn in I. repeat destruct I as [<-|I]; try contradiction; try discriminate. injection Hf as <-. split; [reflexivity|]. eexists. vm_compute. reflexivity.
  - intros f Hf. cbn in I. repeat destruct I as [<-|I]; try contradiction; discriminate.
  - intros f Hf. cbn in I. repeat destruct I as [<-|I]; try contradiction; discriminate.
  - intros f Hf. cbn in I. repeat destruct I as [<-|I]; try contradiction; try discriminate. injection Hf as <-. split; [reflexivity|lia].
  - intros f Hf. cbn in I. repeat destruct I as [<-|I]; try contradiction; discriminate.
  - cbn in I. repeat destruct I as [<-|I]; try contradiction; repeat split; discriminate.
  - intros f Hf. cbn in I. repeat destruct I as [<-|I]; try contradiction; discriminate.
  - intros f Hf. cbn in I. repeat destruct I as [<-|I]; try contradiction; try discriminate. injection Hf as <-. lia.
  - intros U. cbn in I. repeat destruct I as [<-|I]; try contradiction; discriminate.
  - intros l Hl. cbn in I. repeat destruct I as [<-|I]; try contradiction; discriminate.
  - intros f Hf. cbn in I. repeat destruct I as [<-|I]; try contradiction; discriminate.
  - intros f Hf. cbn in I. repeat destruct I as [<-|I]; try contradiction; discriminate.
  - intros k Hk. cbn in I. repeat destruct I as [<-|I]; try contradiction; cbn in Hk; try contradiction. destruct Hk as [<-|[]]. cbn. tauto.
  - intros k s1 s2. unfold For. rewrite ER. cbn in I. repeat destruct I as [<-|I]; try contradiction;
      try (intros [H|(p & [] & _)]; discriminate).
    assert (X : forall k s, sget k (sc_props tree) = Some s -> contains "y-" k = false).
    { intros k' s H. cbn in H. repeat match type of H with (if String.eqb ?a ?b then _ else _) = _ => destruct (String.eqb_spec a b) as [->|_]; [reflexivity|] end. discriminate. }
    intros [H1|(p & [H1|[]] & C1)] [H2|(p' & [H2|[]] & C2)]; try congruence.
    + injection H2 as <- <-. cbn [snd] in C2. rewrite (X _ _ H1) in C2. discriminate.
    + injection H1 as <- <-. cbn [snd] in C1. rewrite (X _ _ H2) in C1. discriminate.
  - intros k ds d H Hd. cbn in I. repeat destruct I as [<-|I]; try contradiction; try discriminate.
    cbn in H. destruct (String.eqb_spec k "note") as [->|]; [|discriminate]. injection H as <-. destruct Hd as [<-|[]].
    split; left; cbn; tauto.
  - intros k s H. cbn in I. repeat destruct I as [<-|I]; try contradiction; discriminate.
Qed.

Lemma tree_sorted : Sorted (Sch tree) /\ forall m s', lookup names_t m = Some s' -> Sorted s'.
Proof.
  assert (L : forall c, comb_kids c ++ array_kids c ++ object_kids c = [] -> sc_props c = [] -> sc_pats c = [] -> sc_depNames c = [] -> sc_depSchemas c = [] -> Sorted (Sch c)).
  { intros c K Q1 Q2 Q3 Q4. constructor; rewrite ?Q1, ?Q2, ?Q3, ?Q4, ?K; try constructor. intros x []. }
  assert (Lp : Sorted (Sch pos_s)) by (apply L; reflexivity).
  split.
  - constructor; [change (StronglySorted slt ["kids"; "note"; "tag"; "weight"]); repeat (constructor; try reflexivity)
      |change (StronglySorted lt [0%nat]); repeat constructor|change (StronglySorted slt ["note"]); repeat constructor|constructor|]. intros x Hx.
    change (In x [Sch kids_s; Sch note_s; Sch tag_s; Sch ref_pos; Sch flag_s]) in Hx. destruct Hx as [<-|[<-|[<-|[<-|[<-|[]]]]]].
    + apply (so_sch kids_s); try constructor. intros x Hx. change (In x [Sch ref_root]) in Hx. destruct Hx as [<-|[]]. apply (L ref_root); reflexivity.
    + apply (so_sch note_s); try constructor. intros x Hx. change (In x [Sch text_x; Sch null_s]) in Hx. destruct Hx as [<-|[<-|[]]]; [apply (L text_x)|apply (L null_s)]; reflexivity.
    + apply (L tag_s); reflexivity.
    + apply (L ref_pos); reflexivity.
    + apply (L flag_s); reflexivity.
  - intros m s' H. unfold lookup, names_t in H. destruct (String.eqb m _); [|discriminate]. injection H as <-. exact Lp.
Qed.
Lemma tree_steady : steady names_t (Sch tree) /\ scalar_defaults names_t (Sch tree).
Proof.
  split.
  - assert (N : forall a s b, Def names_t (Sch tree) a s -> Same s b -> False).
    { intros a s b Ds Sm. assert (Q : s = Sch tree \/ s = Sch pos_s).
      { destruct Ds as [|n s' _ L]; auto. unfold lookup, names_t in L. destruct (String.eqb n _); [|discriminate]. injection L as <-. auto. }
      destruct Q as [-> | ->]; inversion Sm as [c N|c x n R I _|c k x n R T G _]; subst; try (now apply N); try (now destruct I); discriminate. }
    intros n H. induction H as [a s b Ds Sm|a b c _ IH _ _]; eauto.
  - intros c Hs R. pose proof (tree_clean c Hs R) as ->. exact I.
Qed.

Definition leafy (w : Z) (more : list (string * gval)) : gval := jobj (more ++ [("weight", num w)]).
(** a tree with two levels, and one whose inner node breaks a rule of the root definition *)
Definition oak : gval := leafy 4 [("kids", jarr [leafy 1 []; leafy 2 [("note", GNil); ("tag", gstr "a")]]); ("note", gstr "xx"); ("tag", gstr "b")].
Definition elm : gval := leafy 4 [("kids", jarr [leafy 1 [("note", gstr "x")]])].
Ltac json_tac :=
  match goal with
  | |- json (num _) => constructor; [reflexivity|eexists; vm_compute; reflexivity]
  | |- json (gfloat _) => constructor; [reflexivity|eexists; vm_compute; reflexivity]
  | |- json (gstr _) => constructor
  | |- json GNil => constructor
  end.
Lemma json_list l : Forall json l -> json (jarr l).
Proof. intros F. apply j_arr. now apply Forall_forall. Qed.
Lemma json_object m : ssorted m -> Forall json (map snd m) -> json (jobj m).
Proof. intros S F. apply j_obj; auto. intros k x H. rewrite Forall_forall in F. apply F. apply in_map_iff. exists (k, x). split; auto. now apply sget_in. Qed.
Ltac js :=
  match goal with
  | |- json (jarr _) => apply json_list; repeat (apply Forall_cons; [js|]); apply Forall_nil
  | |- json (jobj _) => apply json_object; [repeat (constructor; try reflexivity)|cbn [map snd]; repeat (apply Forall_cons; [js|]); apply Forall_nil]
  | _ => json_tac
  end.
Example trees_json : json oak /\ json elm.
Proof. unfold oak, elm, leafy. cbn [app]. split; js. Qed.

(** boolean version of [one_byte] *)
Fixpoint texts (v : gval) : list string :=
  match v with
  | GStr _ s => [s]
  | GSlice _ _ (Some l) => flat_map texts l
  | GMap _ _ _ _ (Some m) => flat_map (fun e => texts (snd e)) m
  | _ => []
  end.
Lemma occurs_texts v s : Occurs v s -> In s (texts v).
Proof.
  induction 1 as [s|l x s I _ IH|m k x s I _ IH].
  - now left.
  - cbn. apply in_flat_map. eauto.
  - cbn. apply in_flat_map. exists (k, x). split; [now apply sget_in|exact IH].
Qed.
Lemma one_byte_texts v : forallb (fun s => Nat.eqb (characters s) (String.length s)) (texts v) = true -> one_byte v.
Proof. intros H s O. apply occurs_texts in O. rewrite forallb_forall in H. apply Nat.eqb_eq. now apply H. Qed.

Definition env_t : env := env0 no_refs.
Example tree_verdicts : Valid env_t names_t (Sch tree) (Sch tree) oak /\ Invalid env_t names_t (Sch tree) (Sch tree) elm.
Proof.
  destruct tree_sorted as [S1 S2]. destruct trees_json as [J1 J2].
  assert (R1 : exists v' o', Runs (with_refs env_t tree_refs) tree_c oak [] (Pass, v', o')) by (do 2 eexists; run 30%nat).
  assert (R2 : exists m v' o', Runs (with_refs env_t tree_refs) tree_c elm [] (Fail m, v', o')) by (do 3 eexists; run 30%nat).
  destruct R1 as (v1 & o1 & R1). destruct R2 as (m & v2 & o2 & R2).
  pose proof (built_means env_t names_t (Sch tree) true 10 [] _ _ _ S1 S2 tree_builds (tree_plain env_t eq_refl)) as M. split.
  - destruct (M oak [] Pass v1 o1 J1 (fun _ => one_byte_texts oak eq_refl) R1) as [(_ & V & _)|([? Q] & _)]; [exact V|discriminate].
  - destruct (M elm [] (Fail m) v2 o2 J2 (fun _ => one_byte_texts elm eq_refl) R2) as [(Q & _)|(_ & V & _)]; [discriminate|exact V].
Qed.
(** every document gets its verdict, in every iteration order *)
Example tree_decided v o : json v -> one_byte v -> exists r v' o', Runs (with_refs env_t tree_refs) tree_c v o (r, v', o') /\
  ((r = Pass /\ Valid env_t names_t (Sch tree) (Sch tree) v /\ ~ Invalid env_t names_t (Sch tree) (Sch tree) v) \/
   ((exists m, r = Fail m) /\ Invalid env_t names_t (Sch tree) (Sch tree) v /\ ~ Valid env_t names_t (Sch tree) (Sch tree) v)).
Proof.
  intros J OB. destruct tree_sorted as [S1 S2]. destruct tree_steady as [T1 T2].
  apply (built_decides env_t names_t (Sch tree) true 10 [] _ _ _ S1 S2 tree_builds (tree_plain env_t eq_refl)); auto.
Qed.

(** ** What the builder does differently *)
(** the validator built from s agrees with s on v *)
Definition agrees (s : schema) (v : gval) : Prop := forall E D n w c rf log o r v' o',
  build_with n D s w = Built c rf log -> Runs (with_refs E rf) c v o (r, v', o') ->
  (r = Pass -> Valid E D s s v) /\ ((exists m, r = Fail m) -> Invalid E D s s v).
(** full C43: all sound schemas and all documents *)
Definition build_means_full : Prop := forall s v, Sorted s -> Good s -> json v -> agrees s v.

(** *** C44: number enumerations *)
Definition number_enum (l : list gval) : scfg := with_enum l (with_type [TNumber] blank).
Definition number_enum_full : Prop := forall l v, (forall e, In e l -> json e) -> json v -> agrees (Sch (number_enum l)) v.
Definition plainly (s : scfg) : Prop := sc_ref s = "" /\ sc_not s = SNil /\ sc_allOf s = [] /\ sc_anyOf s = [] /\ sc_oneOf s = [].
Lemma local_of E D root c v : sc_ref c = "" -> Valid E D root (Sch c) v -> Local E c v.
Proof. intros R V. now apply valid_keywords in V. Qed.
Lemma number_enum_disagrees : ~ agrees (Sch (number_enum [num 1])) (num 1).
Proof.
  intros H. assert (J1 : json (num 1)) by json_tac.
  specialize (H env_t no_names 10%nat [] (bc (Sch (number_enum [num 1]))) [] [] []).
  assert (R : exists m v' o', Runs (with_refs env_t []) (bc (Sch (number_enum [num 1]))) (num 1) [] (Fail m, v', o')) by (do 3 eexists; run 10%nat).
  destruct R as (m & v' & o' & R). destruct (H _ _ _ eq_refl R) as [_ I]. specialize (I (ex_intro _ m eq_refl)).
  apply invalid_keywords in I; [|reflexivity].
  destruct I as [I|[(s & x & B & _)|[[N _]|[[N _]|[[N _]|(l1 & s1 & l2 & s2 & l3 & Q & _)]]]]]; try (now apply N).
  - apply I. unfold Local. splits.
    + intros _. exists TNumber. split; [now left|eexists; reflexivity].
    + intros _. exists (num 1). split; [now left|now apply json_equal_refl].
    + intros f _. unfold number_keywords. splits; discriminate.
    + discriminate.
    + discriminate.
    + discriminate.
  - apply below_inv in B as [([] & _)|[(l & j & Q & _)|(y & k & Q & _)]]; discriminate.
  - destruct l1; discriminate.
Qed.
Theorem number_enum_refuted : ~ number_enum_full.
Proof.
  intros H. assert (J1 : json (num 1)) by json_tac. apply number_enum_disagrees. apply H; auto. intros e [<-|[]]. exact J1.
Qed.
(** hence not every sound schema is built as it means *)
Theorem build_means_refuted : ~ build_means_full.
Proof.
  intros H. apply number_enum_disagrees. apply H.
  - constructor; try constructor. intros x [].
  - assert (NK : forall x, ~ Kid (number_enum [num 1]) x).
    { intros x [y []|y T _|y T _]; destruct T as [T|[]]; discriminate. }
    split; intros U.
    + inversion U as [c k R T|c x R K]; subst; [destruct T as [T|[]]; discriminate|now apply NK in K].
    + inversion U as [|c R T|c x R K]; subst; [destruct T as [T|[]]; discriminate|now apply NK in K].
  - json_tac.
Qed.
Lemma listed_enum_fails m l f : n_enum m = Some [GSlice "[]interface {}" true (Some l)] -> exists e, num_check m f = Fail e.
Proof.
  intros Q. unfold num_check. rewrite Q. repeat match goal with |- context [if ?b then _ else _] => destruct b; [eauto|] end.
  cbn. eauto.
Qed.
(** exact: a number schema with an enumeration accepts nothing at all *)
Theorem number_enum_rejects D n w c k rf log E v o r v' o' : Sorted (Sch c) -> (forall m s', lookup D m = Some s' -> Sorted s') ->
  plainly c -> sc_type c = [TNumber] -> sc_enum c <> [] ->
  build_with n D (Sch c) w = Built k rf log -> Runs (with_refs E rf) k v o (r, v', o') -> exists m, r = Fail m.
Proof.
  intros So SD (R & N1 & N2 & N3 & N4) T NE B (f & H & NO).
  pose proof (build_outcome n D (Sch c) w So SD) as O. rewrite B in O. destruct O as (-> & _).
  rewrite bc_step in H by assumption. unfold bc_comb, bc_types, types_of in H. rewrite N1, N2, N3, N4, T in H. cbn [sort_t fold_right insert_t map app reduce] in H.
  destruct f as [|f]; [cbn in H; injection H as <- <- <-; now destruct NO|].
  cbn [bc_one] in H. unfold build_number in H. cbn [validate] in H. injection H as <- _ _.
  unfold num_validate. destruct (deref1 v) as [|[] g]; eauto. destruct g; eauto.
  destruct (sc_enum c) as [|e l]; [congruence|]. eapply listed_enum_fails. reflexivity.
Qed.

(** *** C45: several combinators *)
Definition all_combinators_full : Prop := forall E D n w c k rf log v o v' o',
  Sorted (Sch c) -> (forall m s', lookup D m = Some s' -> Sorted s') -> sc_ref c = "" -> json v ->
  build_with n D (Sch c) w = Built k rf log -> Runs (with_refs E rf) k v o (Pass, v', o') ->
  (sc_not c <> SNil -> ~ Valid E D (Sch c) (sc_not c) v) /\
  (forall s, In s (sc_allOf c) -> Valid E D (Sch c) s v) /\
  (sc_anyOf c <> [] -> exists s, In s (sc_anyOf c) /\ Valid E D (Sch c) s v) /\
  (sc_oneOf c <> [] -> exists s, In s (sc_oneOf c) /\ Valid E D (Sch c) s v).
Definition text_s : scfg := with_type [TString] blank.
Definition two_s : scfg := with_anyOf [Sch text_s] (with_not (Sch null_s) blank).
Theorem all_combinators_refuted : ~ all_combinators_full.
Proof.
  intros H. assert (So : Sorted (Sch two_s)).
  { constructor; try constructor. intros x Hx. vm_compute in Hx. destruct Hx as [<-|[]]. constructor; try constructor. intros x []. }
  assert (R : exists v' o', Runs (with_refs env_t []) (bc (Sch two_s)) (num 5) [] (Pass, v', o')) by (do 2 eexists; run 10%nat).
  destruct R as (v' & o' & R).
  destruct (H env_t no_names 10%nat [] two_s (bc (Sch two_s)) [] [] (num 5) [] v' o' So ltac:(intros; discriminate) eq_refl ltac:(json_tac) eq_refl R) as (_ & _ & A & _).
  destruct A as (s & [<-|[]] & V); [discriminate|]. apply local_of in V; [|reflexivity]. destruct V as (V & _).
  destruct (V ltac:(discriminate)) as (t & [<-|[]] & x & Q). discriminate.
Qed.
(** exact: of not, allOf, anyOf and oneOf the first one present is used, the others have no effect *)
Definition only_first (c : scfg) : scfg :=
  match sc_not c, sc_allOf c, sc_anyOf c with
  | Sch _, _, _ => with_allOf [] (with_anyOf [] (with_oneOf [] c))
  | SNil, _ :: _, _ => with_anyOf [] (with_oneOf [] c)
  | SNil, [], _ :: _ => with_oneOf [] c
  | SNil, [], [] => c
  end.
Theorem later_combinators_ignored D n c w : build_with n D (Sch c) w = build_with n D (Sch (only_first c)) w.
Proof.
  assert (Q : build (Sch c) = build (Sch (only_first c))).
  { unfold only_first. destruct (sc_not c) as [|z] eqn:Qn; [destruct (sc_allOf c) eqn:Qa; [destruct (sc_anyOf c) eqn:Qb; [reflexivity|]|]|];
      cbn [build]; cbn [with_allOf with_anyOf with_oneOf sc_ref sc_not sc_allOf sc_anyOf sc_oneOf]; rewrite ?Qn, ?Qa, ?Qb; reflexivity. }
  unfold build_with. rewrite Q. reflexivity.
Qed.

(** *** enumerations of booleans, objects, arrays and null have no effect *)
Definition boolean_enum : scfg := with_enum [gbool true] (with_type [TBoolean] blank).
Definition other_enum_full : Prop := forall c v, sc_type c <> [] -> sc_ref c = "" -> json v -> agrees (Sch c) v.
Theorem other_enum_refuted : ~ other_enum_full.
Proof.
  intros H. assert (J : json (gbool false)) by constructor.
  assert (R : exists v' o', Runs (with_refs env_t []) (bc (Sch boolean_enum)) (gbool false) [] (Pass, v', o')) by (do 2 eexists; run 10%nat).
  destruct R as (v' & o' & R).
  destruct (H boolean_enum (gbool false) ltac:(discriminate) eq_refl J env_t no_names 10%nat [] _ _ _ _ _ _ _ eq_refl R) as [V _].
  specialize (V eq_refl). apply local_of in V; [|reflexivity]. destruct V as (_ & V & _).
  destruct (V ltac:(discriminate)) as (e & [<-|[]] & Q). inversion Q.
Qed.
Theorem other_enum_ignored D n c w : sc_type c <> [] -> (forall t, In t (sc_type c) -> t <> TString /\ t <> TInteger /\ t <> TNumber) ->
  build_with n D (Sch c) w = build_with n D (Sch (with_enum [] c)) w.
Proof.
  intros NT T. assert (Q : build (Sch c) = build (Sch (with_enum [] c))).
  { destruct (String.eqb_spec (sc_ref c) "") as [R|R].
    - rewrite !build_step by assumption. change (comb_of (with_enum [] c)) with (comb_of c). unfold types_of. cbn [with_enum sc_type].
      destruct (sc_type c) as [|t0 tl] eqn:QT; [congruence|].
      assert (T' : forall t, In t (sort_t (t0 :: tl)) -> t <> TString /\ t <> TInteger /\ t <> TNumber).
      { intros t Ht. apply T. eapply Permutation_in; [symmetry; apply sort_t_perm|exact Ht]. }
      destruct (sort_t (t0 :: tl)) as [|u ul] eqn:QS.
      { exfalso. pose proof (sort_t_perm (t0 :: tl)) as PM. rewrite QS in PM. apply Permutation_sym, Permutation_nil in PM. discriminate. }
      assert (QM : map (one_of c) (u :: ul) = map (one_of (with_enum [] c)) (u :: ul)).
      { apply map_ext_in. intros t Ht. destruct (T' t Ht) as (X1 & X2 & X3). destruct t; try congruence; reflexivity. }
      rewrite QM. reflexivity.
    - cbn [build]. cbn [with_enum sc_ref]. apply String.eqb_neq in R. rewrite R. reflexivity. }
  unfold build_with. rewrite Q. reflexivity.
Qed.

(** *** without a type, keywords restrict the type *)
Theorem type_guessed D n c w : sc_type c = [] -> guess c <> [] ->
  build_with n D (Sch c) w = build_with n D (Sch (with_type (guess c) c)) w.
Proof.
  intros T G. assert (Q : build (Sch c) = build (Sch (with_type (guess c) c))).
  { cbn [build]. cbn [with_type sc_type]. rewrite T. destruct (guess c) as [|g gl] eqn:QG; [congruence|]. rewrite <- QG. reflexivity. }
  unfold build_with. rewrite Q. reflexivity.
Qed.
Definition guess_full : Prop := forall c v, sc_type c = [] -> sc_ref c = "" -> sc_enum c = [] -> json v -> agrees (Sch c) v.
Definition short_s : scfg := with_minLen (Some 1) blank.
Lemma no_below_number E c f s x : sc_allOf c = [] -> ~ Below E c (gfloat f) s x.
Proof. intros Q B. apply below_inv in B as [[I _]|[(l & j & Q' & _)|(m & k & Q' & _)]]; try discriminate. rewrite Q in I. destruct I. Qed.
Theorem guess_refuted : ~ guess_full.
Proof.
  intros H. assert (J : json (num 5)) by json_tac.
  assert (R : exists m v' o', Runs (with_refs env_t []) (bc (Sch short_s)) (num 5) [] (Fail m, v', o')) by (do 3 eexists; run 10%nat).
  destruct R as (m & v' & o' & R).
  destruct (H short_s (num 5) eq_refl eq_refl eq_refl J env_t no_names 10%nat [] _ _ _ _ _ _ _ eq_refl R) as [_ I].
  specialize (I (ex_intro _ m eq_refl)). apply invalid_keywords in I; [|reflexivity].
  destruct I as [I|[(s & x & B & _)|[[N _]|[[N _]|[[N _]|(l1 & s1 & l2 & s2 & l3 & Q & _)]]]]]; try (now apply N).
  - apply I. unfold Local. splits; try (intros N; now destruct N); discriminate.
  - now apply no_below_number in B.
  - destruct l1; discriminate.
Qed.

(** *** formats: "date-time" has no effect *)
Definition date_time_full : Prop := forall E D n w c k rf log s o v' o',
  plainly c -> sc_type c = [TString] -> sc_format c = "date-time" ->
  build_with n D (Sch c) w = Built k rf log -> Runs (with_refs E rf) k (gstr s) o (Pass, v', o') ->
  exists t, e_time E s = inl t.
Definition date_s : scfg := with_format "date-time" (with_type [TString] blank).
Theorem date_time_refuted : ~ date_time_full.
Proof.
  intros H. assert (R : exists v' o', Runs (with_refs env_t []) (bc (Sch date_s)) (gstr "never") [] (Pass, v', o')) by (do 2 eexists; run 10%nat).
  destruct R as (v' & o' & R).
  destruct (H env_t no_names 10%nat [] date_s _ _ _ _ _ _ _ ltac:(repeat split) eq_refl eq_refl eq_refl R) as [t Q]. discriminate.
Qed.
Theorem date_time_ignored c n E v w : plainly c -> sc_type c = [TString] -> sc_format c = "date-time" ->
  validate n E (bc (Sch c)) v w = validate n E (bc (Sch (with_format "" c))) v w.
Proof.
  intros (R & N1 & N2 & N3 & N4) T F. rewrite !bc_step by assumption. unfold bc_comb, bc_types, types_of.
  cbn [with_format sc_not sc_allOf sc_anyOf sc_oneOf sc_type]. rewrite N1, N2, N3, N4, T. cbn [sort_t fold_right insert_t map app reduce].
  destruct n as [|n]; [reflexivity|]. change (with_format "" c) with (with_format "" c). rewrite !str_of_eq. cbn [validate].
  destruct (str_of_fields c) as (F1 & F2 & F3 & F4 & F5). destruct (str_of_fields (with_format "" c)) as (G1 & G2 & G3 & G4 & G5).
  cbn [with_format sc_minLen sc_maxLen sc_pattern sc_enum sc_format] in G1, G2, G3, G4, G5.
  unfold str_validate, str_check. rewrite F1, F2, F3, F4, F5, G1, G2, G3, G4, G5, F. reflexivity.
Qed.

(** *** lengths count bytes *)
Definition length_full : Prop := forall c v, plainly c -> sc_type c = [TString] -> sc_enum c = [] -> json v -> agrees (Sch c) v.
Definition one_char : scfg := with_maxLen (Some 1) (with_type [TString] blank).
Definition eacute : string := String (ascii_of_nat 195) (String (ascii_of_nat 169) "").
Theorem length_refuted : ~ length_full.
Proof.
  intros H. assert (J : json (gstr eacute)) by constructor.
  assert (R : exists m v' o', Runs (with_refs env_t []) (bc (Sch one_char)) (gstr eacute) [] (Fail m, v', o')) by (do 3 eexists; run 10%nat).
  destruct R as (m & v' & o' & R).
  destruct (H one_char (gstr eacute) ltac:(repeat split) eq_refl eq_refl J env_t no_names 10%nat [] _ _ _ _ _ _ _ eq_refl R) as [_ I].
  specialize (I (ex_intro _ m eq_refl)). apply invalid_keywords in I; [|reflexivity].
  destruct I as [I|[(s & x & B & _)|[[N _]|[[N _]|[[N _]|(l1 & s1 & l2 & s2 & l3 & Q & _)]]]]]; try (now apply N).
  - apply I. unfold Local. splits; try (intros N; now destruct N); try discriminate.
    + intros _. exists TString. split; [now left|eexists; reflexivity].
    + intros s Q. apply (f_equal (fun v => match v with GStr _ s => s | _ => "" end)) in Q. cbn in Q. subst s.
      unfold string_keywords, json_format. splits; try discriminate.
      intros n [= <-]. vm_compute. discriminate.
  - apply below_inv in B as [([] & _)|[(l & j & Q & _)|(y & k & Q & _)]]; discriminate.
  - destruct l1; discriminate.
Qed.

