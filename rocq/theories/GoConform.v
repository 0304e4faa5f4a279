(** Conformance of the model of mabo-go with the repository's own tests
    (crates/mabo-go/tests/render.rs and its snapshots, generated from those files): parsing,
    simplifying and rendering every input gives the recorded text, up to the empty lines at its
    end, which the snapshot tool trims.  These are tests of the model, not proofs of properties. *)
From Verif Require Import Base Syntax Parser Printer Compiler GoNames GoFile.
Require Coq.Strings.String.
Import Coq.Strings.String.StringSyntax.
Local Open Scope N_scope.
Definition pf (s : str) : option str := Some s.
Definition ff (s : str) : str := s.
Fixpoint drop_nl (s : str) : str := match s with 10 :: r => drop_nl r | _ => s end.
Definition trim_nl (s : str) : str := rev_append (drop_nl (rev_append s [])) [].
(** tests/render.rs L19-27 [merge_output]. *)
Definition merged (l : list (list str * option (gfile str))) : option str :=
  option_map (@concat N) (collect (map (fun '(p, f) =>
    option_map (fun f => tx "--- " ++ join (tx "/") p ++ tx ".go" ++ nl ++ nl ++
      file_text ff (fun c => (c <? 32) || (c =? 127)) f) f) l)).
(** tests/render.rs L30-51. *)
Definition renders (i o : str) : bool :=
  match schema_parse pf i with
  | Some s =>
      match simplify_schema true s with
      | Some (_, ds) =>
          match merged (go_files (tx "sample") ds) with
          | Some t => str_eqb (trim_nl t) (trim_nl o)
          | None => false
          end
      | None => false
      end
  | None => false
  end.

(** tests/inputs/alias_basic.mabo *)
Example go_alias_basic : renders (tx "/// Sample type alias.
type Sample = u32;
")
 (tx "--- sample.go

// Code generated by mabo-go (v0.1.0). DO NOT EDIT.

package sample

import (
	mabo ""github.com/dnaka91/mabo-go""
	buf ""github.com/dnaka91/mabo-go/buf""
)

// Sample type alias.
type Sample uint32
") = true.
Proof. vm_cast_no_check (eq_refl true). Qed.

(** tests/inputs/attribute_multi.mabo *)
Example go_attribute_multi : renders (tx "#[validate(min = 1, max = 100)]
struct Sample
")
 (tx "--- sample.go

// Code generated by mabo-go (v0.1.0). DO NOT EDIT.

package sample

import (
	mabo ""github.com/dnaka91/mabo-go""
	buf ""github.com/dnaka91/mabo-go/buf""
)

type Sample struct{}

func NewSample() Sample {
	return Sample{}
}

var _ buf.Encode = (*Sample)(nil)

func (v *Sample) Encode(w []byte) []byte {
	return w
}

var _ buf.Decode = (*Sample)(nil)

func (v *Sample) Decode(r []byte) ([]byte, error) {

	for len(r) > 0 {
		r2, id, err := buf.DecodeID(r)
		if err != nil {
			return nil, err
		}
		r = r2

		switch id {
			case buf.EndMarker:
				break
		}
	}


	return r, nil
}

var _ buf.Size = (*Sample)(nil)

func (v *Sample) Size() int {
	size := 0
	return size
}
") = true.
Proof. vm_cast_no_check (eq_refl true). Qed.

(** tests/inputs/attribute_single.mabo *)
Example go_attribute_single : renders (tx "#[deprecated = ""don't use""]
struct Sample
")
 (tx "--- sample.go

// Code generated by mabo-go (v0.1.0). DO NOT EDIT.

package sample

import (
	mabo ""github.com/dnaka91/mabo-go""
	buf ""github.com/dnaka91/mabo-go/buf""
)

type Sample struct{}

func NewSample() Sample {
	return Sample{}
}

var _ buf.Encode = (*Sample)(nil)

func (v *Sample) Encode(w []byte) []byte {
	return w
}

var _ buf.Decode = (*Sample)(nil)

func (v *Sample) Decode(r []byte) ([]byte, error) {

	for len(r) > 0 {
		r2, id, err := buf.DecodeID(r)
		if err != nil {
			return nil, err
		}
		r = r2

		switch id {
			case buf.EndMarker:
				break
		}
	}


	return r, nil
}

var _ buf.Size = (*Sample)(nil)

func (v *Sample) Size() int {
	size := 0
	return size
}
") = true.
Proof. vm_cast_no_check (eq_refl true). Qed.

(** tests/inputs/attribute_unit.mabo *)
Example go_attribute_unit : renders (tx "#[deprecated]
struct Sample
")
 (tx "--- sample.go

// Code generated by mabo-go (v0.1.0). DO NOT EDIT.

package sample

import (
	mabo ""github.com/dnaka91/mabo-go""
	buf ""github.com/dnaka91/mabo-go/buf""
)

type Sample struct{}

func NewSample() Sample {
	return Sample{}
}

var _ buf.Encode = (*Sample)(nil)

func (v *Sample) Encode(w []byte) []byte {
	return w
}

var _ buf.Decode = (*Sample)(nil)

func (v *Sample) Decode(r []byte) ([]byte, error) {

	for len(r) > 0 {
		r2, id, err := buf.DecodeID(r)
		if err != nil {
			return nil, err
		}
		r = r2

		switch id {
			case buf.EndMarker:
				break
		}
	}


	return r, nil
}

var _ buf.Size = (*Sample)(nil)

func (v *Sample) Size() int {
	size := 0
	return size
}
") = true.
Proof. vm_cast_no_check (eq_refl true). Qed.

(** tests/inputs/attributes.mabo *)
Example go_attributes : renders (tx "#[deprecated = ""don't use"", compress]
#[validate(
    in_range(min = 100, max = 200),
    non_empty,
)]
struct Sample
")
 (tx "--- sample.go

// Code generated by mabo-go (v0.1.0). DO NOT EDIT.

package sample

import (
	mabo ""github.com/dnaka91/mabo-go""
	buf ""github.com/dnaka91/mabo-go/buf""
)

type Sample struct{}

func NewSample() Sample {
	return Sample{}
}

var _ buf.Encode = (*Sample)(nil)

func (v *Sample) Encode(w []byte) []byte {
	return w
}

var _ buf.Decode = (*Sample)(nil)

func (v *Sample) Decode(r []byte) ([]byte, error) {

	for len(r) > 0 {
		r2, id, err := buf.DecodeID(r)
		if err != nil {
			return nil, err
		}
		r = r2

		switch id {
			case buf.EndMarker:
				break
		}
	}


	return r, nil
}

var _ buf.Size = (*Sample)(nil)

func (v *Sample) Size() int {
	size := 0
	return size
}
") = true.
Proof. vm_cast_no_check (eq_refl true). Qed.

(** tests/inputs/attributes_min_ws.mabo *)
Example go_attributes_min_ws : renders (tx "#[deprecated=""don't use"",compress]
#[validate(in_range(min=100,max=200),non_empty)]
struct Sample
")
 (tx "--- sample.go

// Code generated by mabo-go (v0.1.0). DO NOT EDIT.

package sample

import (
	mabo ""github.com/dnaka91/mabo-go""
	buf ""github.com/dnaka91/mabo-go/buf""
)

type Sample struct{}

func NewSample() Sample {
	return Sample{}
}

var _ buf.Encode = (*Sample)(nil)

func (v *Sample) Encode(w []byte) []byte {
	return w
}

var _ buf.Decode = (*Sample)(nil)

func (v *Sample) Decode(r []byte) ([]byte, error) {

	for len(r) > 0 {
		r2, id, err := buf.DecodeID(r)
		if err != nil {
			return nil, err
		}
		r = r2

		switch id {
			case buf.EndMarker:
				break
		}
	}


	return r, nil
}

var _ buf.Size = (*Sample)(nil)

func (v *Sample) Size() int {
	size := 0
	return size
}
") = true.
Proof. vm_cast_no_check (eq_refl true). Qed.

(** tests/inputs/const_basic.mabo *)
Example go_const_basic : renders (tx "const BOOL_TRUE: bool = true;
const BOOL_FALSE: bool = false;
const INT: u32 = 100;
const FLOAT: f64 = 5.5;
const STRING: string = ""value"";
const BYTES: bytes = [1, 2, 3];
")
 (tx "--- sample.go

// Code generated by mabo-go (v0.1.0). DO NOT EDIT.

package sample

import (
	mabo ""github.com/dnaka91/mabo-go""
	buf ""github.com/dnaka91/mabo-go/buf""
)

const BoolTrue bool = true
const BoolFalse bool = false
const Int uint32 = 100
const Float float64 = 5.5
const String string = ""value""
var Bytes []byte = []byte{1, 2, 3}
") = true.
Proof. vm_cast_no_check (eq_refl true). Qed.

(** tests/inputs/const_string.mabo *)
Example go_const_string : renders (tx "const SIMPLE: string = ""value"";

const NEWLINE_ESCAPE: string = ""one \
    two \
    three\
"";

const ESCAPES: string = ""escape basics \r\n \t \b \f \\ \""\
    hello\"" \n\
    unicode \u{2764}  \
    emoji " ++ [10084] ++ tx " \
"";

const MULTILINE: string = ""a
    b
    c
"";
")
 (tx "--- sample.go

// Code generated by mabo-go (v0.1.0). DO NOT EDIT.

package sample

import (
	mabo ""github.com/dnaka91/mabo-go""
	buf ""github.com/dnaka91/mabo-go/buf""
)

const Simple string = ""value""
const NewlineEscape string = ""one two three""
const Escapes string = ""escape basics \r\n \t \u{8} \u{c} \\ \""hello\"" \nunicode " ++ [10084] ++ tx "  emoji " ++ [10084] ++ tx " ""
const Multiline string = ""a\n    b\n    c\n""
") = true.
Proof. vm_cast_no_check (eq_refl true). Qed.

(** tests/inputs/enum_basic.mabo *)
Example go_enum_basic : renders (tx "/// Sample enum.
enum Sample {
    One @1,
    /// Second variant
    Two(u32 @1, u64 @2) @2,
    Three {
        field1: u32 @1,
        /// Second field of third variant
        field2: bool @2,
    } @3,
}
")
 (tx "--- sample.go

// Code generated by mabo-go (v0.1.0). DO NOT EDIT.

package sample

import (
	mabo ""github.com/dnaka91/mabo-go""
	buf ""github.com/dnaka91/mabo-go/buf""
)

type SampleVariant interface {
	 sealed()
}

// Sample enum.
type Sample SampleVariant

type Sample_One struct{}

func (v Sample_One) sealed() {}

func NewSample_One() Sample_One {
	return Sample_One{}
}

var _ buf.Encode = (*Sample_One)(nil)

func (v *Sample_One) Encode(w []byte) []byte {
	return nil
}

var _ buf.Decode = (*Sample_One)(nil)

func (v *Sample_One) Decode(r []byte) ([]byte, error) {

	for len(r) > 0 {
		r2, id, err := buf.DecodeID(r)
		if err != nil {
			return nil, err
		}
		r = r2

		switch id {
			case buf.EndMarker:
				break
		}
	}


	return r, nil
}

var _ buf.Size = (*Sample_One)(nil)

func (v *Sample_One) Size() int {
	size := 0
	return size
}

// Second variant
type Sample_Two struct {
	N0 uint32
	N1 uint64
}

func (v Sample_Two) sealed() {}

func NewSample_Two(
	n0 uint32,
	n1 uint64,
) Sample_Two {
	return Sample_Two{
		N0: n0,
		N1: n1,
	}
}

var _ buf.Encode = (*Sample_Two)(nil)

func (v *Sample_Two) Encode(w []byte) []byte {
	w = buf.EncodeField(w, 1, func (w []byte) []byte {
		return buf.EncodeU32(w, v.N0)
	})
	w = buf.EncodeField(w, 2, func (w []byte) []byte {
		return buf.EncodeU64(w, v.N1)
	})
	w = buf.EncodeU32(w, buf.EndMarker)
	return nil
}

var _ buf.Decode = (*Sample_Two)(nil)

func (v *Sample_Two) Decode(r []byte) ([]byte, error) {
	foundN0 := false
	foundN1 := false

	for len(r) > 0 {
		r2, id, err := buf.DecodeID(r)
		if err != nil {
			return nil, err
		}
		r = r2

		switch id {
			case 1:
				r2, value, err := buf.DecodeU32(r)
				if err != nil {
					return nil, err
				}
				r = r2
				v.N0 = value
				foundN0 = true
			case 2:
				r2, value, err := buf.DecodeU64(r)
				if err != nil {
					return nil, err
				}
				r = r2
				v.N1 = value
				foundN1 = true
			case buf.EndMarker:
				break
		}
	}

	if !foundN0 {
		return nil, buf.MissingFieldError{
			ID:    1,
			Field: """",
		}
	}
	if !foundN1 {
		return nil, buf.MissingFieldError{
			ID:    2,
			Field: """",
		}
	}

	return r, nil
}

var _ buf.Size = (*Sample_Two)(nil)

func (v *Sample_Two) Size() int {
	size := 0
	size += buf.SizeField(1, func() int {
		return buf.SizeU32(v.N0)
	})
	size += buf.SizeField(2, func() int {
		return buf.SizeU64(v.N1)
	})
	size += buf.EndMarkerSize
	return size
}

type Sample_Three struct {
	Field1 uint32
	// Second field of third variant
	Field2 bool
}

func (v Sample_Three) sealed() {}

func NewSample_Three(
	field1 uint32,
	field2 bool,
) Sample_Three {
	return Sample_Three{
		Field1: field1,
		Field2: field2,
	}
}

var _ buf.Encode = (*Sample_Three)(nil)

func (v *Sample_Three) Encode(w []byte) []byte {
	w = buf.EncodeField(w, 1, func (w []byte) []byte {
		return buf.EncodeU32(w, v.Field1)
	})
	w = buf.EncodeField(w, 2, func (w []byte) []byte {
		return buf.EncodeBool(w, v.Field2)
	})
	w = buf.EncodeU32(w, buf.EndMarker)
	return nil
}

var _ buf.Decode = (*Sample_Three)(nil)

func (v *Sample_Three) Decode(r []byte) ([]byte, error) {
	foundField1 := false
	foundField2 := false

	for len(r) > 0 {
		r2, id, err := buf.DecodeID(r)
		if err != nil {
			return nil, err
		}
		r = r2

		switch id {
			case 1:
				r2, value, err := buf.DecodeU32(r)
				if err != nil {
					return nil, err
				}
				r = r2
				v.Field1 = value
				foundField1 = true
			case 2:
				r2, value, err := buf.DecodeBool(r)
				if err != nil {
					return nil, err
				}
				r = r2
				v.Field2 = value
				foundField2 = true
			case buf.EndMarker:
				break
		}
	}

	if !foundField1 {
		return nil, buf.MissingFieldError{
			ID:    1,
			Field: ""field1"",
		}
	}
	if !foundField2 {
		return nil, buf.MissingFieldError{
			ID:    2,
			Field: ""field2"",
		}
	}

	return r, nil
}

var _ buf.Size = (*Sample_Three)(nil)

func (v *Sample_Three) Size() int {
	size := 0
	size += buf.SizeField(1, func() int {
		return buf.SizeU32(v.Field1)
	})
	size += buf.SizeField(2, func() int {
		return buf.SizeBool(v.Field2)
	})
	size += buf.EndMarkerSize
	return size
}
") = true.
Proof. vm_cast_no_check (eq_refl true). Qed.

(** tests/inputs/enum_generics.mabo *)
Example go_enum_generics : renders (tx "/// Enum with generics.
enum Sample<A, B, C, D> {
    One @1,
    Two(A @1, B @2) @2,
    Three {
        field1: C @1,
        field2: D @2,
    } @3,
}
")
 (tx "--- sample.go

// Code generated by mabo-go (v0.1.0). DO NOT EDIT.

package sample

import (
	mabo ""github.com/dnaka91/mabo-go""
	buf ""github.com/dnaka91/mabo-go/buf""
)

type SampleVariant interface {
	 sealed()
}

// Enum with generics.
type Sample SampleVariant

type Sample_One struct{}

func (v Sample_One) sealed() {}

func NewSample_One() Sample_One {
	return Sample_One{}
}

var _ buf.Encode = (*Sample_One)(nil)

func (v *Sample_One) Encode(w []byte) []byte {
	return nil
}

var _ buf.Decode = (*Sample_One)(nil)

func (v *Sample_One) Decode(r []byte) ([]byte, error) {

	for len(r) > 0 {
		r2, id, err := buf.DecodeID(r)
		if err != nil {
			return nil, err
		}
		r = r2

		switch id {
			case buf.EndMarker:
				break
		}
	}


	return r, nil
}

var _ buf.Size = (*Sample_One)(nil)

func (v *Sample_One) Size() int {
	size := 0
	return size
}

type Sample_Two[A any, B any] struct {
	N0 A
	N1 B
}

func (v Sample_Two[A, B]) sealed() {}

func NewSample_Two[A any, B any](
	n0 A,
	n1 B,
) Sample_Two[A, B] {
	return Sample_Two[A, B]{
		N0: n0,
		N1: n1,
	}
}

var _ buf.Encode = (*Sample_Two[A, B])(nil)

func (v *Sample_Two[A, B]) Encode(w []byte) []byte {
	w = buf.EncodeField(w, 1, func (w []byte) []byte {
		return v.N0.Encode(w)
	})
	w = buf.EncodeField(w, 2, func (w []byte) []byte {
		return v.N1.Encode(w)
	})
	w = buf.EncodeU32(w, buf.EndMarker)
	return nil
}

var _ buf.Decode = (*Sample_Two[A, B])(nil)

func (v *Sample_Two[A, B]) Decode(r []byte) ([]byte, error) {
	foundN0 := false
	foundN1 := false

	for len(r) > 0 {
		r2, id, err := buf.DecodeID(r)
		if err != nil {
			return nil, err
		}
		r = r2

		switch id {
			case 1:
				r2, value, err := func(r []byte) ([]byte, A, error) {
					var value A
					return value.Decode(r)
				}(r)

				if err != nil {
					return nil, err
				}
				r = r2
				v.N0 = value
				foundN0 = true
			case 2:
				r2, value, err := func(r []byte) ([]byte, B, error) {
					var value B
					return value.Decode(r)
				}(r)

				if err != nil {
					return nil, err
				}
				r = r2
				v.N1 = value
				foundN1 = true
			case buf.EndMarker:
				break
		}
	}

	if !foundN0 {
		return nil, buf.MissingFieldError{
			ID:    1,
			Field: """",
		}
	}
	if !foundN1 {
		return nil, buf.MissingFieldError{
			ID:    2,
			Field: """",
		}
	}

	return r, nil
}

var _ buf.Size = (*Sample_Two[A, B])(nil)

func (v *Sample_Two[A, B]) Size() int {
	size := 0
	size += buf.SizeField(1, func() int {
		return v.N0.Size()
	})
	size += buf.SizeField(2, func() int {
		return v.N1.Size()
	})
	size += buf.EndMarkerSize
	return size
}

type Sample_Three[C any, D any] struct {
	Field1 C
	Field2 D
}

func (v Sample_Three[C, D]) sealed() {}

func NewSample_Three[C any, D any](
	field1 C,
	field2 D,
) Sample_Three[C, D] {
	return Sample_Three[C, D]{
		Field1: field1,
		Field2: field2,
	}
}

var _ buf.Encode = (*Sample_Three[C, D])(nil)

func (v *Sample_Three[C, D]) Encode(w []byte) []byte {
	w = buf.EncodeField(w, 1, func (w []byte) []byte {
		return v.Field1.Encode(w)
	})
	w = buf.EncodeField(w, 2, func (w []byte) []byte {
		return v.Field2.Encode(w)
	})
	w = buf.EncodeU32(w, buf.EndMarker)
	return nil
}

var _ buf.Decode = (*Sample_Three[C, D])(nil)

func (v *Sample_Three[C, D]) Decode(r []byte) ([]byte, error) {
	foundField1 := false
	foundField2 := false

	for len(r) > 0 {
		r2, id, err := buf.DecodeID(r)
		if err != nil {
			return nil, err
		}
		r = r2

		switch id {
			case 1:
				r2, value, err := func(r []byte) ([]byte, C, error) {
					var value C
					return value.Decode(r)
				}(r)

				if err != nil {
					return nil, err
				}
				r = r2
				v.Field1 = value
				foundField1 = true
			case 2:
				r2, value, err := func(r []byte) ([]byte, D, error) {
					var value D
					return value.Decode(r)
				}(r)

				if err != nil {
					return nil, err
				}
				r = r2
				v.Field2 = value
				foundField2 = true
			case buf.EndMarker:
				break
		}
	}

	if !foundField1 {
		return nil, buf.MissingFieldError{
			ID:    1,
			Field: ""field1"",
		}
	}
	if !foundField2 {
		return nil, buf.MissingFieldError{
			ID:    2,
			Field: ""field2"",
		}
	}

	return r, nil
}

var _ buf.Size = (*Sample_Three[C, D])(nil)

func (v *Sample_Three[C, D]) Size() int {
	size := 0
	size += buf.SizeField(1, func() int {
		return v.Field1.Size()
	})
	size += buf.SizeField(2, func() int {
		return v.Field2.Size()
	})
	size += buf.EndMarkerSize
	return size
}
") = true.
Proof. vm_cast_no_check (eq_refl true). Qed.

(** tests/inputs/enum_many_ws.mabo *)
Example go_enum_many_ws : renders (tx "
 /// Sample enum.
 enum     Sample    {

       One      @1,

       Two  (   u32   @1,     u64     @2)    @2,

            Three     {

                    field1:    u32      @1,

                    field2:    bool     @2,

            }    @3,

 }
")
 (tx "--- sample.go

// Code generated by mabo-go (v0.1.0). DO NOT EDIT.

package sample

import (
	mabo ""github.com/dnaka91/mabo-go""
	buf ""github.com/dnaka91/mabo-go/buf""
)

type SampleVariant interface {
	 sealed()
}

// Sample enum.
type Sample SampleVariant

type Sample_One struct{}

func (v Sample_One) sealed() {}

func NewSample_One() Sample_One {
	return Sample_One{}
}

var _ buf.Encode = (*Sample_One)(nil)

func (v *Sample_One) Encode(w []byte) []byte {
	return nil
}

var _ buf.Decode = (*Sample_One)(nil)

func (v *Sample_One) Decode(r []byte) ([]byte, error) {

	for len(r) > 0 {
		r2, id, err := buf.DecodeID(r)
		if err != nil {
			return nil, err
		}
		r = r2

		switch id {
			case buf.EndMarker:
				break
		}
	}


	return r, nil
}

var _ buf.Size = (*Sample_One)(nil)

func (v *Sample_One) Size() int {
	size := 0
	return size
}

type Sample_Two struct {
	N0 uint32
	N1 uint64
}

func (v Sample_Two) sealed() {}

func NewSample_Two(
	n0 uint32,
	n1 uint64,
) Sample_Two {
	return Sample_Two{
		N0: n0,
		N1: n1,
	}
}

var _ buf.Encode = (*Sample_Two)(nil)

func (v *Sample_Two) Encode(w []byte) []byte {
	w = buf.EncodeField(w, 1, func (w []byte) []byte {
		return buf.EncodeU32(w, v.N0)
	})
	w = buf.EncodeField(w, 2, func (w []byte) []byte {
		return buf.EncodeU64(w, v.N1)
	})
	w = buf.EncodeU32(w, buf.EndMarker)
	return nil
}

var _ buf.Decode = (*Sample_Two)(nil)

func (v *Sample_Two) Decode(r []byte) ([]byte, error) {
	foundN0 := false
	foundN1 := false

	for len(r) > 0 {
		r2, id, err := buf.DecodeID(r)
		if err != nil {
			return nil, err
		}
		r = r2

		switch id {
			case 1:
				r2, value, err := buf.DecodeU32(r)
				if err != nil {
					return nil, err
				}
				r = r2
				v.N0 = value
				foundN0 = true
			case 2:
				r2, value, err := buf.DecodeU64(r)
				if err != nil {
					return nil, err
				}
				r = r2
				v.N1 = value
				foundN1 = true
			case buf.EndMarker:
				break
		}
	}

	if !foundN0 {
		return nil, buf.MissingFieldError{
			ID:    1,
			Field: """",
		}
	}
	if !foundN1 {
		return nil, buf.MissingFieldError{
			ID:    2,
			Field: """",
		}
	}

	return r, nil
}

var _ buf.Size = (*Sample_Two)(nil)

func (v *Sample_Two) Size() int {
	size := 0
	size += buf.SizeField(1, func() int {
		return buf.SizeU32(v.N0)
	})
	size += buf.SizeField(2, func() int {
		return buf.SizeU64(v.N1)
	})
	size += buf.EndMarkerSize
	return size
}

type Sample_Three struct {
	Field1 uint32
	Field2 bool
}

func (v Sample_Three) sealed() {}

func NewSample_Three(
	field1 uint32,
	field2 bool,
) Sample_Three {
	return Sample_Three{
		Field1: field1,
		Field2: field2,
	}
}

var _ buf.Encode = (*Sample_Three)(nil)

func (v *Sample_Three) Encode(w []byte) []byte {
	w = buf.EncodeField(w, 1, func (w []byte) []byte {
		return buf.EncodeU32(w, v.Field1)
	})
	w = buf.EncodeField(w, 2, func (w []byte) []byte {
		return buf.EncodeBool(w, v.Field2)
	})
	w = buf.EncodeU32(w, buf.EndMarker)
	return nil
}

var _ buf.Decode = (*Sample_Three)(nil)

func (v *Sample_Three) Decode(r []byte) ([]byte, error) {
	foundField1 := false
	foundField2 := false

	for len(r) > 0 {
		r2, id, err := buf.DecodeID(r)
		if err != nil {
			return nil, err
		}
		r = r2

		switch id {
			case 1:
				r2, value, err := buf.DecodeU32(r)
				if err != nil {
					return nil, err
				}
				r = r2
				v.Field1 = value
				foundField1 = true
			case 2:
				r2, value, err := buf.DecodeBool(r)
				if err != nil {
					return nil, err
				}
				r = r2
				v.Field2 = value
				foundField2 = true
			case buf.EndMarker:
				break
		}
	}

	if !foundField1 {
		return nil, buf.MissingFieldError{
			ID:    1,
			Field: ""field1"",
		}
	}
	if !foundField2 {
		return nil, buf.MissingFieldError{
			ID:    2,
			Field: ""field2"",
		}
	}

	return r, nil
}

var _ buf.Size = (*Sample_Three)(nil)

func (v *Sample_Three) Size() int {
	size := 0
	size += buf.SizeField(1, func() int {
		return buf.SizeU32(v.Field1)
	})
	size += buf.SizeField(2, func() int {
		return buf.SizeBool(v.Field2)
	})
	size += buf.EndMarkerSize
	return size
}
") = true.
Proof. vm_cast_no_check (eq_refl true). Qed.

(** tests/inputs/enum_min_ws.mabo *)
Example go_enum_min_ws : renders (tx "enum Sample<T>{One@1,Two(u32@1,u64@2,T@3)@2,Three{field1:u32@1,field2:bool@2,field3:T@3}@3}
")
 (tx "--- sample.go

// Code generated by mabo-go (v0.1.0). DO NOT EDIT.

package sample

import (
	mabo ""github.com/dnaka91/mabo-go""
	buf ""github.com/dnaka91/mabo-go/buf""
)

type SampleVariant interface {
	 sealed()
}

type Sample SampleVariant

type Sample_One struct{}

func (v Sample_One) sealed() {}

func NewSample_One() Sample_One {
	return Sample_One{}
}

var _ buf.Encode = (*Sample_One)(nil)

func (v *Sample_One) Encode(w []byte) []byte {
	return nil
}

var _ buf.Decode = (*Sample_One)(nil)

func (v *Sample_One) Decode(r []byte) ([]byte, error) {

	for len(r) > 0 {
		r2, id, err := buf.DecodeID(r)
		if err != nil {
			return nil, err
		}
		r = r2

		switch id {
			case buf.EndMarker:
				break
		}
	}


	return r, nil
}

var _ buf.Size = (*Sample_One)(nil)

func (v *Sample_One) Size() int {
	size := 0
	return size
}

type Sample_Two[T any] struct {
	N0 uint32
	N1 uint64
	N2 T
}

func (v Sample_Two[T]) sealed() {}

func NewSample_Two[T any](
	n0 uint32,
	n1 uint64,
	n2 T,
) Sample_Two[T] {
	return Sample_Two[T]{
		N0: n0,
		N1: n1,
		N2: n2,
	}
}

var _ buf.Encode = (*Sample_Two[T])(nil)

func (v *Sample_Two[T]) Encode(w []byte) []byte {
	w = buf.EncodeField(w, 1, func (w []byte) []byte {
		return buf.EncodeU32(w, v.N0)
	})
	w = buf.EncodeField(w, 2, func (w []byte) []byte {
		return buf.EncodeU64(w, v.N1)
	})
	w = buf.EncodeField(w, 3, func (w []byte) []byte {
		return v.N2.Encode(w)
	})
	w = buf.EncodeU32(w, buf.EndMarker)
	return nil
}

var _ buf.Decode = (*Sample_Two[T])(nil)

func (v *Sample_Two[T]) Decode(r []byte) ([]byte, error) {
	foundN0 := false
	foundN1 := false
	foundN2 := false

	for len(r) > 0 {
		r2, id, err := buf.DecodeID(r)
		if err != nil {
			return nil, err
		}
		r = r2

		switch id {
			case 1:
				r2, value, err := buf.DecodeU32(r)
				if err != nil {
					return nil, err
				}
				r = r2
				v.N0 = value
				foundN0 = true
			case 2:
				r2, value, err := buf.DecodeU64(r)
				if err != nil {
					return nil, err
				}
				r = r2
				v.N1 = value
				foundN1 = true
			case 3:
				r2, value, err := func(r []byte) ([]byte, T, error) {
					var value T
					return value.Decode(r)
				}(r)

				if err != nil {
					return nil, err
				}
				r = r2
				v.N2 = value
				foundN2 = true
			case buf.EndMarker:
				break
		}
	}

	if !foundN0 {
		return nil, buf.MissingFieldError{
			ID:    1,
			Field: """",
		}
	}
	if !foundN1 {
		return nil, buf.MissingFieldError{
			ID:    2,
			Field: """",
		}
	}
	if !foundN2 {
		return nil, buf.MissingFieldError{
			ID:    3,
			Field: """",
		}
	}

	return r, nil
}

var _ buf.Size = (*Sample_Two[T])(nil)

func (v *Sample_Two[T]) Size() int {
	size := 0
	size += buf.SizeField(1, func() int {
		return buf.SizeU32(v.N0)
	})
	size += buf.SizeField(2, func() int {
		return buf.SizeU64(v.N1)
	})
	size += buf.SizeField(3, func() int {
		return v.N2.Size()
	})
	size += buf.EndMarkerSize
	return size
}

type Sample_Three[T any] struct {
	Field1 uint32
	Field2 bool
	Field3 T
}

func (v Sample_Three[T]) sealed() {}

func NewSample_Three[T any](
	field1 uint32,
	field2 bool,
	field3 T,
) Sample_Three[T] {
	return Sample_Three[T]{
		Field1: field1,
		Field2: field2,
		Field3: field3,
	}
}

var _ buf.Encode = (*Sample_Three[T])(nil)

func (v *Sample_Three[T]) Encode(w []byte) []byte {
	w = buf.EncodeField(w, 1, func (w []byte) []byte {
		return buf.EncodeU32(w, v.Field1)
	})
	w = buf.EncodeField(w, 2, func (w []byte) []byte {
		return buf.EncodeBool(w, v.Field2)
	})
	w = buf.EncodeField(w, 3, func (w []byte) []byte {
		return v.Field3.Encode(w)
	})
	w = buf.EncodeU32(w, buf.EndMarker)
	return nil
}

var _ buf.Decode = (*Sample_Three[T])(nil)

func (v *Sample_Three[T]) Decode(r []byte) ([]byte, error) {
	foundField1 := false
	foundField2 := false
	foundField3 := false

	for len(r) > 0 {
		r2, id, err := buf.DecodeID(r)
		if err != nil {
			return nil, err
		}
		r = r2

		switch id {
			case 1:
				r2, value, err := buf.DecodeU32(r)
				if err != nil {
					return nil, err
				}
				r = r2
				v.Field1 = value
				foundField1 = true
			case 2:
				r2, value, err := buf.DecodeBool(r)
				if err != nil {
					return nil, err
				}
				r = r2
				v.Field2 = value
				foundField2 = true
			case 3:
				r2, value, err := func(r []byte) ([]byte, T, error) {
					var value T
					return value.Decode(r)
				}(r)

				if err != nil {
					return nil, err
				}
				r = r2
				v.Field3 = value
				foundField3 = true
			case buf.EndMarker:
				break
		}
	}

	if !foundField1 {
		return nil, buf.MissingFieldError{
			ID:    1,
			Field: ""field1"",
		}
	}
	if !foundField2 {
		return nil, buf.MissingFieldError{
			ID:    2,
			Field: ""field2"",
		}
	}
	if !foundField3 {
		return nil, buf.MissingFieldError{
			ID:    3,
			Field: ""field3"",
		}
	}

	return r, nil
}

var _ buf.Size = (*Sample_Three[T])(nil)

func (v *Sample_Three[T]) Size() int {
	size := 0
	size += buf.SizeField(1, func() int {
		return buf.SizeU32(v.Field1)
	})
	size += buf.SizeField(2, func() int {
		return buf.SizeBool(v.Field2)
	})
	size += buf.SizeField(3, func() int {
		return v.Field3.Size()
	})
	size += buf.EndMarkerSize
	return size
}
") = true.
Proof. vm_cast_no_check (eq_refl true). Qed.

(** tests/inputs/import_basic.mabo *)
Example go_import_basic : renders (tx "use other::schema::Sample;
use second::submodule;
")
 (tx "--- sample.go

// Code generated by mabo-go (v0.1.0). DO NOT EDIT.

package sample

import (
	mabo ""github.com/dnaka91/mabo-go""
	buf ""github.com/dnaka91/mabo-go/buf""
)
") = true.
Proof. vm_cast_no_check (eq_refl true). Qed.

(** tests/inputs/mixed.mabo *)
Example go_mixed : renders (tx "/// Schema with a bit of everything, to try out more complex scenarios.

/// Basic user information.
///
/// Uses various other `structs` and `enums` to compose the information
/// in a **type safe** way.
struct User {
    name: FullName @1,
    /// Physical address, might not be specified by the user.
    address: option<Address> @2,
    age: u8 @3,
    birthday: birthday::DayOfBirth @4,
}

/// Full name of a user.
struct FullName {
    first: string @1,
    middle: option<string> @2,
    last: string @3,
}

/// Simple alias for convenience.
///
/// - Might be easier to remember.
/// - Often referenced as this.
type Name = FullName;

struct Address {
    /// Street name.
    street: string @1,
    /// Number of the house in the street.
    house_no: HouseNumber @2,
    city: string @3,
}

/// The number on the house.
///
/// More details can be found at [Wikipedia](https://en.wikipedia.org/wiki/House_numbering).
enum HouseNumber {
    /// Digit only number.
    Digit(u16 @1) @1,
    /// Mixed _number_ with characters like `1a`.
    Text(string @1) @2,
}

/// Probably the max age of a human, currently.
const MAX_AGE: u8 = 120;


/// Details for defining birthdays.
mod birthday {
    /// As the name suggests, specifies details about birthdays.
    enum DayOfBirth {
        Specific {
            year: u16 @1,
            month: Month @2,
            day: u8 @3,
        } @1,
        /// The user didn't want to say.
        Secret {
            /// Optional info from the user about why they didn't want to
            /// reveal their birthday.
            reason: option<string> @1,
        } @2,
        /// We never asked and nobody knows.
        Unknown @3,
    }

    /// Let's assume we only have details of people born **after** this year.
    const MIN_YEAR: u16 = 1900;

    /// Absolute maximum for a day, but might be even less depending
    /// on the month.
    const MAX_DAY: u8 = 31;

    /// The month of the year.
    enum Month {
        January @1,
        February @2,
        March @3,
        April @4,
        May @5,
        June @6,
        July @7,
        August @8,
        September @9,
        October @10,
        November @11,
        December @12,
    }
}
")
 (tx "--- sample.go

// Code generated by mabo-go (v0.1.0). DO NOT EDIT.

package sample

import (
	mabo ""github.com/dnaka91/mabo-go""
	buf ""github.com/dnaka91/mabo-go/buf""
)

// Basic user information.
// 
// Uses various other `structs` and `enums` to compose the information
// in a **type safe** way.
type User struct {
	Name FullName
	// Physical address, might not be specified by the user.
	Address *Address
	Age uint8
	Birthday birthday.DayOfBirth
}

func NewUser(
	name FullName,
	address *Address,
	age uint8,
	birthday birthday.DayOfBirth,
) User {
	return User{
		Name: name,
		Address: address,
		Age: age,
		Birthday: birthday,
	}
}

var _ buf.Encode = (*User)(nil)

func (v *User) Encode(w []byte) []byte {
	w = buf.EncodeField(w, 1, func (w []byte) []byte {
		return v.Name.Encode(w)
	})
	w = buf.EncodeFieldOption[Address](w, 2, &v.Address, func (w []byte, v Address) []byte {
		return v.Encode(w)
	})
	w = buf.EncodeField(w, 3, func (w []byte) []byte {
		return buf.EncodeU8(w, v.Age)
	})
	w = buf.EncodeField(w, 4, func (w []byte) []byte {
		return v.Birthday.Encode(w)
	})
	w = buf.EncodeU32(w, buf.EndMarker)
	return w
}

var _ buf.Decode = (*User)(nil)

func (v *User) Decode(r []byte) ([]byte, error) {
	foundName := false
	foundAddress := false
	foundAge := false
	foundBirthday := false

	for len(r) > 0 {
		r2, id, err := buf.DecodeID(r)
		if err != nil {
			return nil, err
		}
		r = r2

		switch id {
			case 1:
				r2, value, err := func(r []byte) ([]byte, FullName, error) {
					var value FullName
					return value.Decode(r)
				}(r)

				if err != nil {
					return nil, err
				}
				r = r2
				v.Name = value
				foundName = true
			case 2:
				r2, value, err := buf.DecodeOption[Address](r, func(r []byte) ([]byte, Address, error) {
					return func(r []byte) ([]byte, Address, error) {
						var value Address
						return value.Decode(r)
					}(r)

				})
				if err != nil {
					return nil, err
				}
				r = r2
				v.Address = value
				foundAddress = true
			case 3:
				r2, value, err := buf.DecodeU8(r)
				if err != nil {
					return nil, err
				}
				r = r2
				v.Age = value
				foundAge = true
			case 4:
				r2, value, err := func(r []byte) ([]byte, birthday.DayOfBirth, error) {
					var value birthday.DayOfBirth
					return value.Decode(r)
				}(r)

				if err != nil {
					return nil, err
				}
				r = r2
				v.Birthday = value
				foundBirthday = true
			case buf.EndMarker:
				break
		}
	}

	if !foundName {
		return nil, buf.MissingFieldError{
			ID:    1,
			Field: ""name"",
		}
	}
	if !foundAddress {
		return nil, buf.MissingFieldError{
			ID:    2,
			Field: ""address"",
		}
	}
	if !foundAge {
		return nil, buf.MissingFieldError{
			ID:    3,
			Field: ""age"",
		}
	}
	if !foundBirthday {
		return nil, buf.MissingFieldError{
			ID:    4,
			Field: ""birthday"",
		}
	}

	return r, nil
}

var _ buf.Size = (*User)(nil)

func (v *User) Size() int {
	size := 0
	size += buf.SizeField(1, func() int {
		return v.Name.Size()
	})
	size += buf.SizeFieldOption[Address](2, &v.Address, func (v Address) int {
		return v.Size()
	})
	size += buf.SizeField(3, func() int {
		return buf.SizeU8(v.Age)
	})
	size += buf.SizeField(4, func() int {
		return v.Birthday.Size()
	})
	size += buf.EndMarkerSize
	return size
}

// Full name of a user.
type FullName struct {
	First string
	Middle *string
	Last string
}

func NewFullName(
	first string,
	middle *string,
	last string,
) FullName {
	return FullName{
		First: first,
		Middle: middle,
		Last: last,
	}
}

var _ buf.Encode = (*FullName)(nil)

func (v *FullName) Encode(w []byte) []byte {
	w = buf.EncodeField(w, 1, func (w []byte) []byte {
		return buf.EncodeString(w, v.First)
	})
	w = buf.EncodeFieldOption[string](w, 2, &v.Middle, func (w []byte, v string) []byte {
		return buf.EncodeString(w, v)
	})
	w = buf.EncodeField(w, 3, func (w []byte) []byte {
		return buf.EncodeString(w, v.Last)
	})
	w = buf.EncodeU32(w, buf.EndMarker)
	return w
}

var _ buf.Decode = (*FullName)(nil)

func (v *FullName) Decode(r []byte) ([]byte, error) {
	foundFirst := false
	foundMiddle := false
	foundLast := false

	for len(r) > 0 {
		r2, id, err := buf.DecodeID(r)
		if err != nil {
			return nil, err
		}
		r = r2

		switch id {
			case 1:
				r2, value, err := buf.DecodeString(r)
				if err != nil {
					return nil, err
				}
				r = r2
				v.First = value
				foundFirst = true
			case 2:
				r2, value, err := buf.DecodeOption[string](r, func(r []byte) ([]byte, string, error) {
					return buf.DecodeString(r)
				})
				if err != nil {
					return nil, err
				}
				r = r2
				v.Middle = value
				foundMiddle = true
			case 3:
				r2, value, err := buf.DecodeString(r)
				if err != nil {
					return nil, err
				}
				r = r2
				v.Last = value
				foundLast = true
			case buf.EndMarker:
				break
		}
	}

	if !foundFirst {
		return nil, buf.MissingFieldError{
			ID:    1,
			Field: ""first"",
		}
	}
	if !foundMiddle {
		return nil, buf.MissingFieldError{
			ID:    2,
			Field: ""middle"",
		}
	}
	if !foundLast {
		return nil, buf.MissingFieldError{
			ID:    3,
			Field: ""last"",
		}
	}

	return r, nil
}

var _ buf.Size = (*FullName)(nil)

func (v *FullName) Size() int {
	size := 0
	size += buf.SizeField(1, func() int {
		return buf.SizeString(v.First)
	})
	size += buf.SizeFieldOption[string](2, &v.Middle, func (v string) int {
		return buf.SizeString(v)
	})
	size += buf.SizeField(3, func() int {
		return buf.SizeString(v.Last)
	})
	size += buf.EndMarkerSize
	return size
}

// Simple alias for convenience.
// 
// - Might be easier to remember.
// - Often referenced as this.
type Name FullName

type Address struct {
	// Street name.
	Street string
	// Number of the house in the street.
	HouseNo HouseNumber
	City string
}

func NewAddress(
	street string,
	houseNo HouseNumber,
	city string,
) Address {
	return Address{
		Street: street,
		HouseNo: houseNo,
		City: city,
	}
}

var _ buf.Encode = (*Address)(nil)

func (v *Address) Encode(w []byte) []byte {
	w = buf.EncodeField(w, 1, func (w []byte) []byte {
		return buf.EncodeString(w, v.Street)
	})
	w = buf.EncodeField(w, 2, func (w []byte) []byte {
		return v.HouseNo.Encode(w)
	})
	w = buf.EncodeField(w, 3, func (w []byte) []byte {
		return buf.EncodeString(w, v.City)
	})
	w = buf.EncodeU32(w, buf.EndMarker)
	return w
}

var _ buf.Decode = (*Address)(nil)

func (v *Address) Decode(r []byte) ([]byte, error) {
	foundStreet := false
	foundHouseNo := false
	foundCity := false

	for len(r) > 0 {
		r2, id, err := buf.DecodeID(r)
		if err != nil {
			return nil, err
		}
		r = r2

		switch id {
			case 1:
				r2, value, err := buf.DecodeString(r)
				if err != nil {
					return nil, err
				}
				r = r2
				v.Street = value
				foundStreet = true
			case 2:
				r2, value, err := func(r []byte) ([]byte, HouseNumber, error) {
					var value HouseNumber
					return value.Decode(r)
				}(r)

				if err != nil {
					return nil, err
				}
				r = r2
				v.HouseNo = value
				foundHouseNo = true
			case 3:
				r2, value, err := buf.DecodeString(r)
				if err != nil {
					return nil, err
				}
				r = r2
				v.City = value
				foundCity = true
			case buf.EndMarker:
				break
		}
	}

	if !foundStreet {
		return nil, buf.MissingFieldError{
			ID:    1,
			Field: ""street"",
		}
	}
	if !foundHouseNo {
		return nil, buf.MissingFieldError{
			ID:    2,
			Field: ""house_no"",
		}
	}
	if !foundCity {
		return nil, buf.MissingFieldError{
			ID:    3,
			Field: ""city"",
		}
	}

	return r, nil
}

var _ buf.Size = (*Address)(nil)

func (v *Address) Size() int {
	size := 0
	size += buf.SizeField(1, func() int {
		return buf.SizeString(v.Street)
	})
	size += buf.SizeField(2, func() int {
		return v.HouseNo.Size()
	})
	size += buf.SizeField(3, func() int {
		return buf.SizeString(v.City)
	})
	size += buf.EndMarkerSize
	return size
}

type HouseNumberVariant interface {
	 sealed()
}

// The number on the house.
// 
// More details can be found at [Wikipedia](https://en.wikipedia.org/wiki/House_numbering).
type HouseNumber HouseNumberVariant

// Digit only number.
type HouseNumber_Digit struct {
	N0 uint16
}

func (v HouseNumber_Digit) sealed() {}

func NewHouseNumber_Digit(
	n0 uint16,
) HouseNumber_Digit {
	return HouseNumber_Digit{
		N0: n0,
	}
}

var _ buf.Encode = (*HouseNumber_Digit)(nil)

func (v *HouseNumber_Digit) Encode(w []byte) []byte {
	w = buf.EncodeField(w, 1, func (w []byte) []byte {
		return buf.EncodeU16(w, v.N0)
	})
	w = buf.EncodeU32(w, buf.EndMarker)
	return nil
}

var _ buf.Decode = (*HouseNumber_Digit)(nil)

func (v *HouseNumber_Digit) Decode(r []byte) ([]byte, error) {
	foundN0 := false

	for len(r) > 0 {
		r2, id, err := buf.DecodeID(r)
		if err != nil {
			return nil, err
		}
		r = r2

		switch id {
			case 1:
				r2, value, err := buf.DecodeU16(r)
				if err != nil {
					return nil, err
				}
				r = r2
				v.N0 = value
				foundN0 = true
			case buf.EndMarker:
				break
		}
	}

	if !foundN0 {
		return nil, buf.MissingFieldError{
			ID:    1,
			Field: """",
		}
	}

	return r, nil
}

var _ buf.Size = (*HouseNumber_Digit)(nil)

func (v *HouseNumber_Digit) Size() int {
	size := 0
	size += buf.SizeField(1, func() int {
		return buf.SizeU16(v.N0)
	})
	size += buf.EndMarkerSize
	return size
}

// Mixed _number_ with characters like `1a`.
type HouseNumber_Text struct {
	N0 string
}

func (v HouseNumber_Text) sealed() {}

func NewHouseNumber_Text(
	n0 string,
) HouseNumber_Text {
	return HouseNumber_Text{
		N0: n0,
	}
}

var _ buf.Encode = (*HouseNumber_Text)(nil)

func (v *HouseNumber_Text) Encode(w []byte) []byte {
	w = buf.EncodeField(w, 1, func (w []byte) []byte {
		return buf.EncodeString(w, v.N0)
	})
	w = buf.EncodeU32(w, buf.EndMarker)
	return nil
}

var _ buf.Decode = (*HouseNumber_Text)(nil)

func (v *HouseNumber_Text) Decode(r []byte) ([]byte, error) {
	foundN0 := false

	for len(r) > 0 {
		r2, id, err := buf.DecodeID(r)
		if err != nil {
			return nil, err
		}
		r = r2

		switch id {
			case 1:
				r2, value, err := buf.DecodeString(r)
				if err != nil {
					return nil, err
				}
				r = r2
				v.N0 = value
				foundN0 = true
			case buf.EndMarker:
				break
		}
	}

	if !foundN0 {
		return nil, buf.MissingFieldError{
			ID:    1,
			Field: """",
		}
	}

	return r, nil
}

var _ buf.Size = (*HouseNumber_Text)(nil)

func (v *HouseNumber_Text) Size() int {
	size := 0
	size += buf.SizeField(1, func() int {
		return buf.SizeString(v.N0)
	})
	size += buf.EndMarkerSize
	return size
}

// Probably the max age of a human, currently.
const MaxAge uint8 = 120
--- sample/birthday.go

// Code generated by mabo-go (v0.1.0). DO NOT EDIT.

// Details for defining birthdays.
package birthday

import (
	mabo ""github.com/dnaka91/mabo-go""
	buf ""github.com/dnaka91/mabo-go/buf""
)

type DayOfBirthVariant interface {
	 sealed()
}

// As the name suggests, specifies details about birthdays.
type DayOfBirth DayOfBirthVariant

type DayOfBirth_Specific struct {
	Year uint16
	Month Month
	Day uint8
}

func (v DayOfBirth_Specific) sealed() {}

func NewDayOfBirth_Specific(
	year uint16,
	month Month,
	day uint8,
) DayOfBirth_Specific {
	return DayOfBirth_Specific{
		Year: year,
		Month: month,
		Day: day,
	}
}

var _ buf.Encode = (*DayOfBirth_Specific)(nil)

func (v *DayOfBirth_Specific) Encode(w []byte) []byte {
	w = buf.EncodeField(w, 1, func (w []byte) []byte {
		return buf.EncodeU16(w, v.Year)
	})
	w = buf.EncodeField(w, 2, func (w []byte) []byte {
		return v.Month.Encode(w)
	})
	w = buf.EncodeField(w, 3, func (w []byte) []byte {
		return buf.EncodeU8(w, v.Day)
	})
	w = buf.EncodeU32(w, buf.EndMarker)
	return nil
}

var _ buf.Decode = (*DayOfBirth_Specific)(nil)

func (v *DayOfBirth_Specific) Decode(r []byte) ([]byte, error) {
	foundYear := false
	foundMonth := false
	foundDay := false

	for len(r) > 0 {
		r2, id, err := buf.DecodeID(r)
		if err != nil {
			return nil, err
		}
		r = r2

		switch id {
			case 1:
				r2, value, err := buf.DecodeU16(r)
				if err != nil {
					return nil, err
				}
				r = r2
				v.Year = value
				foundYear = true
			case 2:
				r2, value, err := func(r []byte) ([]byte, Month, error) {
					var value Month
					return value.Decode(r)
				}(r)

				if err != nil {
					return nil, err
				}
				r = r2
				v.Month = value
				foundMonth = true
			case 3:
				r2, value, err := buf.DecodeU8(r)
				if err != nil {
					return nil, err
				}
				r = r2
				v.Day = value
				foundDay = true
			case buf.EndMarker:
				break
		}
	}

	if !foundYear {
		return nil, buf.MissingFieldError{
			ID:    1,
			Field: ""year"",
		}
	}
	if !foundMonth {
		return nil, buf.MissingFieldError{
			ID:    2,
			Field: ""month"",
		}
	}
	if !foundDay {
		return nil, buf.MissingFieldError{
			ID:    3,
			Field: ""day"",
		}
	}

	return r, nil
}

var _ buf.Size = (*DayOfBirth_Specific)(nil)

func (v *DayOfBirth_Specific) Size() int {
	size := 0
	size += buf.SizeField(1, func() int {
		return buf.SizeU16(v.Year)
	})
	size += buf.SizeField(2, func() int {
		return v.Month.Size()
	})
	size += buf.SizeField(3, func() int {
		return buf.SizeU8(v.Day)
	})
	size += buf.EndMarkerSize
	return size
}

// The user didn't want to say.
type DayOfBirth_Secret struct {
	// Optional info from the user about why they didn't want to
	// reveal their birthday.
	Reason *string
}

func (v DayOfBirth_Secret) sealed() {}

func NewDayOfBirth_Secret(
	reason *string,
) DayOfBirth_Secret {
	return DayOfBirth_Secret{
		Reason: reason,
	}
}

var _ buf.Encode = (*DayOfBirth_Secret)(nil)

func (v *DayOfBirth_Secret) Encode(w []byte) []byte {
	w = buf.EncodeFieldOption[string](w, 1, &v.Reason, func (w []byte, v string) []byte {
		return buf.EncodeString(w, v)
	})
	w = buf.EncodeU32(w, buf.EndMarker)
	return nil
}

var _ buf.Decode = (*DayOfBirth_Secret)(nil)

func (v *DayOfBirth_Secret) Decode(r []byte) ([]byte, error) {
	foundReason := false

	for len(r) > 0 {
		r2, id, err := buf.DecodeID(r)
		if err != nil {
			return nil, err
		}
		r = r2

		switch id {
			case 1:
				r2, value, err := buf.DecodeOption[string](r, func(r []byte) ([]byte, string, error) {
					return buf.DecodeString(r)
				})
				if err != nil {
					return nil, err
				}
				r = r2
				v.Reason = value
				foundReason = true
			case buf.EndMarker:
				break
		}
	}

	if !foundReason {
		return nil, buf.MissingFieldError{
			ID:    1,
			Field: ""reason"",
		}
	}

	return r, nil
}

var _ buf.Size = (*DayOfBirth_Secret)(nil)

func (v *DayOfBirth_Secret) Size() int {
	size := 0
	size += buf.SizeFieldOption[string](1, &v.Reason, func (v string) int {
		return buf.SizeString(v)
	})
	size += buf.EndMarkerSize
	return size
}

// We never asked and nobody knows.
type DayOfBirth_Unknown struct{}

func (v DayOfBirth_Unknown) sealed() {}

func NewDayOfBirth_Unknown() DayOfBirth_Unknown {
	return DayOfBirth_Unknown{}
}

var _ buf.Encode = (*DayOfBirth_Unknown)(nil)

func (v *DayOfBirth_Unknown) Encode(w []byte) []byte {
	return nil
}

var _ buf.Decode = (*DayOfBirth_Unknown)(nil)

func (v *DayOfBirth_Unknown) Decode(r []byte) ([]byte, error) {

	for len(r) > 0 {
		r2, id, err := buf.DecodeID(r)
		if err != nil {
			return nil, err
		}
		r = r2

		switch id {
			case buf.EndMarker:
				break
		}
	}


	return r, nil
}

var _ buf.Size = (*DayOfBirth_Unknown)(nil)

func (v *DayOfBirth_Unknown) Size() int {
	size := 0
	return size
}

// Let's assume we only have details of people born **after** this year.
const MinYear uint16 = 1900
// Absolute maximum for a day, but might be even less depending
// on the month.
const MaxDay uint8 = 31
type MonthVariant interface {
	 sealed()
}

// The month of the year.
type Month MonthVariant

type Month_January struct{}

func (v Month_January) sealed() {}

func NewMonth_January() Month_January {
	return Month_January{}
}

var _ buf.Encode = (*Month_January)(nil)

func (v *Month_January) Encode(w []byte) []byte {
	return nil
}

var _ buf.Decode = (*Month_January)(nil)

func (v *Month_January) Decode(r []byte) ([]byte, error) {

	for len(r) > 0 {
		r2, id, err := buf.DecodeID(r)
		if err != nil {
			return nil, err
		}
		r = r2

		switch id {
			case buf.EndMarker:
				break
		}
	}


	return r, nil
}

var _ buf.Size = (*Month_January)(nil)

func (v *Month_January) Size() int {
	size := 0
	return size
}

type Month_February struct{}

func (v Month_February) sealed() {}

func NewMonth_February() Month_February {
	return Month_February{}
}

var _ buf.Encode = (*Month_February)(nil)

func (v *Month_February) Encode(w []byte) []byte {
	return nil
}

var _ buf.Decode = (*Month_February)(nil)

func (v *Month_February) Decode(r []byte) ([]byte, error) {

	for len(r) > 0 {
		r2, id, err := buf.DecodeID(r)
		if err != nil {
			return nil, err
		}
		r = r2

		switch id {
			case buf.EndMarker:
				break
		}
	}


	return r, nil
}

var _ buf.Size = (*Month_February)(nil)

func (v *Month_February) Size() int {
	size := 0
	return size
}

type Month_March struct{}

func (v Month_March) sealed() {}

func NewMonth_March() Month_March {
	return Month_March{}
}

var _ buf.Encode = (*Month_March)(nil)

func (v *Month_March) Encode(w []byte) []byte {
	return nil
}

var _ buf.Decode = (*Month_March)(nil)

func (v *Month_March) Decode(r []byte) ([]byte, error) {

	for len(r) > 0 {
		r2, id, err := buf.DecodeID(r)
		if err != nil {
			return nil, err
		}
		r = r2

		switch id {
			case buf.EndMarker:
				break
		}
	}


	return r, nil
}

var _ buf.Size = (*Month_March)(nil)

func (v *Month_March) Size() int {
	size := 0
	return size
}

type Month_April struct{}

func (v Month_April) sealed() {}

func NewMonth_April() Month_April {
	return Month_April{}
}

var _ buf.Encode = (*Month_April)(nil)

func (v *Month_April) Encode(w []byte) []byte {
	return nil
}

var _ buf.Decode = (*Month_April)(nil)

func (v *Month_April) Decode(r []byte) ([]byte, error) {

	for len(r) > 0 {
		r2, id, err := buf.DecodeID(r)
		if err != nil {
			return nil, err
		}
		r = r2

		switch id {
			case buf.EndMarker:
				break
		}
	}


	return r, nil
}

var _ buf.Size = (*Month_April)(nil)

func (v *Month_April) Size() int {
	size := 0
	return size
}

type Month_May struct{}

func (v Month_May) sealed() {}

func NewMonth_May() Month_May {
	return Month_May{}
}

var _ buf.Encode = (*Month_May)(nil)

func (v *Month_May) Encode(w []byte) []byte {
	return nil
}

var _ buf.Decode = (*Month_May)(nil)

func (v *Month_May) Decode(r []byte) ([]byte, error) {

	for len(r) > 0 {
		r2, id, err := buf.DecodeID(r)
		if err != nil {
			return nil, err
		}
		r = r2

		switch id {
			case buf.EndMarker:
				break
		}
	}


	return r, nil
}

var _ buf.Size = (*Month_May)(nil)

func (v *Month_May) Size() int {
	size := 0
	return size
}

type Month_June struct{}

func (v Month_June) sealed() {}

func NewMonth_June() Month_June {
	return Month_June{}
}

var _ buf.Encode = (*Month_June)(nil)

func (v *Month_June) Encode(w []byte) []byte {
	return nil
}

var _ buf.Decode = (*Month_June)(nil)

func (v *Month_June) Decode(r []byte) ([]byte, error) {

	for len(r) > 0 {
		r2, id, err := buf.DecodeID(r)
		if err != nil {
			return nil, err
		}
		r = r2

		switch id {
			case buf.EndMarker:
				break
		}
	}


	return r, nil
}

var _ buf.Size = (*Month_June)(nil)

func (v *Month_June) Size() int {
	size := 0
	return size
}

type Month_July struct{}

func (v Month_July) sealed() {}

func NewMonth_July() Month_July {
	return Month_July{}
}

var _ buf.Encode = (*Month_July)(nil)

func (v *Month_July) Encode(w []byte) []byte {
	return nil
}

var _ buf.Decode = (*Month_July)(nil)

func (v *Month_July) Decode(r []byte) ([]byte, error) {

	for len(r) > 0 {
		r2, id, err := buf.DecodeID(r)
		if err != nil {
			return nil, err
		}
		r = r2

		switch id {
			case buf.EndMarker:
				break
		}
	}


	return r, nil
}

var _ buf.Size = (*Month_July)(nil)

func (v *Month_July) Size() int {
	size := 0
	return size
}

type Month_August struct{}

func (v Month_August) sealed() {}

func NewMonth_August() Month_August {
	return Month_August{}
}

var _ buf.Encode = (*Month_August)(nil)

func (v *Month_August) Encode(w []byte) []byte {
	return nil
}

var _ buf.Decode = (*Month_August)(nil)

func (v *Month_August) Decode(r []byte) ([]byte, error) {

	for len(r) > 0 {
		r2, id, err := buf.DecodeID(r)
		if err != nil {
			return nil, err
		}
		r = r2

		switch id {
			case buf.EndMarker:
				break
		}
	}


	return r, nil
}

var _ buf.Size = (*Month_August)(nil)

func (v *Month_August) Size() int {
	size := 0
	return size
}

type Month_September struct{}

func (v Month_September) sealed() {}

func NewMonth_September() Month_September {
	return Month_September{}
}

var _ buf.Encode = (*Month_September)(nil)

func (v *Month_September) Encode(w []byte) []byte {
	return nil
}

var _ buf.Decode = (*Month_September)(nil)

func (v *Month_September) Decode(r []byte) ([]byte, error) {

	for len(r) > 0 {
		r2, id, err := buf.DecodeID(r)
		if err != nil {
			return nil, err
		}
		r = r2

		switch id {
			case buf.EndMarker:
				break
		}
	}


	return r, nil
}

var _ buf.Size = (*Month_September)(nil)

func (v *Month_September) Size() int {
	size := 0
	return size
}

type Month_October struct{}

func (v Month_October) sealed() {}

func NewMonth_October() Month_October {
	return Month_October{}
}

var _ buf.Encode = (*Month_October)(nil)

func (v *Month_October) Encode(w []byte) []byte {
	return nil
}

var _ buf.Decode = (*Month_October)(nil)

func (v *Month_October) Decode(r []byte) ([]byte, error) {

	for len(r) > 0 {
		r2, id, err := buf.DecodeID(r)
		if err != nil {
			return nil, err
		}
		r = r2

		switch id {
			case buf.EndMarker:
				break
		}
	}


	return r, nil
}

var _ buf.Size = (*Month_October)(nil)

func (v *Month_October) Size() int {
	size := 0
	return size
}

type Month_November struct{}

func (v Month_November) sealed() {}

func NewMonth_November() Month_November {
	return Month_November{}
}

var _ buf.Encode = (*Month_November)(nil)

func (v *Month_November) Encode(w []byte) []byte {
	return nil
}

var _ buf.Decode = (*Month_November)(nil)

func (v *Month_November) Decode(r []byte) ([]byte, error) {

	for len(r) > 0 {
		r2, id, err := buf.DecodeID(r)
		if err != nil {
			return nil, err
		}
		r = r2

		switch id {
			case buf.EndMarker:
				break
		}
	}


	return r, nil
}

var _ buf.Size = (*Month_November)(nil)

func (v *Month_November) Size() int {
	size := 0
	return size
}

type Month_December struct{}

func (v Month_December) sealed() {}

func NewMonth_December() Month_December {
	return Month_December{}
}

var _ buf.Encode = (*Month_December)(nil)

func (v *Month_December) Encode(w []byte) []byte {
	return nil
}

var _ buf.Decode = (*Month_December)(nil)

func (v *Month_December) Decode(r []byte) ([]byte, error) {

	for len(r) > 0 {
		r2, id, err := buf.DecodeID(r)
		if err != nil {
			return nil, err
		}
		r = r2

		switch id {
			case buf.EndMarker:
				break
		}
	}


	return r, nil
}

var _ buf.Size = (*Month_December)(nil)

func (v *Month_December) Size() int {
	size := 0
	return size
}
") = true.
Proof. vm_cast_no_check (eq_refl true). Qed.

(** tests/inputs/module_basic.mabo *)
Example go_module_basic : renders (tx "mod a {
    /// Inner module
    mod b {
        enum Sample {
            One @1,
        }
    }

    struct Sample {
        value: u32 @1,
        inner: b::Sample @2,
    }
}
")
 (tx "--- sample.go

// Code generated by mabo-go (v0.1.0). DO NOT EDIT.

package sample

import (
	mabo ""github.com/dnaka91/mabo-go""
	buf ""github.com/dnaka91/mabo-go/buf""
)

--- sample/a.go

// Code generated by mabo-go (v0.1.0). DO NOT EDIT.

package a

import (
	mabo ""github.com/dnaka91/mabo-go""
	buf ""github.com/dnaka91/mabo-go/buf""
)

type Sample struct {
	Value uint32
	Inner b.Sample
}

func NewSample(
	value uint32,
	inner b.Sample,
) Sample {
	return Sample{
		Value: value,
		Inner: inner,
	}
}

var _ buf.Encode = (*Sample)(nil)

func (v *Sample) Encode(w []byte) []byte {
	w = buf.EncodeField(w, 1, func (w []byte) []byte {
		return buf.EncodeU32(w, v.Value)
	})
	w = buf.EncodeField(w, 2, func (w []byte) []byte {
		return v.Inner.Encode(w)
	})
	w = buf.EncodeU32(w, buf.EndMarker)
	return w
}

var _ buf.Decode = (*Sample)(nil)

func (v *Sample) Decode(r []byte) ([]byte, error) {
	foundValue := false
	foundInner := false

	for len(r) > 0 {
		r2, id, err := buf.DecodeID(r)
		if err != nil {
			return nil, err
		}
		r = r2

		switch id {
			case 1:
				r2, value, err := buf.DecodeU32(r)
				if err != nil {
					return nil, err
				}
				r = r2
				v.Value = value
				foundValue = true
			case 2:
				r2, value, err := func(r []byte) ([]byte, b.Sample, error) {
					var value b.Sample
					return value.Decode(r)
				}(r)

				if err != nil {
					return nil, err
				}
				r = r2
				v.Inner = value
				foundInner = true
			case buf.EndMarker:
				break
		}
	}

	if !foundValue {
		return nil, buf.MissingFieldError{
			ID:    1,
			Field: ""value"",
		}
	}
	if !foundInner {
		return nil, buf.MissingFieldError{
			ID:    2,
			Field: ""inner"",
		}
	}

	return r, nil
}

var _ buf.Size = (*Sample)(nil)

func (v *Sample) Size() int {
	size := 0
	size += buf.SizeField(1, func() int {
		return buf.SizeU32(v.Value)
	})
	size += buf.SizeField(2, func() int {
		return v.Inner.Size()
	})
	size += buf.EndMarkerSize
	return size
}

--- sample/a/b.go

// Code generated by mabo-go (v0.1.0). DO NOT EDIT.

// Inner module
package b

import (
	mabo ""github.com/dnaka91/mabo-go""
	buf ""github.com/dnaka91/mabo-go/buf""
)

type SampleVariant interface {
	 sealed()
}

type Sample SampleVariant

type Sample_One struct{}

func (v Sample_One) sealed() {}

func NewSample_One() Sample_One {
	return Sample_One{}
}

var _ buf.Encode = (*Sample_One)(nil)

func (v *Sample_One) Encode(w []byte) []byte {
	return nil
}

var _ buf.Decode = (*Sample_One)(nil)

func (v *Sample_One) Decode(r []byte) ([]byte, error) {

	for len(r) > 0 {
		r2, id, err := buf.DecodeID(r)
		if err != nil {
			return nil, err
		}
		r = r2

		switch id {
			case buf.EndMarker:
				break
		}
	}


	return r, nil
}

var _ buf.Size = (*Sample_One)(nil)

func (v *Sample_One) Size() int {
	size := 0
	return size
}
") = true.
Proof. vm_cast_no_check (eq_refl true). Qed.

(** tests/inputs/optional_ids.mabo *)
Example go_optional_ids : renders (tx "struct SampleNamed {
    field1: u32,
    field2: u32 @100,
    field3: u32,
}

struct SampleUnnamed(u32, u32 @100, u32)

enum SampleEnum {
    Named {
        field1: u32,
        field2: u32 @100,
        field3: u32,
    },
    Unit @50,
    Unnamed(u32, u32 @100, u32),
}
")
 (tx "--- sample.go

// Code generated by mabo-go (v0.1.0). DO NOT EDIT.

package sample

import (
	mabo ""github.com/dnaka91/mabo-go""
	buf ""github.com/dnaka91/mabo-go/buf""
)

type SampleNamed struct {
	Field1 uint32
	Field2 uint32
	Field3 uint32
}

func NewSampleNamed(
	field1 uint32,
	field2 uint32,
	field3 uint32,
) SampleNamed {
	return SampleNamed{
		Field1: field1,
		Field2: field2,
		Field3: field3,
	}
}

var _ buf.Encode = (*SampleNamed)(nil)

func (v *SampleNamed) Encode(w []byte) []byte {
	w = buf.EncodeField(w, 1, func (w []byte) []byte {
		return buf.EncodeU32(w, v.Field1)
	})
	w = buf.EncodeField(w, 100, func (w []byte) []byte {
		return buf.EncodeU32(w, v.Field2)
	})
	w = buf.EncodeField(w, 101, func (w []byte) []byte {
		return buf.EncodeU32(w, v.Field3)
	})
	w = buf.EncodeU32(w, buf.EndMarker)
	return w
}

var _ buf.Decode = (*SampleNamed)(nil)

func (v *SampleNamed) Decode(r []byte) ([]byte, error) {
	foundField1 := false
	foundField2 := false
	foundField3 := false

	for len(r) > 0 {
		r2, id, err := buf.DecodeID(r)
		if err != nil {
			return nil, err
		}
		r = r2

		switch id {
			case 1:
				r2, value, err := buf.DecodeU32(r)
				if err != nil {
					return nil, err
				}
				r = r2
				v.Field1 = value
				foundField1 = true
			case 100:
				r2, value, err := buf.DecodeU32(r)
				if err != nil {
					return nil, err
				}
				r = r2
				v.Field2 = value
				foundField2 = true
			case 101:
				r2, value, err := buf.DecodeU32(r)
				if err != nil {
					return nil, err
				}
				r = r2
				v.Field3 = value
				foundField3 = true
			case buf.EndMarker:
				break
		}
	}

	if !foundField1 {
		return nil, buf.MissingFieldError{
			ID:    1,
			Field: ""field1"",
		}
	}
	if !foundField2 {
		return nil, buf.MissingFieldError{
			ID:    100,
			Field: ""field2"",
		}
	}
	if !foundField3 {
		return nil, buf.MissingFieldError{
			ID:    101,
			Field: ""field3"",
		}
	}

	return r, nil
}

var _ buf.Size = (*SampleNamed)(nil)

func (v *SampleNamed) Size() int {
	size := 0
	size += buf.SizeField(1, func() int {
		return buf.SizeU32(v.Field1)
	})
	size += buf.SizeField(100, func() int {
		return buf.SizeU32(v.Field2)
	})
	size += buf.SizeField(101, func() int {
		return buf.SizeU32(v.Field3)
	})
	size += buf.EndMarkerSize
	return size
}

type SampleUnnamed struct {
	N0 uint32
	N1 uint32
	N2 uint32
}

func NewSampleUnnamed(
	n0 uint32,
	n1 uint32,
	n2 uint32,
) SampleUnnamed {
	return SampleUnnamed{
		N0: n0,
		N1: n1,
		N2: n2,
	}
}

var _ buf.Encode = (*SampleUnnamed)(nil)

func (v *SampleUnnamed) Encode(w []byte) []byte {
	w = buf.EncodeField(w, 1, func (w []byte) []byte {
		return buf.EncodeU32(w, v.N0)
	})
	w = buf.EncodeField(w, 100, func (w []byte) []byte {
		return buf.EncodeU32(w, v.N1)
	})
	w = buf.EncodeField(w, 101, func (w []byte) []byte {
		return buf.EncodeU32(w, v.N2)
	})
	w = buf.EncodeU32(w, buf.EndMarker)
	return w
}

var _ buf.Decode = (*SampleUnnamed)(nil)

func (v *SampleUnnamed) Decode(r []byte) ([]byte, error) {
	foundN0 := false
	foundN1 := false
	foundN2 := false

	for len(r) > 0 {
		r2, id, err := buf.DecodeID(r)
		if err != nil {
			return nil, err
		}
		r = r2

		switch id {
			case 1:
				r2, value, err := buf.DecodeU32(r)
				if err != nil {
					return nil, err
				}
				r = r2
				v.N0 = value
				foundN0 = true
			case 100:
				r2, value, err := buf.DecodeU32(r)
				if err != nil {
					return nil, err
				}
				r = r2
				v.N1 = value
				foundN1 = true
			case 101:
				r2, value, err := buf.DecodeU32(r)
				if err != nil {
					return nil, err
				}
				r = r2
				v.N2 = value
				foundN2 = true
			case buf.EndMarker:
				break
		}
	}

	if !foundN0 {
		return nil, buf.MissingFieldError{
			ID:    1,
			Field: """",
		}
	}
	if !foundN1 {
		return nil, buf.MissingFieldError{
			ID:    100,
			Field: """",
		}
	}
	if !foundN2 {
		return nil, buf.MissingFieldError{
			ID:    101,
			Field: """",
		}
	}

	return r, nil
}

var _ buf.Size = (*SampleUnnamed)(nil)

func (v *SampleUnnamed) Size() int {
	size := 0
	size += buf.SizeField(1, func() int {
		return buf.SizeU32(v.N0)
	})
	size += buf.SizeField(100, func() int {
		return buf.SizeU32(v.N1)
	})
	size += buf.SizeField(101, func() int {
		return buf.SizeU32(v.N2)
	})
	size += buf.EndMarkerSize
	return size
}

type SampleEnumVariant interface {
	 sealed()
}

type SampleEnum SampleEnumVariant

type SampleEnum_Named struct {
	Field1 uint32
	Field2 uint32
	Field3 uint32
}

func (v SampleEnum_Named) sealed() {}

func NewSampleEnum_Named(
	field1 uint32,
	field2 uint32,
	field3 uint32,
) SampleEnum_Named {
	return SampleEnum_Named{
		Field1: field1,
		Field2: field2,
		Field3: field3,
	}
}

var _ buf.Encode = (*SampleEnum_Named)(nil)

func (v *SampleEnum_Named) Encode(w []byte) []byte {
	w = buf.EncodeField(w, 1, func (w []byte) []byte {
		return buf.EncodeU32(w, v.Field1)
	})
	w = buf.EncodeField(w, 100, func (w []byte) []byte {
		return buf.EncodeU32(w, v.Field2)
	})
	w = buf.EncodeField(w, 101, func (w []byte) []byte {
		return buf.EncodeU32(w, v.Field3)
	})
	w = buf.EncodeU32(w, buf.EndMarker)
	return nil
}

var _ buf.Decode = (*SampleEnum_Named)(nil)

func (v *SampleEnum_Named) Decode(r []byte) ([]byte, error) {
	foundField1 := false
	foundField2 := false
	foundField3 := false

	for len(r) > 0 {
		r2, id, err := buf.DecodeID(r)
		if err != nil {
			return nil, err
		}
		r = r2

		switch id {
			case 1:
				r2, value, err := buf.DecodeU32(r)
				if err != nil {
					return nil, err
				}
				r = r2
				v.Field1 = value
				foundField1 = true
			case 100:
				r2, value, err := buf.DecodeU32(r)
				if err != nil {
					return nil, err
				}
				r = r2
				v.Field2 = value
				foundField2 = true
			case 101:
				r2, value, err := buf.DecodeU32(r)
				if err != nil {
					return nil, err
				}
				r = r2
				v.Field3 = value
				foundField3 = true
			case buf.EndMarker:
				break
		}
	}

	if !foundField1 {
		return nil, buf.MissingFieldError{
			ID:    1,
			Field: ""field1"",
		}
	}
	if !foundField2 {
		return nil, buf.MissingFieldError{
			ID:    100,
			Field: ""field2"",
		}
	}
	if !foundField3 {
		return nil, buf.MissingFieldError{
			ID:    101,
			Field: ""field3"",
		}
	}

	return r, nil
}

var _ buf.Size = (*SampleEnum_Named)(nil)

func (v *SampleEnum_Named) Size() int {
	size := 0
	size += buf.SizeField(1, func() int {
		return buf.SizeU32(v.Field1)
	})
	size += buf.SizeField(100, func() int {
		return buf.SizeU32(v.Field2)
	})
	size += buf.SizeField(101, func() int {
		return buf.SizeU32(v.Field3)
	})
	size += buf.EndMarkerSize
	return size
}

type SampleEnum_Unit struct{}

func (v SampleEnum_Unit) sealed() {}

func NewSampleEnum_Unit() SampleEnum_Unit {
	return SampleEnum_Unit{}
}

var _ buf.Encode = (*SampleEnum_Unit)(nil)

func (v *SampleEnum_Unit) Encode(w []byte) []byte {
	return nil
}

var _ buf.Decode = (*SampleEnum_Unit)(nil)

func (v *SampleEnum_Unit) Decode(r []byte) ([]byte, error) {

	for len(r) > 0 {
		r2, id, err := buf.DecodeID(r)
		if err != nil {
			return nil, err
		}
		r = r2

		switch id {
			case buf.EndMarker:
				break
		}
	}


	return r, nil
}

var _ buf.Size = (*SampleEnum_Unit)(nil)

func (v *SampleEnum_Unit) Size() int {
	size := 0
	return size
}

type SampleEnum_Unnamed struct {
	N0 uint32
	N1 uint32
	N2 uint32
}

func (v SampleEnum_Unnamed) sealed() {}

func NewSampleEnum_Unnamed(
	n0 uint32,
	n1 uint32,
	n2 uint32,
) SampleEnum_Unnamed {
	return SampleEnum_Unnamed{
		N0: n0,
		N1: n1,
		N2: n2,
	}
}

var _ buf.Encode = (*SampleEnum_Unnamed)(nil)

func (v *SampleEnum_Unnamed) Encode(w []byte) []byte {
	w = buf.EncodeField(w, 1, func (w []byte) []byte {
		return buf.EncodeU32(w, v.N0)
	})
	w = buf.EncodeField(w, 100, func (w []byte) []byte {
		return buf.EncodeU32(w, v.N1)
	})
	w = buf.EncodeField(w, 101, func (w []byte) []byte {
		return buf.EncodeU32(w, v.N2)
	})
	w = buf.EncodeU32(w, buf.EndMarker)
	return nil
}

var _ buf.Decode = (*SampleEnum_Unnamed)(nil)

func (v *SampleEnum_Unnamed) Decode(r []byte) ([]byte, error) {
	foundN0 := false
	foundN1 := false
	foundN2 := false

	for len(r) > 0 {
		r2, id, err := buf.DecodeID(r)
		if err != nil {
			return nil, err
		}
		r = r2

		switch id {
			case 1:
				r2, value, err := buf.DecodeU32(r)
				if err != nil {
					return nil, err
				}
				r = r2
				v.N0 = value
				foundN0 = true
			case 100:
				r2, value, err := buf.DecodeU32(r)
				if err != nil {
					return nil, err
				}
				r = r2
				v.N1 = value
				foundN1 = true
			case 101:
				r2, value, err := buf.DecodeU32(r)
				if err != nil {
					return nil, err
				}
				r = r2
				v.N2 = value
				foundN2 = true
			case buf.EndMarker:
				break
		}
	}

	if !foundN0 {
		return nil, buf.MissingFieldError{
			ID:    1,
			Field: """",
		}
	}
	if !foundN1 {
		return nil, buf.MissingFieldError{
			ID:    100,
			Field: """",
		}
	}
	if !foundN2 {
		return nil, buf.MissingFieldError{
			ID:    101,
			Field: """",
		}
	}

	return r, nil
}

var _ buf.Size = (*SampleEnum_Unnamed)(nil)

func (v *SampleEnum_Unnamed) Size() int {
	size := 0
	size += buf.SizeField(1, func() int {
		return buf.SizeU32(v.N0)
	})
	size += buf.SizeField(100, func() int {
		return buf.SizeU32(v.N1)
	})
	size += buf.SizeField(101, func() int {
		return buf.SizeU32(v.N2)
	})
	size += buf.EndMarkerSize
	return size
}
") = true.
Proof. vm_cast_no_check (eq_refl true). Qed.

(** tests/inputs/schema_basic.mabo *)
Example go_schema_basic : renders (tx "/// Basic struct.
struct SampleStruct {
    a: u32 @1,
    b: bool @2,
}

/// Sample enum.
enum SampleEnum {
    One @1,
    Two(u32 @1, u64 @2) @2,
    Three {
        field1: u32 @1,
        field2: bool @2,
    } @3,
}
")
 (tx "--- sample.go

// Code generated by mabo-go (v0.1.0). DO NOT EDIT.

package sample

import (
	mabo ""github.com/dnaka91/mabo-go""
	buf ""github.com/dnaka91/mabo-go/buf""
)

// Basic struct.
type SampleStruct struct {
	A uint32
	B bool
}

func NewSampleStruct(
	a uint32,
	b bool,
) SampleStruct {
	return SampleStruct{
		A: a,
		B: b,
	}
}

var _ buf.Encode = (*SampleStruct)(nil)

func (v *SampleStruct) Encode(w []byte) []byte {
	w = buf.EncodeField(w, 1, func (w []byte) []byte {
		return buf.EncodeU32(w, v.A)
	})
	w = buf.EncodeField(w, 2, func (w []byte) []byte {
		return buf.EncodeBool(w, v.B)
	})
	w = buf.EncodeU32(w, buf.EndMarker)
	return w
}

var _ buf.Decode = (*SampleStruct)(nil)

func (v *SampleStruct) Decode(r []byte) ([]byte, error) {
	foundA := false
	foundB := false

	for len(r) > 0 {
		r2, id, err := buf.DecodeID(r)
		if err != nil {
			return nil, err
		}
		r = r2

		switch id {
			case 1:
				r2, value, err := buf.DecodeU32(r)
				if err != nil {
					return nil, err
				}
				r = r2
				v.A = value
				foundA = true
			case 2:
				r2, value, err := buf.DecodeBool(r)
				if err != nil {
					return nil, err
				}
				r = r2
				v.B = value
				foundB = true
			case buf.EndMarker:
				break
		}
	}

	if !foundA {
		return nil, buf.MissingFieldError{
			ID:    1,
			Field: ""a"",
		}
	}
	if !foundB {
		return nil, buf.MissingFieldError{
			ID:    2,
			Field: ""b"",
		}
	}

	return r, nil
}

var _ buf.Size = (*SampleStruct)(nil)

func (v *SampleStruct) Size() int {
	size := 0
	size += buf.SizeField(1, func() int {
		return buf.SizeU32(v.A)
	})
	size += buf.SizeField(2, func() int {
		return buf.SizeBool(v.B)
	})
	size += buf.EndMarkerSize
	return size
}

type SampleEnumVariant interface {
	 sealed()
}

// Sample enum.
type SampleEnum SampleEnumVariant

type SampleEnum_One struct{}

func (v SampleEnum_One) sealed() {}

func NewSampleEnum_One() SampleEnum_One {
	return SampleEnum_One{}
}

var _ buf.Encode = (*SampleEnum_One)(nil)

func (v *SampleEnum_One) Encode(w []byte) []byte {
	return nil
}

var _ buf.Decode = (*SampleEnum_One)(nil)

func (v *SampleEnum_One) Decode(r []byte) ([]byte, error) {

	for len(r) > 0 {
		r2, id, err := buf.DecodeID(r)
		if err != nil {
			return nil, err
		}
		r = r2

		switch id {
			case buf.EndMarker:
				break
		}
	}


	return r, nil
}

var _ buf.Size = (*SampleEnum_One)(nil)

func (v *SampleEnum_One) Size() int {
	size := 0
	return size
}

type SampleEnum_Two struct {
	N0 uint32
	N1 uint64
}

func (v SampleEnum_Two) sealed() {}

func NewSampleEnum_Two(
	n0 uint32,
	n1 uint64,
) SampleEnum_Two {
	return SampleEnum_Two{
		N0: n0,
		N1: n1,
	}
}

var _ buf.Encode = (*SampleEnum_Two)(nil)

func (v *SampleEnum_Two) Encode(w []byte) []byte {
	w = buf.EncodeField(w, 1, func (w []byte) []byte {
		return buf.EncodeU32(w, v.N0)
	})
	w = buf.EncodeField(w, 2, func (w []byte) []byte {
		return buf.EncodeU64(w, v.N1)
	})
	w = buf.EncodeU32(w, buf.EndMarker)
	return nil
}

var _ buf.Decode = (*SampleEnum_Two)(nil)

func (v *SampleEnum_Two) Decode(r []byte) ([]byte, error) {
	foundN0 := false
	foundN1 := false

	for len(r) > 0 {
		r2, id, err := buf.DecodeID(r)
		if err != nil {
			return nil, err
		}
		r = r2

		switch id {
			case 1:
				r2, value, err := buf.DecodeU32(r)
				if err != nil {
					return nil, err
				}
				r = r2
				v.N0 = value
				foundN0 = true
			case 2:
				r2, value, err := buf.DecodeU64(r)
				if err != nil {
					return nil, err
				}
				r = r2
				v.N1 = value
				foundN1 = true
			case buf.EndMarker:
				break
		}
	}

	if !foundN0 {
		return nil, buf.MissingFieldError{
			ID:    1,
			Field: """",
		}
	}
	if !foundN1 {
		return nil, buf.MissingFieldError{
			ID:    2,
			Field: """",
		}
	}

	return r, nil
}

var _ buf.Size = (*SampleEnum_Two)(nil)

func (v *SampleEnum_Two) Size() int {
	size := 0
	size += buf.SizeField(1, func() int {
		return buf.SizeU32(v.N0)
	})
	size += buf.SizeField(2, func() int {
		return buf.SizeU64(v.N1)
	})
	size += buf.EndMarkerSize
	return size
}

type SampleEnum_Three struct {
	Field1 uint32
	Field2 bool
}

func (v SampleEnum_Three) sealed() {}

func NewSampleEnum_Three(
	field1 uint32,
	field2 bool,
) SampleEnum_Three {
	return SampleEnum_Three{
		Field1: field1,
		Field2: field2,
	}
}

var _ buf.Encode = (*SampleEnum_Three)(nil)

func (v *SampleEnum_Three) Encode(w []byte) []byte {
	w = buf.EncodeField(w, 1, func (w []byte) []byte {
		return buf.EncodeU32(w, v.Field1)
	})
	w = buf.EncodeField(w, 2, func (w []byte) []byte {
		return buf.EncodeBool(w, v.Field2)
	})
	w = buf.EncodeU32(w, buf.EndMarker)
	return nil
}

var _ buf.Decode = (*SampleEnum_Three)(nil)

func (v *SampleEnum_Three) Decode(r []byte) ([]byte, error) {
	foundField1 := false
	foundField2 := false

	for len(r) > 0 {
		r2, id, err := buf.DecodeID(r)
		if err != nil {
			return nil, err
		}
		r = r2

		switch id {
			case 1:
				r2, value, err := buf.DecodeU32(r)
				if err != nil {
					return nil, err
				}
				r = r2
				v.Field1 = value
				foundField1 = true
			case 2:
				r2, value, err := buf.DecodeBool(r)
				if err != nil {
					return nil, err
				}
				r = r2
				v.Field2 = value
				foundField2 = true
			case buf.EndMarker:
				break
		}
	}

	if !foundField1 {
		return nil, buf.MissingFieldError{
			ID:    1,
			Field: ""field1"",
		}
	}
	if !foundField2 {
		return nil, buf.MissingFieldError{
			ID:    2,
			Field: ""field2"",
		}
	}

	return r, nil
}

var _ buf.Size = (*SampleEnum_Three)(nil)

func (v *SampleEnum_Three) Size() int {
	size := 0
	size += buf.SizeField(1, func() int {
		return buf.SizeU32(v.Field1)
	})
	size += buf.SizeField(2, func() int {
		return buf.SizeBool(v.Field2)
	})
	size += buf.EndMarkerSize
	return size
}
") = true.
Proof. vm_cast_no_check (eq_refl true). Qed.

(** tests/inputs/struct_basic.mabo *)
Example go_struct_basic : renders (tx "/// Basic struct.
struct Sample {
    a: u32 @1,
    /// Second field
    b: bool @2,
}
")
 (tx "--- sample.go

// Code generated by mabo-go (v0.1.0). DO NOT EDIT.

package sample

import (
	mabo ""github.com/dnaka91/mabo-go""
	buf ""github.com/dnaka91/mabo-go/buf""
)

// Basic struct.
type Sample struct {
	A uint32
	// Second field
	B bool
}

func NewSample(
	a uint32,
	b bool,
) Sample {
	return Sample{
		A: a,
		B: b,
	}
}

var _ buf.Encode = (*Sample)(nil)

func (v *Sample) Encode(w []byte) []byte {
	w = buf.EncodeField(w, 1, func (w []byte) []byte {
		return buf.EncodeU32(w, v.A)
	})
	w = buf.EncodeField(w, 2, func (w []byte) []byte {
		return buf.EncodeBool(w, v.B)
	})
	w = buf.EncodeU32(w, buf.EndMarker)
	return w
}

var _ buf.Decode = (*Sample)(nil)

func (v *Sample) Decode(r []byte) ([]byte, error) {
	foundA := false
	foundB := false

	for len(r) > 0 {
		r2, id, err := buf.DecodeID(r)
		if err != nil {
			return nil, err
		}
		r = r2

		switch id {
			case 1:
				r2, value, err := buf.DecodeU32(r)
				if err != nil {
					return nil, err
				}
				r = r2
				v.A = value
				foundA = true
			case 2:
				r2, value, err := buf.DecodeBool(r)
				if err != nil {
					return nil, err
				}
				r = r2
				v.B = value
				foundB = true
			case buf.EndMarker:
				break
		}
	}

	if !foundA {
		return nil, buf.MissingFieldError{
			ID:    1,
			Field: ""a"",
		}
	}
	if !foundB {
		return nil, buf.MissingFieldError{
			ID:    2,
			Field: ""b"",
		}
	}

	return r, nil
}

var _ buf.Size = (*Sample)(nil)

func (v *Sample) Size() int {
	size := 0
	size += buf.SizeField(1, func() int {
		return buf.SizeU32(v.A)
	})
	size += buf.SizeField(2, func() int {
		return buf.SizeBool(v.B)
	})
	size += buf.EndMarkerSize
	return size
}
") = true.
Proof. vm_cast_no_check (eq_refl true). Qed.

(** tests/inputs/struct_generics.mabo *)
Example go_struct_generics : renders (tx "/// Generic key-value pair.
struct KeyValue<K, V> {
    key: K @1,
    value: V @2,
}
")
 (tx "--- sample.go

// Code generated by mabo-go (v0.1.0). DO NOT EDIT.

package sample

import (
	mabo ""github.com/dnaka91/mabo-go""
	buf ""github.com/dnaka91/mabo-go/buf""
)

// Generic key-value pair.
type KeyValue[K any, V any] struct {
	Key K
	Value V
}

func NewKeyValue[K any, V any](
	key K,
	value V,
) KeyValue[K, V] {
	return KeyValue[K, V]{
		Key: key,
		Value: value,
	}
}

var _ buf.Encode = (*KeyValue[K, V])(nil)

func (v *KeyValue[K, V]) Encode(w []byte) []byte {
	w = buf.EncodeField(w, 1, func (w []byte) []byte {
		return v.Key.Encode(w)
	})
	w = buf.EncodeField(w, 2, func (w []byte) []byte {
		return v.Value.Encode(w)
	})
	w = buf.EncodeU32(w, buf.EndMarker)
	return w
}

var _ buf.Decode = (*KeyValue[K, V])(nil)

func (v *KeyValue[K, V]) Decode(r []byte) ([]byte, error) {
	foundKey := false
	foundValue := false

	for len(r) > 0 {
		r2, id, err := buf.DecodeID(r)
		if err != nil {
			return nil, err
		}
		r = r2

		switch id {
			case 1:
				r2, value, err := func(r []byte) ([]byte, K, error) {
					var value K
					return value.Decode(r)
				}(r)

				if err != nil {
					return nil, err
				}
				r = r2
				v.Key = value
				foundKey = true
			case 2:
				r2, value, err := func(r []byte) ([]byte, V, error) {
					var value V
					return value.Decode(r)
				}(r)

				if err != nil {
					return nil, err
				}
				r = r2
				v.Value = value
				foundValue = true
			case buf.EndMarker:
				break
		}
	}

	if !foundKey {
		return nil, buf.MissingFieldError{
			ID:    1,
			Field: ""key"",
		}
	}
	if !foundValue {
		return nil, buf.MissingFieldError{
			ID:    2,
			Field: ""value"",
		}
	}

	return r, nil
}

var _ buf.Size = (*KeyValue[K, V])(nil)

func (v *KeyValue[K, V]) Size() int {
	size := 0
	size += buf.SizeField(1, func() int {
		return v.Key.Size()
	})
	size += buf.SizeField(2, func() int {
		return v.Value.Size()
	})
	size += buf.EndMarkerSize
	return size
}
") = true.
Proof. vm_cast_no_check (eq_refl true). Qed.

(** tests/inputs/struct_many_ws.mabo *)
Example go_struct_many_ws : renders (tx "
 /// Some comment
       struct      Sample<
            T
        >  {

      a:    u32    @1,
      b:    bool   @2,
      c:    T      @3,
    }
")
 (tx "--- sample.go

// Code generated by mabo-go (v0.1.0). DO NOT EDIT.

package sample

import (
	mabo ""github.com/dnaka91/mabo-go""
	buf ""github.com/dnaka91/mabo-go/buf""
)

// Some comment
type Sample[T any] struct {
	A uint32
	B bool
	C T
}

func NewSample[T any](
	a uint32,
	b bool,
	c T,
) Sample[T] {
	return Sample[T]{
		A: a,
		B: b,
		C: c,
	}
}

var _ buf.Encode = (*Sample[T])(nil)

func (v *Sample[T]) Encode(w []byte) []byte {
	w = buf.EncodeField(w, 1, func (w []byte) []byte {
		return buf.EncodeU32(w, v.A)
	})
	w = buf.EncodeField(w, 2, func (w []byte) []byte {
		return buf.EncodeBool(w, v.B)
	})
	w = buf.EncodeField(w, 3, func (w []byte) []byte {
		return v.C.Encode(w)
	})
	w = buf.EncodeU32(w, buf.EndMarker)
	return w
}

var _ buf.Decode = (*Sample[T])(nil)

func (v *Sample[T]) Decode(r []byte) ([]byte, error) {
	foundA := false
	foundB := false
	foundC := false

	for len(r) > 0 {
		r2, id, err := buf.DecodeID(r)
		if err != nil {
			return nil, err
		}
		r = r2

		switch id {
			case 1:
				r2, value, err := buf.DecodeU32(r)
				if err != nil {
					return nil, err
				}
				r = r2
				v.A = value
				foundA = true
			case 2:
				r2, value, err := buf.DecodeBool(r)
				if err != nil {
					return nil, err
				}
				r = r2
				v.B = value
				foundB = true
			case 3:
				r2, value, err := func(r []byte) ([]byte, T, error) {
					var value T
					return value.Decode(r)
				}(r)

				if err != nil {
					return nil, err
				}
				r = r2
				v.C = value
				foundC = true
			case buf.EndMarker:
				break
		}
	}

	if !foundA {
		return nil, buf.MissingFieldError{
			ID:    1,
			Field: ""a"",
		}
	}
	if !foundB {
		return nil, buf.MissingFieldError{
			ID:    2,
			Field: ""b"",
		}
	}
	if !foundC {
		return nil, buf.MissingFieldError{
			ID:    3,
			Field: ""c"",
		}
	}

	return r, nil
}

var _ buf.Size = (*Sample[T])(nil)

func (v *Sample[T]) Size() int {
	size := 0
	size += buf.SizeField(1, func() int {
		return buf.SizeU32(v.A)
	})
	size += buf.SizeField(2, func() int {
		return buf.SizeBool(v.B)
	})
	size += buf.SizeField(3, func() int {
		return v.C.Size()
	})
	size += buf.EndMarkerSize
	return size
}
") = true.
Proof. vm_cast_no_check (eq_refl true). Qed.

(** tests/inputs/struct_min_ws.mabo *)
Example go_struct_min_ws : renders (tx "struct Sample<T>{a:u32@1,b:bool@2,c:T@3}
")
 (tx "--- sample.go

// Code generated by mabo-go (v0.1.0). DO NOT EDIT.

package sample

import (
	mabo ""github.com/dnaka91/mabo-go""
	buf ""github.com/dnaka91/mabo-go/buf""
)

type Sample[T any] struct {
	A uint32
	B bool
	C T
}

func NewSample[T any](
	a uint32,
	b bool,
	c T,
) Sample[T] {
	return Sample[T]{
		A: a,
		B: b,
		C: c,
	}
}

var _ buf.Encode = (*Sample[T])(nil)

func (v *Sample[T]) Encode(w []byte) []byte {
	w = buf.EncodeField(w, 1, func (w []byte) []byte {
		return buf.EncodeU32(w, v.A)
	})
	w = buf.EncodeField(w, 2, func (w []byte) []byte {
		return buf.EncodeBool(w, v.B)
	})
	w = buf.EncodeField(w, 3, func (w []byte) []byte {
		return v.C.Encode(w)
	})
	w = buf.EncodeU32(w, buf.EndMarker)
	return w
}

var _ buf.Decode = (*Sample[T])(nil)

func (v *Sample[T]) Decode(r []byte) ([]byte, error) {
	foundA := false
	foundB := false
	foundC := false

	for len(r) > 0 {
		r2, id, err := buf.DecodeID(r)
		if err != nil {
			return nil, err
		}
		r = r2

		switch id {
			case 1:
				r2, value, err := buf.DecodeU32(r)
				if err != nil {
					return nil, err
				}
				r = r2
				v.A = value
				foundA = true
			case 2:
				r2, value, err := buf.DecodeBool(r)
				if err != nil {
					return nil, err
				}
				r = r2
				v.B = value
				foundB = true
			case 3:
				r2, value, err := func(r []byte) ([]byte, T, error) {
					var value T
					return value.Decode(r)
				}(r)

				if err != nil {
					return nil, err
				}
				r = r2
				v.C = value
				foundC = true
			case buf.EndMarker:
				break
		}
	}

	if !foundA {
		return nil, buf.MissingFieldError{
			ID:    1,
			Field: ""a"",
		}
	}
	if !foundB {
		return nil, buf.MissingFieldError{
			ID:    2,
			Field: ""b"",
		}
	}
	if !foundC {
		return nil, buf.MissingFieldError{
			ID:    3,
			Field: ""c"",
		}
	}

	return r, nil
}

var _ buf.Size = (*Sample[T])(nil)

func (v *Sample[T]) Size() int {
	size := 0
	size += buf.SizeField(1, func() int {
		return buf.SizeU32(v.A)
	})
	size += buf.SizeField(2, func() int {
		return buf.SizeBool(v.B)
	})
	size += buf.SizeField(3, func() int {
		return v.C.Size()
	})
	size += buf.EndMarkerSize
	return size
}
") = true.
Proof. vm_cast_no_check (eq_refl true). Qed.

(** tests/inputs/struct_tuple.mabo *)
Example go_struct_tuple : renders (tx "/// Basic struct.
struct Sample(u32 @1, bool @2)
")
 (tx "--- sample.go

// Code generated by mabo-go (v0.1.0). DO NOT EDIT.

package sample

import (
	mabo ""github.com/dnaka91/mabo-go""
	buf ""github.com/dnaka91/mabo-go/buf""
)

// Basic struct.
type Sample struct {
	N0 uint32
	N1 bool
}

func NewSample(
	n0 uint32,
	n1 bool,
) Sample {
	return Sample{
		N0: n0,
		N1: n1,
	}
}

var _ buf.Encode = (*Sample)(nil)

func (v *Sample) Encode(w []byte) []byte {
	w = buf.EncodeField(w, 1, func (w []byte) []byte {
		return buf.EncodeU32(w, v.N0)
	})
	w = buf.EncodeField(w, 2, func (w []byte) []byte {
		return buf.EncodeBool(w, v.N1)
	})
	w = buf.EncodeU32(w, buf.EndMarker)
	return w
}

var _ buf.Decode = (*Sample)(nil)

func (v *Sample) Decode(r []byte) ([]byte, error) {
	foundN0 := false
	foundN1 := false

	for len(r) > 0 {
		r2, id, err := buf.DecodeID(r)
		if err != nil {
			return nil, err
		}
		r = r2

		switch id {
			case 1:
				r2, value, err := buf.DecodeU32(r)
				if err != nil {
					return nil, err
				}
				r = r2
				v.N0 = value
				foundN0 = true
			case 2:
				r2, value, err := buf.DecodeBool(r)
				if err != nil {
					return nil, err
				}
				r = r2
				v.N1 = value
				foundN1 = true
			case buf.EndMarker:
				break
		}
	}

	if !foundN0 {
		return nil, buf.MissingFieldError{
			ID:    1,
			Field: """",
		}
	}
	if !foundN1 {
		return nil, buf.MissingFieldError{
			ID:    2,
			Field: """",
		}
	}

	return r, nil
}

var _ buf.Size = (*Sample)(nil)

func (v *Sample) Size() int {
	size := 0
	size += buf.SizeField(1, func() int {
		return buf.SizeU32(v.N0)
	})
	size += buf.SizeField(2, func() int {
		return buf.SizeBool(v.N1)
	})
	size += buf.EndMarkerSize
	return size
}
") = true.
Proof. vm_cast_no_check (eq_refl true). Qed.

(** tests/inputs/types_basic.mabo *)
Example go_types_basic : renders (tx "struct Sample {
    f01: bool @1,
    f02: u8 @2,
    f03: u16 @3,
    f04: u32 @4,
    f05: u64 @5,
    f06: u128 @6,
    f07: i8 @7,
    f08: i16 @8,
    f09: i32 @9,
    f10: i64 @10,
    f11: i128 @11,
    f12: f32 @12,
    f13: f64 @13,
    f14: string @14,
    f15: &string @15,
    f16: bytes @16,
    f17: &bytes @17,
    f18: box<string> @18,
    f19: box<bytes> @19,
    f20: (u32, u32, u32) @20,
    f21: [u32; 12] @21,
}
")
 (tx "--- sample.go

// Code generated by mabo-go (v0.1.0). DO NOT EDIT.

package sample

import (
	mabo ""github.com/dnaka91/mabo-go""
	buf ""github.com/dnaka91/mabo-go/buf""
)

type Sample struct {
	F01 bool
	F02 uint8
	F03 uint16
	F04 uint32
	F05 uint64
	F06 *big.Int
	F07 int8
	F08 int16
	F09 int32
	F10 int64
	F11 *big.Int
	F12 float32
	F13 float64
	F14 string
	F15 string
	F16 []byte
	F17 []byte
	F18 string
	F19 []byte
	F20 mabo.Tuple3[uint32, uint32, uint32]
	F21 [12]uint32
}

func NewSample(
	f01 bool,
	f02 uint8,
	f03 uint16,
	f04 uint32,
	f05 uint64,
	f06 *big.Int,
	f07 int8,
	f08 int16,
	f09 int32,
	f10 int64,
	f11 *big.Int,
	f12 float32,
	f13 float64,
	f14 string,
	f15 string,
	f16 []byte,
	f17 []byte,
	f18 string,
	f19 []byte,
	f20 mabo.Tuple3[uint32, uint32, uint32],
	f21 [12]uint32,
) Sample {
	return Sample{
		F01: f01,
		F02: f02,
		F03: f03,
		F04: f04,
		F05: f05,
		F06: f06,
		F07: f07,
		F08: f08,
		F09: f09,
		F10: f10,
		F11: f11,
		F12: f12,
		F13: f13,
		F14: f14,
		F15: f15,
		F16: f16,
		F17: f17,
		F18: f18,
		F19: f19,
		F20: f20,
		F21: f21,
	}
}

var _ buf.Encode = (*Sample)(nil)

func (v *Sample) Encode(w []byte) []byte {
	w = buf.EncodeField(w, 1, func (w []byte) []byte {
		return buf.EncodeBool(w, v.F01)
	})
	w = buf.EncodeField(w, 2, func (w []byte) []byte {
		return buf.EncodeU8(w, v.F02)
	})
	w = buf.EncodeField(w, 3, func (w []byte) []byte {
		return buf.EncodeU16(w, v.F03)
	})
	w = buf.EncodeField(w, 4, func (w []byte) []byte {
		return buf.EncodeU32(w, v.F04)
	})
	w = buf.EncodeField(w, 5, func (w []byte) []byte {
		return buf.EncodeU64(w, v.F05)
	})
	w = buf.EncodeField(w, 6, func (w []byte) []byte {
		return buf.EncodeU128(w, v.F06)
	})
	w = buf.EncodeField(w, 7, func (w []byte) []byte {
		return buf.EncodeI8(w, v.F07)
	})
	w = buf.EncodeField(w, 8, func (w []byte) []byte {
		return buf.EncodeI16(w, v.F08)
	})
	w = buf.EncodeField(w, 9, func (w []byte) []byte {
		return buf.EncodeI32(w, v.F09)
	})
	w = buf.EncodeField(w, 10, func (w []byte) []byte {
		return buf.EncodeI64(w, v.F10)
	})
	w = buf.EncodeField(w, 11, func (w []byte) []byte {
		return buf.EncodeI128(w, v.F11)
	})
	w = buf.EncodeField(w, 12, func (w []byte) []byte {
		return buf.EncodeF32(w, v.F12)
	})
	w = buf.EncodeField(w, 13, func (w []byte) []byte {
		return buf.EncodeF64(w, v.F13)
	})
	w = buf.EncodeField(w, 14, func (w []byte) []byte {
		return buf.EncodeString(w, v.F14)
	})
	w = buf.EncodeField(w, 15, func (w []byte) []byte {
		return buf.EncodeString(w, v.F15)
	})
	w = buf.EncodeField(w, 16, func (w []byte) []byte {
		return buf.EncodeBytes(w, v.F16)
	})
	w = buf.EncodeField(w, 17, func (w []byte) []byte {
		return buf.EncodeBytes(w, v.F17)
	})
	w = buf.EncodeField(w, 18, func (w []byte) []byte {
		return buf.EncodeString(w, v.F18)
	})
	w = buf.EncodeField(w, 19, func (w []byte) []byte {
		return buf.EncodeBytes(w, v.F19)
	})
	w = buf.EncodeField(w, 20, func (w []byte) []byte {
		return func (w []byte) []byte {
			w = buf.EncodeU32(w, v.F20.F0)
			w = buf.EncodeU32(w, v.F20.F1)
			w = buf.EncodeU32(w, v.F20.F2)
			return w
		}(w)
	})
	w = buf.EncodeField(w, 21, func (w []byte) []byte {
		return buf.EncodeArray12[uint32](w, v.F21, func(w []byte, v uint32) []byte {
			return buf.EncodeU32(w, v)
		})
	})
	w = buf.EncodeU32(w, buf.EndMarker)
	return w
}

var _ buf.Decode = (*Sample)(nil)

func (v *Sample) Decode(r []byte) ([]byte, error) {
	foundF01 := false
	foundF02 := false
	foundF03 := false
	foundF04 := false
	foundF05 := false
	foundF06 := false
	foundF07 := false
	foundF08 := false
	foundF09 := false
	foundF10 := false
	foundF11 := false
	foundF12 := false
	foundF13 := false
	foundF14 := false
	foundF15 := false
	foundF16 := false
	foundF17 := false
	foundF18 := false
	foundF19 := false
	foundF20 := false
	foundF21 := false

	for len(r) > 0 {
		r2, id, err := buf.DecodeID(r)
		if err != nil {
			return nil, err
		}
		r = r2

		switch id {
			case 1:
				r2, value, err := buf.DecodeBool(r)
				if err != nil {
					return nil, err
				}
				r = r2
				v.F01 = value
				foundF01 = true
			case 2:
				r2, value, err := buf.DecodeU8(r)
				if err != nil {
					return nil, err
				}
				r = r2
				v.F02 = value
				foundF02 = true
			case 3:
				r2, value, err := buf.DecodeU16(r)
				if err != nil {
					return nil, err
				}
				r = r2
				v.F03 = value
				foundF03 = true
			case 4:
				r2, value, err := buf.DecodeU32(r)
				if err != nil {
					return nil, err
				}
				r = r2
				v.F04 = value
				foundF04 = true
			case 5:
				r2, value, err := buf.DecodeU64(r)
				if err != nil {
					return nil, err
				}
				r = r2
				v.F05 = value
				foundF05 = true
			case 6:
				r2, value, err := buf.DecodeU128(r)
				if err != nil {
					return nil, err
				}
				r = r2
				v.F06 = value
				foundF06 = true
			case 7:
				r2, value, err := buf.DecodeI8(r)
				if err != nil {
					return nil, err
				}
				r = r2
				v.F07 = value
				foundF07 = true
			case 8:
				r2, value, err := buf.DecodeI16(r)
				if err != nil {
					return nil, err
				}
				r = r2
				v.F08 = value
				foundF08 = true
			case 9:
				r2, value, err := buf.DecodeI32(r)
				if err != nil {
					return nil, err
				}
				r = r2
				v.F09 = value
				foundF09 = true
			case 10:
				r2, value, err := buf.DecodeI64(r)
				if err != nil {
					return nil, err
				}
				r = r2
				v.F10 = value
				foundF10 = true
			case 11:
				r2, value, err := buf.DecodeI128(r)
				if err != nil {
					return nil, err
				}
				r = r2
				v.F11 = value
				foundF11 = true
			case 12:
				r2, value, err := buf.DecodeF32(r)
				if err != nil {
					return nil, err
				}
				r = r2
				v.F12 = value
				foundF12 = true
			case 13:
				r2, value, err := buf.DecodeF64(r)
				if err != nil {
					return nil, err
				}
				r = r2
				v.F13 = value
				foundF13 = true
			case 14:
				r2, value, err := buf.DecodeString(r)
				if err != nil {
					return nil, err
				}
				r = r2
				v.F14 = value
				foundF14 = true
			case 15:
				r2, value, err := buf.DecodeString(r)
				if err != nil {
					return nil, err
				}
				r = r2
				v.F15 = value
				foundF15 = true
			case 16:
				r2, value, err := buf.DecodeBytes(r)
				if err != nil {
					return nil, err
				}
				r = r2
				v.F16 = value
				foundF16 = true
			case 17:
				r2, value, err := buf.DecodeBytes(r)
				if err != nil {
					return nil, err
				}
				r = r2
				v.F17 = value
				foundF17 = true
			case 18:
				r2, value, err := buf.DecodeString(r)
				if err != nil {
					return nil, err
				}
				r = r2
				v.F18 = value
				foundF18 = true
			case 19:
				r2, value, err := buf.DecodeBytes(r)
				if err != nil {
					return nil, err
				}
				r = r2
				v.F19 = value
				foundF19 = true
			case 20:
				r2, value, err := func (r []byte) ([]byte, buf.Tuple3, error) {
					r2, value0, err := buf.DecodeU32(r)
					if err != nil {
						return nil, value, err
					}
					r = r2
					tuple.F0 = value0
					r2, value1, err := buf.DecodeU32(r)
					if err != nil {
						return nil, value, err
					}
					r = r2
					tuple.F1 = value1
					r2, value2, err := buf.DecodeU32(r)
					if err != nil {
						return nil, value, err
					}
					r = r2
					tuple.F2 = value2
					return r, tuple, nil
				}(r)
				if err != nil {
					return nil, err
				}
				r = r2
				v.F20 = value
				foundF20 = true
			case 21:
				r2, value, err := buf.DecodeArray12[uint32](r, func(r []byte) ([]byte, uint32, error) {
					return buf.DecodeU32(r)
				})
				if err != nil {
					return nil, err
				}
				r = r2
				v.F21 = value
				foundF21 = true
			case buf.EndMarker:
				break
		}
	}

	if !foundF01 {
		return nil, buf.MissingFieldError{
			ID:    1,
			Field: ""f01"",
		}
	}
	if !foundF02 {
		return nil, buf.MissingFieldError{
			ID:    2,
			Field: ""f02"",
		}
	}
	if !foundF03 {
		return nil, buf.MissingFieldError{
			ID:    3,
			Field: ""f03"",
		}
	}
	if !foundF04 {
		return nil, buf.MissingFieldError{
			ID:    4,
			Field: ""f04"",
		}
	}
	if !foundF05 {
		return nil, buf.MissingFieldError{
			ID:    5,
			Field: ""f05"",
		}
	}
	if !foundF06 {
		return nil, buf.MissingFieldError{
			ID:    6,
			Field: ""f06"",
		}
	}
	if !foundF07 {
		return nil, buf.MissingFieldError{
			ID:    7,
			Field: ""f07"",
		}
	}
	if !foundF08 {
		return nil, buf.MissingFieldError{
			ID:    8,
			Field: ""f08"",
		}
	}
	if !foundF09 {
		return nil, buf.MissingFieldError{
			ID:    9,
			Field: ""f09"",
		}
	}
	if !foundF10 {
		return nil, buf.MissingFieldError{
			ID:    10,
			Field: ""f10"",
		}
	}
	if !foundF11 {
		return nil, buf.MissingFieldError{
			ID:    11,
			Field: ""f11"",
		}
	}
	if !foundF12 {
		return nil, buf.MissingFieldError{
			ID:    12,
			Field: ""f12"",
		}
	}
	if !foundF13 {
		return nil, buf.MissingFieldError{
			ID:    13,
			Field: ""f13"",
		}
	}
	if !foundF14 {
		return nil, buf.MissingFieldError{
			ID:    14,
			Field: ""f14"",
		}
	}
	if !foundF15 {
		return nil, buf.MissingFieldError{
			ID:    15,
			Field: ""f15"",
		}
	}
	if !foundF16 {
		return nil, buf.MissingFieldError{
			ID:    16,
			Field: ""f16"",
		}
	}
	if !foundF17 {
		return nil, buf.MissingFieldError{
			ID:    17,
			Field: ""f17"",
		}
	}
	if !foundF18 {
		return nil, buf.MissingFieldError{
			ID:    18,
			Field: ""f18"",
		}
	}
	if !foundF19 {
		return nil, buf.MissingFieldError{
			ID:    19,
			Field: ""f19"",
		}
	}
	if !foundF20 {
		return nil, buf.MissingFieldError{
			ID:    20,
			Field: ""f20"",
		}
	}
	if !foundF21 {
		return nil, buf.MissingFieldError{
			ID:    21,
			Field: ""f21"",
		}
	}

	return r, nil
}

var _ buf.Size = (*Sample)(nil)

func (v *Sample) Size() int {
	size := 0
	size += buf.SizeField(1, func() int {
		return buf.SizeBool(v.F01)
	})
	size += buf.SizeField(2, func() int {
		return buf.SizeU8(v.F02)
	})
	size += buf.SizeField(3, func() int {
		return buf.SizeU16(v.F03)
	})
	size += buf.SizeField(4, func() int {
		return buf.SizeU32(v.F04)
	})
	size += buf.SizeField(5, func() int {
		return buf.SizeU64(v.F05)
	})
	size += buf.SizeField(6, func() int {
		return buf.SizeU128(v.F06)
	})
	size += buf.SizeField(7, func() int {
		return buf.SizeI8(v.F07)
	})
	size += buf.SizeField(8, func() int {
		return buf.SizeI16(v.F08)
	})
	size += buf.SizeField(9, func() int {
		return buf.SizeI32(v.F09)
	})
	size += buf.SizeField(10, func() int {
		return buf.SizeI64(v.F10)
	})
	size += buf.SizeField(11, func() int {
		return buf.SizeI128(v.F11)
	})
	size += buf.SizeField(12, func() int {
		return buf.SizeF32(v.F12)
	})
	size += buf.SizeField(13, func() int {
		return buf.SizeF64(v.F13)
	})
	size += buf.SizeField(14, func() int {
		return buf.SizeString(v.F14)
	})
	size += buf.SizeField(15, func() int {
		return buf.SizeString(v.F15)
	})
	size += buf.SizeField(16, func() int {
		return buf.SizeBytes(v.F16)
	})
	size += buf.SizeField(17, func() int {
		return buf.SizeBytes(v.F17)
	})
	size += buf.SizeField(18, func() int {
		return buf.SizeString(v.F18)
	})
	size += buf.SizeField(19, func() int {
		return buf.SizeBytes(v.F19)
	})
	size += buf.SizeField(20, func() int {
		return func() int {
			size := 0
			size += buf.SizeU32(v.F20.F0)
			size += buf.SizeU32(v.F20.F1)
			size += buf.SizeU32(v.F20.F2)
			return size
		}(size)
	})
	size += buf.SizeField(21, func() int {
		return buf.SizeArray12[uint32](v.F21, func(v uint32) int {
			return buf.SizeU32(v)
		})
	})
	size += buf.EndMarkerSize
	return size
}
") = true.
Proof. vm_cast_no_check (eq_refl true). Qed.

(** tests/inputs/types_generic.mabo *)
Example go_types_generic : renders (tx "struct Sample {
    f1: vec<u32> @1,
    f2: hash_map<u32, string> @2,
    f3: hash_set<u32> @3,
    f4: option<u32> @4,
    f5: non_zero<u32> @5,
}

struct SampleUnnamed(
    vec<u32> @1,
    hash_map<u32, string> @2,
    hash_set<u32> @3,
    option<u32> @4,
    non_zero<u32> @5,
)
")
 (tx "--- sample.go

// Code generated by mabo-go (v0.1.0). DO NOT EDIT.

package sample

import (
	mabo ""github.com/dnaka91/mabo-go""
	buf ""github.com/dnaka91/mabo-go/buf""
)

type Sample struct {
	F1 []uint32
	F2 map[uint32]string
	F3 map[uint32]struct{}
	F4 *uint32
	F5 mabo.NonZeroU32
}

func NewSample(
	f1 []uint32,
	f2 map[uint32]string,
	f3 map[uint32]struct{},
	f4 *uint32,
	f5 mabo.NonZeroU32,
) Sample {
	return Sample{
		F1: f1,
		F2: f2,
		F3: f3,
		F4: f4,
		F5: f5,
	}
}

var _ buf.Encode = (*Sample)(nil)

func (v *Sample) Encode(w []byte) []byte {
	w = buf.EncodeField(w, 1, func (w []byte) []byte {
		return buf.EncodeVec[uint32](w, v.F1, func(w []byte, v uint32) []byte {
			return buf.EncodeU32(w, v)
		})
	})
	w = buf.EncodeField(w, 2, func (w []byte) []byte {
		return buf.EncodeHashMap[uint32, string](
			w, v.F2,
			func(w []byte, k uint32) []byte {
				return buf.EncodeU32(w, k)
			},
			func(w []byte, v string) []byte {
				return buf.EncodeString(w, v)
			},
		)
	})
	w = buf.EncodeField(w, 3, func (w []byte) []byte {
		return buf.EncodeHashSet[uint32](w, v.F3, func(w []byte, v uint32) []byte {
			return buf.EncodeU32(w, v)
		})
	})
	w = buf.EncodeFieldOption[uint32](w, 4, &v.F4, func (w []byte, v uint32) []byte {
		return buf.EncodeU32(w, v)
	})
	w = buf.EncodeField(w, 5, func (w []byte) []byte {
		return buf.EncodeU32(w, v.F5.Get())
	})
	w = buf.EncodeU32(w, buf.EndMarker)
	return w
}

var _ buf.Decode = (*Sample)(nil)

func (v *Sample) Decode(r []byte) ([]byte, error) {
	foundF1 := false
	foundF2 := false
	foundF3 := false
	foundF4 := false
	foundF5 := false

	for len(r) > 0 {
		r2, id, err := buf.DecodeID(r)
		if err != nil {
			return nil, err
		}
		r = r2

		switch id {
			case 1:
				r2, value, err := buf.DecodeVec[uint32](r, func(r []byte) ([]byte, uint32, error) {
					return buf.DecodeU32(r)
				})
				if err != nil {
					return nil, err
				}
				r = r2
				v.F1 = value
				foundF1 = true
			case 2:
				r2, value, err := buf.DecodeHashMap[uint32, string](
					r,
					func(r []byte) ([]byte, uint32, error) {
						return buf.DecodeU32(r)
					},
					func(r []byte) ([]byte, string, error) {
						return buf.DecodeString(r)
					},
				)
				if err != nil {
					return nil, err
				}
				r = r2
				v.F2 = value
				foundF2 = true
			case 3:
				r2, value, err := buf.DecodeHashSet[uint32](r, func(r []byte) ([]byte, uint32, error) {
					return buf.DecodeU32(r)
				})
				if err != nil {
					return nil, err
				}
				r = r2
				v.F3 = value
				foundF3 = true
			case 4:
				r2, value, err := buf.DecodeOption[uint32](r, func(r []byte) ([]byte, uint32, error) {
					return buf.DecodeU32(r)
				})
				if err != nil {
					return nil, err
				}
				r = r2
				v.F4 = value
				foundF4 = true
			case 5:
				r2, value, err := buf.DecodeNonZeroU32(r)
				if err != nil {
					return nil, err
				}
				r = r2
				v.F5 = value
				foundF5 = true
			case buf.EndMarker:
				break
		}
	}

	if !foundF1 {
		return nil, buf.MissingFieldError{
			ID:    1,
			Field: ""f1"",
		}
	}
	if !foundF2 {
		return nil, buf.MissingFieldError{
			ID:    2,
			Field: ""f2"",
		}
	}
	if !foundF3 {
		return nil, buf.MissingFieldError{
			ID:    3,
			Field: ""f3"",
		}
	}
	if !foundF4 {
		return nil, buf.MissingFieldError{
			ID:    4,
			Field: ""f4"",
		}
	}
	if !foundF5 {
		return nil, buf.MissingFieldError{
			ID:    5,
			Field: ""f5"",
		}
	}

	return r, nil
}

var _ buf.Size = (*Sample)(nil)

func (v *Sample) Size() int {
	size := 0
	size += buf.SizeField(1, func() int {
		return buf.SizeVec[uint32](v.F1, func(v uint32) int {
			return buf.SizeU32(v)
		})
	})
	size += buf.SizeField(2, func() int {
		return buf.SizeHashMap[uint32, string](
			v.F2,
			func(k uint32) int {
				return buf.SizeU32(k)
			},
			func(v string) int {
				return buf.SizeString(v)
			},
		)
	})
	size += buf.SizeField(3, func() int {
		return buf.SizeHashSet[uint32](v.F3, func(v uint32) int {
			return buf.SizeU32(v)
		})
	})
	size += buf.SizeFieldOption[uint32](4, &v.F4, func (v uint32) int {
		return buf.SizeU32(v)
	})
	size += buf.SizeField(5, func() int {
		return buf.SizeU32(v.F5.Get())
	})
	size += buf.EndMarkerSize
	return size
}

type SampleUnnamed struct {
	N0 []uint32
	N1 map[uint32]string
	N2 map[uint32]struct{}
	N3 *uint32
	N4 mabo.NonZeroU32
}

func NewSampleUnnamed(
	n0 []uint32,
	n1 map[uint32]string,
	n2 map[uint32]struct{},
	n3 *uint32,
	n4 mabo.NonZeroU32,
) SampleUnnamed {
	return SampleUnnamed{
		N0: n0,
		N1: n1,
		N2: n2,
		N3: n3,
		N4: n4,
	}
}

var _ buf.Encode = (*SampleUnnamed)(nil)

func (v *SampleUnnamed) Encode(w []byte) []byte {
	w = buf.EncodeField(w, 1, func (w []byte) []byte {
		return buf.EncodeVec[uint32](w, v.N0, func(w []byte, v uint32) []byte {
			return buf.EncodeU32(w, v)
		})
	})
	w = buf.EncodeField(w, 2, func (w []byte) []byte {
		return buf.EncodeHashMap[uint32, string](
			w, v.N1,
			func(w []byte, k uint32) []byte {
				return buf.EncodeU32(w, k)
			},
			func(w []byte, v string) []byte {
				return buf.EncodeString(w, v)
			},
		)
	})
	w = buf.EncodeField(w, 3, func (w []byte) []byte {
		return buf.EncodeHashSet[uint32](w, v.N2, func(w []byte, v uint32) []byte {
			return buf.EncodeU32(w, v)
		})
	})
	w = buf.EncodeFieldOption[uint32](w, 4, &v.N3, func (w []byte, v uint32) []byte {
		return buf.EncodeU32(w, v)
	})
	w = buf.EncodeField(w, 5, func (w []byte) []byte {
		return buf.EncodeU32(w, v.N4.Get())
	})
	w = buf.EncodeU32(w, buf.EndMarker)
	return w
}

var _ buf.Decode = (*SampleUnnamed)(nil)

func (v *SampleUnnamed) Decode(r []byte) ([]byte, error) {
	foundN0 := false
	foundN1 := false
	foundN2 := false
	foundN3 := false
	foundN4 := false

	for len(r) > 0 {
		r2, id, err := buf.DecodeID(r)
		if err != nil {
			return nil, err
		}
		r = r2

		switch id {
			case 1:
				r2, value, err := buf.DecodeVec[uint32](r, func(r []byte) ([]byte, uint32, error) {
					return buf.DecodeU32(r)
				})
				if err != nil {
					return nil, err
				}
				r = r2
				v.N0 = value
				foundN0 = true
			case 2:
				r2, value, err := buf.DecodeHashMap[uint32, string](
					r,
					func(r []byte) ([]byte, uint32, error) {
						return buf.DecodeU32(r)
					},
					func(r []byte) ([]byte, string, error) {
						return buf.DecodeString(r)
					},
				)
				if err != nil {
					return nil, err
				}
				r = r2
				v.N1 = value
				foundN1 = true
			case 3:
				r2, value, err := buf.DecodeHashSet[uint32](r, func(r []byte) ([]byte, uint32, error) {
					return buf.DecodeU32(r)
				})
				if err != nil {
					return nil, err
				}
				r = r2
				v.N2 = value
				foundN2 = true
			case 4:
				r2, value, err := buf.DecodeOption[uint32](r, func(r []byte) ([]byte, uint32, error) {
					return buf.DecodeU32(r)
				})
				if err != nil {
					return nil, err
				}
				r = r2
				v.N3 = value
				foundN3 = true
			case 5:
				r2, value, err := buf.DecodeNonZeroU32(r)
				if err != nil {
					return nil, err
				}
				r = r2
				v.N4 = value
				foundN4 = true
			case buf.EndMarker:
				break
		}
	}

	if !foundN0 {
		return nil, buf.MissingFieldError{
			ID:    1,
			Field: """",
		}
	}
	if !foundN1 {
		return nil, buf.MissingFieldError{
			ID:    2,
			Field: """",
		}
	}
	if !foundN2 {
		return nil, buf.MissingFieldError{
			ID:    3,
			Field: """",
		}
	}
	if !foundN3 {
		return nil, buf.MissingFieldError{
			ID:    4,
			Field: """",
		}
	}
	if !foundN4 {
		return nil, buf.MissingFieldError{
			ID:    5,
			Field: """",
		}
	}

	return r, nil
}

var _ buf.Size = (*SampleUnnamed)(nil)

func (v *SampleUnnamed) Size() int {
	size := 0
	size += buf.SizeField(1, func() int {
		return buf.SizeVec[uint32](v.N0, func(v uint32) int {
			return buf.SizeU32(v)
		})
	})
	size += buf.SizeField(2, func() int {
		return buf.SizeHashMap[uint32, string](
			v.N1,
			func(k uint32) int {
				return buf.SizeU32(k)
			},
			func(v string) int {
				return buf.SizeString(v)
			},
		)
	})
	size += buf.SizeField(3, func() int {
		return buf.SizeHashSet[uint32](v.N2, func(v uint32) int {
			return buf.SizeU32(v)
		})
	})
	size += buf.SizeFieldOption[uint32](4, &v.N3, func (v uint32) int {
		return buf.SizeU32(v)
	})
	size += buf.SizeField(5, func() int {
		return buf.SizeU32(v.N4.Get())
	})
	size += buf.EndMarkerSize
	return size
}
") = true.
Proof. vm_cast_no_check (eq_refl true). Qed.

(** tests/inputs/types_nested.mabo *)
Example go_types_nested : renders (tx "struct Sample {
    value: vec<option<non_zero<hash_map<i64, box<string>>>>> @1,
}
")
 (tx "--- sample.go

// Code generated by mabo-go (v0.1.0). DO NOT EDIT.

package sample

import (
	mabo ""github.com/dnaka91/mabo-go""
	buf ""github.com/dnaka91/mabo-go/buf""
)

type Sample struct {
	Value []*mabo.NonZeroHashMap[int64, string]
}

func NewSample(
	value []*mabo.NonZeroHashMap[int64, string],
) Sample {
	return Sample{
		Value: value,
	}
}

var _ buf.Encode = (*Sample)(nil)

func (v *Sample) Encode(w []byte) []byte {
	w = buf.EncodeField(w, 1, func (w []byte) []byte {
		return buf.EncodeVec[*mabo.NonZeroHashMap[int64, string]](w, v.Value, func(w []byte, v *mabo.NonZeroHashMap[int64, string]) []byte {
			return buf.EncodeOption[mabo.NonZeroHashMap[int64, string]](w, v, func(w []byte, v mabo.NonZeroHashMap[int64, string]) []byte {
				return buf.EncodeHashMap[int64, string](
					w, v.Get(),
					func(w []byte, k int64) []byte {
						return buf.EncodeI64(w, k)
					},
					func(w []byte, v string) []byte {
						return buf.EncodeString(w, v)
					},
				)
			})
		})
	})
	w = buf.EncodeU32(w, buf.EndMarker)
	return w
}

var _ buf.Decode = (*Sample)(nil)

func (v *Sample) Decode(r []byte) ([]byte, error) {
	foundValue := false

	for len(r) > 0 {
		r2, id, err := buf.DecodeID(r)
		if err != nil {
			return nil, err
		}
		r = r2

		switch id {
			case 1:
				r2, value, err := buf.DecodeVec[*mabo.NonZeroHashMap[int64, string]](r, func(r []byte) ([]byte, *mabo.NonZeroHashMap[int64, string], error) {
					return buf.DecodeOption[mabo.NonZeroHashMap[int64, string]](r, func(r []byte) ([]byte, mabo.NonZeroHashMap[int64, string], error) {
						return buf.DecodeNonZeroHashMap[int64, string](
							r,
							func(r []byte) ([]byte, int64, error) {
								return buf.DecodeI64(r)
							},
							func(r []byte) ([]byte, string, error) {
								return buf.DecodeString(r)
							},
						)
					})
				})
				if err != nil {
					return nil, err
				}
				r = r2
				v.Value = value
				foundValue = true
			case buf.EndMarker:
				break
		}
	}

	if !foundValue {
		return nil, buf.MissingFieldError{
			ID:    1,
			Field: ""value"",
		}
	}

	return r, nil
}

var _ buf.Size = (*Sample)(nil)

func (v *Sample) Size() int {
	size := 0
	size += buf.SizeField(1, func() int {
		return buf.SizeVec[*mabo.NonZeroHashMap[int64, string]](v.Value, func(v *mabo.NonZeroHashMap[int64, string]) int {
			return buf.SizeOption[mabo.NonZeroHashMap[int64, string]](v, func(v mabo.NonZeroHashMap[int64, string]) int {
				return buf.SizeHashMap[int64, string](
					v.Get(),
					func(k int64) int {
						return buf.SizeI64(k)
					},
					func(v string) int {
						return buf.SizeString(v)
					},
				)
			})
		})
	})
	size += buf.EndMarkerSize
	return size
}
") = true.
Proof. vm_cast_no_check (eq_refl true). Qed.

(** tests/inputs/types_non_zero.mabo *)
Example go_types_non_zero : renders (tx "struct Sample {
    f01: non_zero<u8> @1,
    f02: non_zero<u16> @2,
    f03: non_zero<u32> @3,
    f04: non_zero<u64> @4,
    f05: non_zero<u128> @5,
    f06: non_zero<i8> @6,
    f07: non_zero<i16> @7,
    f08: non_zero<i32> @8,
    f09: non_zero<i64> @9,
    f10: non_zero<i128> @10,
    f11: non_zero<string> @11,
    f12: non_zero<bytes> @12,
    f13: non_zero<vec<string>> @13,
    f14: non_zero<hash_map<string, bytes>> @14,
    f15: non_zero<hash_set<string>> @15,
}
")
 (tx "--- sample.go

// Code generated by mabo-go (v0.1.0). DO NOT EDIT.

package sample

import (
	mabo ""github.com/dnaka91/mabo-go""
	buf ""github.com/dnaka91/mabo-go/buf""
)

type Sample struct {
	F01 mabo.NonZeroU8
	F02 mabo.NonZeroU16
	F03 mabo.NonZeroU32
	F04 mabo.NonZeroU64
	F05 mabo.NonZeroU128
	F06 mabo.NonZeroI8
	F07 mabo.NonZeroI16
	F08 mabo.NonZeroI32
	F09 mabo.NonZeroI64
	F10 mabo.NonZeroI128
	F11 mabo.NonZeroString
	F12 mabo.NonZeroBytes
	F13 mabo.NonZeroVec[string]
	F14 mabo.NonZeroHashMap[string, []byte]
	F15 mabo.NonZeroHashSet[string]
}

func NewSample(
	f01 mabo.NonZeroU8,
	f02 mabo.NonZeroU16,
	f03 mabo.NonZeroU32,
	f04 mabo.NonZeroU64,
	f05 mabo.NonZeroU128,
	f06 mabo.NonZeroI8,
	f07 mabo.NonZeroI16,
	f08 mabo.NonZeroI32,
	f09 mabo.NonZeroI64,
	f10 mabo.NonZeroI128,
	f11 mabo.NonZeroString,
	f12 mabo.NonZeroBytes,
	f13 mabo.NonZeroVec[string],
	f14 mabo.NonZeroHashMap[string, []byte],
	f15 mabo.NonZeroHashSet[string],
) Sample {
	return Sample{
		F01: f01,
		F02: f02,
		F03: f03,
		F04: f04,
		F05: f05,
		F06: f06,
		F07: f07,
		F08: f08,
		F09: f09,
		F10: f10,
		F11: f11,
		F12: f12,
		F13: f13,
		F14: f14,
		F15: f15,
	}
}

var _ buf.Encode = (*Sample)(nil)

func (v *Sample) Encode(w []byte) []byte {
	w = buf.EncodeField(w, 1, func (w []byte) []byte {
		return buf.EncodeU8(w, v.F01.Get())
	})
	w = buf.EncodeField(w, 2, func (w []byte) []byte {
		return buf.EncodeU16(w, v.F02.Get())
	})
	w = buf.EncodeField(w, 3, func (w []byte) []byte {
		return buf.EncodeU32(w, v.F03.Get())
	})
	w = buf.EncodeField(w, 4, func (w []byte) []byte {
		return buf.EncodeU64(w, v.F04.Get())
	})
	w = buf.EncodeField(w, 5, func (w []byte) []byte {
		return buf.EncodeU128(w, v.F05.Get())
	})
	w = buf.EncodeField(w, 6, func (w []byte) []byte {
		return buf.EncodeI8(w, v.F06.Get())
	})
	w = buf.EncodeField(w, 7, func (w []byte) []byte {
		return buf.EncodeI16(w, v.F07.Get())
	})
	w = buf.EncodeField(w, 8, func (w []byte) []byte {
		return buf.EncodeI32(w, v.F08.Get())
	})
	w = buf.EncodeField(w, 9, func (w []byte) []byte {
		return buf.EncodeI64(w, v.F09.Get())
	})
	w = buf.EncodeField(w, 10, func (w []byte) []byte {
		return buf.EncodeI128(w, v.F10.Get())
	})
	w = buf.EncodeField(w, 11, func (w []byte) []byte {
		return buf.EncodeString(w, v.F11.Get())
	})
	w = buf.EncodeField(w, 12, func (w []byte) []byte {
		return buf.EncodeBytes(w, v.F12.Get())
	})
	w = buf.EncodeField(w, 13, func (w []byte) []byte {
		return buf.EncodeVec[string](w, v.F13.Get(), func(w []byte, v string) []byte {
			return buf.EncodeString(w, v)
		})
	})
	w = buf.EncodeField(w, 14, func (w []byte) []byte {
		return buf.EncodeHashMap[string, []byte](
			w, v.F14.Get(),
			func(w []byte, k string) []byte {
				return buf.EncodeString(w, k)
			},
			func(w []byte, v []byte) []byte {
				return buf.EncodeBytes(w, v)
			},
		)
	})
	w = buf.EncodeField(w, 15, func (w []byte) []byte {
		return buf.EncodeHashSet[string](w, v.F15.Get(), func(w []byte, v string) []byte {
			return buf.EncodeString(w, v)
		})
	})
	w = buf.EncodeU32(w, buf.EndMarker)
	return w
}

var _ buf.Decode = (*Sample)(nil)

func (v *Sample) Decode(r []byte) ([]byte, error) {
	foundF01 := false
	foundF02 := false
	foundF03 := false
	foundF04 := false
	foundF05 := false
	foundF06 := false
	foundF07 := false
	foundF08 := false
	foundF09 := false
	foundF10 := false
	foundF11 := false
	foundF12 := false
	foundF13 := false
	foundF14 := false
	foundF15 := false

	for len(r) > 0 {
		r2, id, err := buf.DecodeID(r)
		if err != nil {
			return nil, err
		}
		r = r2

		switch id {
			case 1:
				r2, value, err := buf.DecodeNonZeroU8(r)
				if err != nil {
					return nil, err
				}
				r = r2
				v.F01 = value
				foundF01 = true
			case 2:
				r2, value, err := buf.DecodeNonZeroU16(r)
				if err != nil {
					return nil, err
				}
				r = r2
				v.F02 = value
				foundF02 = true
			case 3:
				r2, value, err := buf.DecodeNonZeroU32(r)
				if err != nil {
					return nil, err
				}
				r = r2
				v.F03 = value
				foundF03 = true
			case 4:
				r2, value, err := buf.DecodeNonZeroU64(r)
				if err != nil {
					return nil, err
				}
				r = r2
				v.F04 = value
				foundF04 = true
			case 5:
				r2, value, err := buf.DecodeNonZeroU128(r)
				if err != nil {
					return nil, err
				}
				r = r2
				v.F05 = value
				foundF05 = true
			case 6:
				r2, value, err := buf.DecodeNonZeroI8(r)
				if err != nil {
					return nil, err
				}
				r = r2
				v.F06 = value
				foundF06 = true
			case 7:
				r2, value, err := buf.DecodeNonZeroI16(r)
				if err != nil {
					return nil, err
				}
				r = r2
				v.F07 = value
				foundF07 = true
			case 8:
				r2, value, err := buf.DecodeNonZeroI32(r)
				if err != nil {
					return nil, err
				}
				r = r2
				v.F08 = value
				foundF08 = true
			case 9:
				r2, value, err := buf.DecodeNonZeroI64(r)
				if err != nil {
					return nil, err
				}
				r = r2
				v.F09 = value
				foundF09 = true
			case 10:
				r2, value, err := buf.DecodeNonZeroI128(r)
				if err != nil {
					return nil, err
				}
				r = r2
				v.F10 = value
				foundF10 = true
			case 11:
				r2, value, err := buf.DecodeNonZeroString(r)
				if err != nil {
					return nil, err
				}
				r = r2
				v.F11 = value
				foundF11 = true
			case 12:
				r2, value, err := buf.DecodeNonZeroBytes(r)
				if err != nil {
					return nil, err
				}
				r = r2
				v.F12 = value
				foundF12 = true
			case 13:
				r2, value, err := buf.DecodeNonZeroVec[string](r, func(r []byte) ([]byte, string, error) {
					return buf.DecodeString(r)
				})
				if err != nil {
					return nil, err
				}
				r = r2
				v.F13 = value
				foundF13 = true
			case 14:
				r2, value, err := buf.DecodeNonZeroHashMap[string, []byte](
					r,
					func(r []byte) ([]byte, string, error) {
						return buf.DecodeString(r)
					},
					func(r []byte) ([]byte, []byte, error) {
						return buf.DecodeBytes(r)
					},
				)
				if err != nil {
					return nil, err
				}
				r = r2
				v.F14 = value
				foundF14 = true
			case 15:
				r2, value, err := buf.DecodeNonZeroHashSet[string](r, func(r []byte) ([]byte, string, error) {
					return buf.DecodeString(r)
				})
				if err != nil {
					return nil, err
				}
				r = r2
				v.F15 = value
				foundF15 = true
			case buf.EndMarker:
				break
		}
	}

	if !foundF01 {
		return nil, buf.MissingFieldError{
			ID:    1,
			Field: ""f01"",
		}
	}
	if !foundF02 {
		return nil, buf.MissingFieldError{
			ID:    2,
			Field: ""f02"",
		}
	}
	if !foundF03 {
		return nil, buf.MissingFieldError{
			ID:    3,
			Field: ""f03"",
		}
	}
	if !foundF04 {
		return nil, buf.MissingFieldError{
			ID:    4,
			Field: ""f04"",
		}
	}
	if !foundF05 {
		return nil, buf.MissingFieldError{
			ID:    5,
			Field: ""f05"",
		}
	}
	if !foundF06 {
		return nil, buf.MissingFieldError{
			ID:    6,
			Field: ""f06"",
		}
	}
	if !foundF07 {
		return nil, buf.MissingFieldError{
			ID:    7,
			Field: ""f07"",
		}
	}
	if !foundF08 {
		return nil, buf.MissingFieldError{
			ID:    8,
			Field: ""f08"",
		}
	}
	if !foundF09 {
		return nil, buf.MissingFieldError{
			ID:    9,
			Field: ""f09"",
		}
	}
	if !foundF10 {
		return nil, buf.MissingFieldError{
			ID:    10,
			Field: ""f10"",
		}
	}
	if !foundF11 {
		return nil, buf.MissingFieldError{
			ID:    11,
			Field: ""f11"",
		}
	}
	if !foundF12 {
		return nil, buf.MissingFieldError{
			ID:    12,
			Field: ""f12"",
		}
	}
	if !foundF13 {
		return nil, buf.MissingFieldError{
			ID:    13,
			Field: ""f13"",
		}
	}
	if !foundF14 {
		return nil, buf.MissingFieldError{
			ID:    14,
			Field: ""f14"",
		}
	}
	if !foundF15 {
		return nil, buf.MissingFieldError{
			ID:    15,
			Field: ""f15"",
		}
	}

	return r, nil
}

var _ buf.Size = (*Sample)(nil)

func (v *Sample) Size() int {
	size := 0
	size += buf.SizeField(1, func() int {
		return buf.SizeU8(v.F01.Get())
	})
	size += buf.SizeField(2, func() int {
		return buf.SizeU16(v.F02.Get())
	})
	size += buf.SizeField(3, func() int {
		return buf.SizeU32(v.F03.Get())
	})
	size += buf.SizeField(4, func() int {
		return buf.SizeU64(v.F04.Get())
	})
	size += buf.SizeField(5, func() int {
		return buf.SizeU128(v.F05.Get())
	})
	size += buf.SizeField(6, func() int {
		return buf.SizeI8(v.F06.Get())
	})
	size += buf.SizeField(7, func() int {
		return buf.SizeI16(v.F07.Get())
	})
	size += buf.SizeField(8, func() int {
		return buf.SizeI32(v.F08.Get())
	})
	size += buf.SizeField(9, func() int {
		return buf.SizeI64(v.F09.Get())
	})
	size += buf.SizeField(10, func() int {
		return buf.SizeI128(v.F10.Get())
	})
	size += buf.SizeField(11, func() int {
		return buf.SizeString(v.F11.Get())
	})
	size += buf.SizeField(12, func() int {
		return buf.SizeBytes(v.F12.Get())
	})
	size += buf.SizeField(13, func() int {
		return buf.SizeVec[string](v.F13.Get(), func(v string) int {
			return buf.SizeString(v)
		})
	})
	size += buf.SizeField(14, func() int {
		return buf.SizeHashMap[string, []byte](
			v.F14.Get(),
			func(k string) int {
				return buf.SizeString(k)
			},
			func(v []byte) int {
				return buf.SizeBytes(v)
			},
		)
	})
	size += buf.SizeField(15, func() int {
		return buf.SizeHashSet[string](v.F15.Get(), func(v string) int {
			return buf.SizeString(v)
		})
	})
	size += buf.EndMarkerSize
	return size
}
") = true.
Proof. vm_cast_no_check (eq_refl true). Qed.

(** tests/inputs/types_ref.mabo *)
Example go_types_ref : renders (tx "struct Sample {
    basic: Test123 @1,
    with_generics: KeyValue<u32, bool> @2,
}

enum Test123 {
    Value @1,
}

struct KeyValue<K, V> {
    key: K @1,
    value: V @2,
}
")
 (tx "--- sample.go

// Code generated by mabo-go (v0.1.0). DO NOT EDIT.

package sample

import (
	mabo ""github.com/dnaka91/mabo-go""
	buf ""github.com/dnaka91/mabo-go/buf""
)

type Sample struct {
	Basic Test123
	WithGenerics KeyValue[uint32, bool]
}

func NewSample(
	basic Test123,
	withGenerics KeyValue[uint32, bool],
) Sample {
	return Sample{
		Basic: basic,
		WithGenerics: withGenerics,
	}
}

var _ buf.Encode = (*Sample)(nil)

func (v *Sample) Encode(w []byte) []byte {
	w = buf.EncodeField(w, 1, func (w []byte) []byte {
		return v.Basic.Encode(w)
	})
	w = buf.EncodeField(w, 2, func (w []byte) []byte {
		return v.WithGenerics.Encode(w)
	})
	w = buf.EncodeU32(w, buf.EndMarker)
	return w
}

var _ buf.Decode = (*Sample)(nil)

func (v *Sample) Decode(r []byte) ([]byte, error) {
	foundBasic := false
	foundWithGenerics := false

	for len(r) > 0 {
		r2, id, err := buf.DecodeID(r)
		if err != nil {
			return nil, err
		}
		r = r2

		switch id {
			case 1:
				r2, value, err := func(r []byte) ([]byte, Test123, error) {
					var value Test123
					return value.Decode(r)
				}(r)

				if err != nil {
					return nil, err
				}
				r = r2
				v.Basic = value
				foundBasic = true
			case 2:
				r2, value, err := func(r []byte) ([]byte, KeyValue[uint32, bool], error) {
					var value KeyValue[uint32, bool]
					return value.Decode(r)
				}(r)

				if err != nil {
					return nil, err
				}
				r = r2
				v.WithGenerics = value
				foundWithGenerics = true
			case buf.EndMarker:
				break
		}
	}

	if !foundBasic {
		return nil, buf.MissingFieldError{
			ID:    1,
			Field: ""basic"",
		}
	}
	if !foundWithGenerics {
		return nil, buf.MissingFieldError{
			ID:    2,
			Field: ""with_generics"",
		}
	}

	return r, nil
}

var _ buf.Size = (*Sample)(nil)

func (v *Sample) Size() int {
	size := 0
	size += buf.SizeField(1, func() int {
		return v.Basic.Size()
	})
	size += buf.SizeField(2, func() int {
		return v.WithGenerics.Size()
	})
	size += buf.EndMarkerSize
	return size
}

type Test123Variant interface {
	 sealed()
}

type Test123 Test123Variant

type Test123_Value struct{}

func (v Test123_Value) sealed() {}

func NewTest123_Value() Test123_Value {
	return Test123_Value{}
}

var _ buf.Encode = (*Test123_Value)(nil)

func (v *Test123_Value) Encode(w []byte) []byte {
	return nil
}

var _ buf.Decode = (*Test123_Value)(nil)

func (v *Test123_Value) Decode(r []byte) ([]byte, error) {

	for len(r) > 0 {
		r2, id, err := buf.DecodeID(r)
		if err != nil {
			return nil, err
		}
		r = r2

		switch id {
			case buf.EndMarker:
				break
		}
	}


	return r, nil
}

var _ buf.Size = (*Test123_Value)(nil)

func (v *Test123_Value) Size() int {
	size := 0
	return size
}

type KeyValue[K any, V any] struct {
	Key K
	Value V
}

func NewKeyValue[K any, V any](
	key K,
	value V,
) KeyValue[K, V] {
	return KeyValue[K, V]{
		Key: key,
		Value: value,
	}
}

var _ buf.Encode = (*KeyValue[K, V])(nil)

func (v *KeyValue[K, V]) Encode(w []byte) []byte {
	w = buf.EncodeField(w, 1, func (w []byte) []byte {
		return v.Key.Encode(w)
	})
	w = buf.EncodeField(w, 2, func (w []byte) []byte {
		return v.Value.Encode(w)
	})
	w = buf.EncodeU32(w, buf.EndMarker)
	return w
}

var _ buf.Decode = (*KeyValue[K, V])(nil)

func (v *KeyValue[K, V]) Decode(r []byte) ([]byte, error) {
	foundKey := false
	foundValue := false

	for len(r) > 0 {
		r2, id, err := buf.DecodeID(r)
		if err != nil {
			return nil, err
		}
		r = r2

		switch id {
			case 1:
				r2, value, err := func(r []byte) ([]byte, K, error) {
					var value K
					return value.Decode(r)
				}(r)

				if err != nil {
					return nil, err
				}
				r = r2
				v.Key = value
				foundKey = true
			case 2:
				r2, value, err := func(r []byte) ([]byte, V, error) {
					var value V
					return value.Decode(r)
				}(r)

				if err != nil {
					return nil, err
				}
				r = r2
				v.Value = value
				foundValue = true
			case buf.EndMarker:
				break
		}
	}

	if !foundKey {
		return nil, buf.MissingFieldError{
			ID:    1,
			Field: ""key"",
		}
	}
	if !foundValue {
		return nil, buf.MissingFieldError{
			ID:    2,
			Field: ""value"",
		}
	}

	return r, nil
}

var _ buf.Size = (*KeyValue[K, V])(nil)

func (v *KeyValue[K, V]) Size() int {
	size := 0
	size += buf.SizeField(1, func() int {
		return v.Key.Size()
	})
	size += buf.SizeField(2, func() int {
		return v.Value.Size()
	})
	size += buf.EndMarkerSize
	return size
}
") = true.
Proof. vm_cast_no_check (eq_refl true). Qed.
