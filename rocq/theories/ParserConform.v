(** Conformance of the parser and printer model with the repository's own parser tests
    (crates/mabo-parser/tests/parser.rs and its snapshots, generated from those files): every
    input parses and prints to the recorded snapshot (compared up to trailing newlines, which
    the snapshot tool trims), every invalid input is rejected.
    These are tests of the model, not proofs of properties. *)
From Verif Require Import Base Syntax Parser Printer.
Require Coq.Strings.String.
Import Coq.Strings.String.StringSyntax.
Local Open Scope N_scope.
(** f64 values stand for themselves: the texts in the inputs are already in shortest form. *)
Definition pf (s : str) : option str := Some s.
Definition ff (s : str) : str := s.
Fixpoint drop_nl (s : str) : str := match s with 10 :: r => drop_nl r | _ => s end.
Definition trim_nl (s : str) : str := rev (drop_nl (rev s)).
Definition prints (i : str) (o : str) : bool :=
  match schema_parse pf i with
  | Some s => str_eqb (trim_nl (pr_schema ff (fun c => (c <? 32) || (c =? 127)) s)) (trim_nl o)
  | None => false
  end.
Definition rejects (i : str) : bool := match schema_parse pf i with Some _ => false | None => true end.

(** tests/inputs/alias_basic.mabo *)
Example conf_alias_basic : prints (tx "/// Sample type alias.
type Sample = u32;
")
 (tx "/// Sample type alias.
type Sample = u32;
") = true.
Proof. vm_compute. reflexivity. Qed.

(** tests/inputs/attribute_multi.mabo *)
Example conf_attribute_multi : prints (tx "#[validate(min = 1, max = 100)]
struct Sample
")
 (tx "#[validate(min = 1, max = 100)]
struct Sample
") = true.
Proof. vm_compute. reflexivity. Qed.

(** tests/inputs/attribute_single.mabo *)
Example conf_attribute_single : prints (tx "#[deprecated = ""don't use""]
struct Sample
")
 (tx "#[deprecated = ""don't use""]
struct Sample
") = true.
Proof. vm_compute. reflexivity. Qed.

(** tests/inputs/attribute_unit.mabo *)
Example conf_attribute_unit : prints (tx "#[deprecated]
struct Sample
")
 (tx "#[deprecated]
struct Sample
") = true.
Proof. vm_compute. reflexivity. Qed.

(** tests/inputs/attributes.mabo *)
Example conf_attributes : prints (tx "#[deprecated = ""don't use"", compress]
#[validate(
    in_range(min = 100, max = 200),
    non_empty,
)]
struct Sample
")
 (tx "#[deprecated = ""don't use"", compress, validate(in_range(min = 100, max = 200), non_empty)]
struct Sample
") = true.
Proof. vm_compute. reflexivity. Qed.

(** tests/inputs/attributes_min_ws.mabo *)
Example conf_attributes_min_ws : prints (tx "#[deprecated=""don't use"",compress]
#[validate(in_range(min=100,max=200),non_empty)]
struct Sample
")
 (tx "#[deprecated = ""don't use"", compress, validate(in_range(min = 100, max = 200), non_empty)]
struct Sample
") = true.
Proof. vm_compute. reflexivity. Qed.

(** tests/inputs/const_basic.mabo *)
Example conf_const_basic : prints (tx "const BOOL_TRUE: bool = true;
const BOOL_FALSE: bool = false;
const INT: u32 = 100;
const FLOAT: f64 = 5.5;
const STRING: string = ""value"";
const BYTES: bytes = [1, 2, 3];
")
 (tx "const BOOL_TRUE: bool = true;
const BOOL_FALSE: bool = false;
const INT: u32 = 100;
const FLOAT: f64 = 5.5;
const STRING: string = ""value"";
const BYTES: bytes = [1, 2, 3];
") = true.
Proof. vm_compute. reflexivity. Qed.

(** tests/inputs/const_string.mabo *)
Example conf_const_string : prints (tx "const SIMPLE: string = ""value"";

const NEWLINE_ESCAPE: string = ""one \
    two \
    three\
"";

const ESCAPES: string = ""escape basics \r\n \t \b \f \\ \""\
    hello\"" \n\
    unicode \u{2764}  \
    emoji " ++ [10084] ++ tx " \
"";

const MULTILINE: string = ""a
    b
    c
"";
")
 (tx "const SIMPLE: string = ""value"";
const NEWLINE_ESCAPE: string = ""one two three"";
const ESCAPES: string = ""escape basics \r\n \t \u{8} \u{c} \\ \""hello\"" \nunicode " ++ [10084] ++ tx "  emoji " ++ [10084] ++ tx " "";
const MULTILINE: string = ""a\n    b\n    c\n"";
") = true.
Proof. vm_compute. reflexivity. Qed.

(** tests/inputs/enum_basic.mabo *)
Example conf_enum_basic : prints (tx "/// Sample enum.
enum Sample {
    One @1,
    /// Second variant
    Two(u32 @1, u64 @2) @2,
    Three {
        field1: u32 @1,
        /// Second field of third variant
        field2: bool @2,
    } @3,
}
")
 (tx "/// Sample enum.
enum Sample {
    One @1,
    /// Second variant
    Two(u32 @1, u64 @2) @2,
    Three {
        field1: u32 @1,
        /// Second field of third variant
        field2: bool @2,
    } @3,
}
") = true.
Proof. vm_compute. reflexivity. Qed.

(** tests/inputs/enum_generics.mabo *)
Example conf_enum_generics : prints (tx "/// Enum with generics.
enum Sample<A, B, C, D> {
    One @1,
    Two(A @1, B @2) @2,
    Three {
        field1: C @1,
        field2: D @2,
    } @3,
}
")
 (tx "/// Enum with generics.
enum Sample<A, B, C, D> {
    One @1,
    Two(A @1, B @2) @2,
    Three {
        field1: C @1,
        field2: D @2,
    } @3,
}
") = true.
Proof. vm_compute. reflexivity. Qed.

(** tests/inputs/enum_many_ws.mabo *)
Example conf_enum_many_ws : prints (tx "
 /// Sample enum.
 enum     Sample    {

       One      @1,

       Two  (   u32   @1,     u64     @2)    @2,

            Three     {

                    field1:    u32      @1,

                    field2:    bool     @2,

            }    @3,

 }
")
 (tx "/// Sample enum.
enum Sample {
    One @1,
    Two(u32 @1, u64 @2) @2,
    Three {
        field1: u32 @1,
        field2: bool @2,
    } @3,
}
") = true.
Proof. vm_compute. reflexivity. Qed.

(** tests/inputs/enum_min_ws.mabo *)
Example conf_enum_min_ws : prints (tx "enum Sample<T>{One@1,Two(u32@1,u64@2,T@3)@2,Three{field1:u32@1,field2:bool@2,field3:T@3}@3}
")
 (tx "enum Sample<T> {
    One @1,
    Two(u32 @1, u64 @2, T @3) @2,
    Three {
        field1: u32 @1,
        field2: bool @2,
        field3: T @3
    } @3
}
") = true.
Proof. vm_compute. reflexivity. Qed.

(** tests/inputs/import_basic.mabo *)
Example conf_import_basic : prints (tx "use other::schema::Sample;
use second::submodule;
")
 (tx "use other::schema::Sample;
use second::submodule;
") = true.
Proof. vm_compute. reflexivity. Qed.

(** tests/inputs/mixed.mabo *)
Example conf_mixed : prints (tx "/// Schema with a bit of everything, to try out more complex scenarios.

/// Basic user information.
///
/// Uses various other `structs` and `enums` to compose the information
/// in a **type safe** way.
struct User {
    name: FullName @1,
    /// Physical address, might not be specified by the user.
    address: option<Address> @2,
    age: u8 @3,
    birthday: birthday::DayOfBirth @4,
}

/// Full name of a user.
struct FullName {
    first: string @1,
    middle: option<string> @2,
    last: string @3,
}

/// Simple alias for convenience.
///
/// - Might be easier to remember.
/// - Often referenced as this.
type Name = FullName;

struct Address {
    /// Street name.
    street: string @1,
    /// Number of the house in the street.
    house_no: HouseNumber @2,
    city: string @3,
}

/// The number on the house.
///
/// More details can be found at [Wikipedia](https://en.wikipedia.org/wiki/House_numbering).
enum HouseNumber {
    /// Digit only number.
    Digit(u16 @1) @1,
    /// Mixed _number_ with characters like `1a`.
    Text(string @1) @2,
}

/// Probably the max age of a human, currently.
const MAX_AGE: u8 = 120;


/// Details for defining birthdays.
mod birthday {
    /// As the name suggests, specifies details about birthdays.
    enum DayOfBirth {
        Specific {
            year: u16 @1,
            month: Month @2,
            day: u8 @3,
        } @1,
        /// The user didn't want to say.
        Secret {
            /// Optional info from the user about why they didn't want to
            /// reveal their birthday.
            reason: option<string> @1,
        } @2,
        /// We never asked and nobody knows.
        Unknown @3,
    }

    /// Let's assume we only have details of people born **after** this year.
    const MIN_YEAR: u16 = 1900;

    /// Absolute maximum for a day, but might be even less depending
    /// on the month.
    const MAX_DAY: u8 = 31;

    /// The month of the year.
    enum Month {
        January @1,
        February @2,
        March @3,
        April @4,
        May @5,
        June @6,
        July @7,
        August @8,
        September @9,
        October @10,
        November @11,
        December @12,
    }
}
")
 (tx "/// Schema with a bit of everything, to try out more complex scenarios.

/// Basic user information.
/// 
/// Uses various other `structs` and `enums` to compose the information
/// in a **type safe** way.
struct User {
    name: FullName @1,
    /// Physical address, might not be specified by the user.
    address: option<Address> @2,
    age: u8 @3,
    birthday: birthday::DayOfBirth @4,
}

/// Full name of a user.
struct FullName {
    first: string @1,
    middle: option<string> @2,
    last: string @3,
}

/// Simple alias for convenience.
/// 
/// - Might be easier to remember.
/// - Often referenced as this.
type Name = FullName;
struct Address {
    /// Street name.
    street: string @1,
    /// Number of the house in the street.
    house_no: HouseNumber @2,
    city: string @3,
}

/// The number on the house.
/// 
/// More details can be found at [Wikipedia](https://en.wikipedia.org/wiki/House_numbering).
enum HouseNumber {
    /// Digit only number.
    Digit(u16 @1) @1,
    /// Mixed _number_ with characters like `1a`.
    Text(string @1) @2,
}

/// Probably the max age of a human, currently.
const MAX_AGE: u8 = 120;
/// Details for defining birthdays.
mod birthday {
    /// As the name suggests, specifies details about birthdays.
    enum DayOfBirth {
        Specific {
            year: u16 @1,
            month: Month @2,
            day: u8 @3,
        } @1,
        /// The user didn't want to say.
        Secret {
            /// Optional info from the user about why they didn't want to
            /// reveal their birthday.
            reason: option<string> @1,
        } @2,
        /// We never asked and nobody knows.
        Unknown @3,
    }

    /// Let's assume we only have details of people born **after** this year.
    const MIN_YEAR: u16 = 1900;
    /// Absolute maximum for a day, but might be even less depending
    /// on the month.
    const MAX_DAY: u8 = 31;
    /// The month of the year.
    enum Month {
        January @1,
        February @2,
        March @3,
        April @4,
        May @5,
        June @6,
        July @7,
        August @8,
        September @9,
        October @10,
        November @11,
        December @12,
    }
}
") = true.
Proof. vm_compute. reflexivity. Qed.

(** tests/inputs/module_basic.mabo *)
Example conf_module_basic : prints (tx "mod a {
    /// Inner module
    mod b {
        enum Sample {
            One @1,
        }
    }

    struct Sample {
        value: u32 @1,
        inner: b::Sample @2,
    }
}
")
 (tx "mod a {
    /// Inner module
    mod b {
        enum Sample {
            One @1,
        }
    }

    struct Sample {
        value: u32 @1,
        inner: b::Sample @2,
    }
}
") = true.
Proof. vm_compute. reflexivity. Qed.

(** tests/inputs/optional_ids.mabo *)
Example conf_optional_ids : prints (tx "struct SampleNamed {
    field1: u32,
    field2: u32 @100,
    field3: u32,
}

struct SampleUnnamed(u32, u32 @100, u32)

enum SampleEnum {
    Named {
        field1: u32,
        field2: u32 @100,
        field3: u32,
    },
    Unit @50,
    Unnamed(u32, u32 @100, u32),
}
")
 (tx "struct SampleNamed {
    field1: u32,
    field2: u32 @100,
    field3: u32,
}

struct SampleUnnamed(u32, u32 @100, u32)

enum SampleEnum {
    Named {
        field1: u32,
        field2: u32 @100,
        field3: u32,
    },
    Unit @50,
    Unnamed(u32, u32 @100, u32),
}
") = true.
Proof. vm_compute. reflexivity. Qed.

(** tests/inputs/schema_basic.mabo *)
Example conf_schema_basic : prints (tx "/// Basic struct.
struct SampleStruct {
    a: u32 @1,
    b: bool @2,
}

/// Sample enum.
enum SampleEnum {
    One @1,
    Two(u32 @1, u64 @2) @2,
    Three {
        field1: u32 @1,
        field2: bool @2,
    } @3,
}
")
 (tx "/// Basic struct.
struct SampleStruct {
    a: u32 @1,
    b: bool @2,
}

/// Sample enum.
enum SampleEnum {
    One @1,
    Two(u32 @1, u64 @2) @2,
    Three {
        field1: u32 @1,
        field2: bool @2,
    } @3,
}
") = true.
Proof. vm_compute. reflexivity. Qed.

(** tests/inputs/struct_basic.mabo *)
Example conf_struct_basic : prints (tx "/// Basic struct.
struct Sample {
    a: u32 @1,
    /// Second field
    b: bool @2,
}
")
 (tx "/// Basic struct.
struct Sample {
    a: u32 @1,
    /// Second field
    b: bool @2,
}
") = true.
Proof. vm_compute. reflexivity. Qed.

(** tests/inputs/struct_generics.mabo *)
Example conf_struct_generics : prints (tx "/// Generic key-value pair.
struct KeyValue<K, V> {
    key: K @1,
    value: V @2,
}
")
 (tx "/// Generic key-value pair.
struct KeyValue<K, V> {
    key: K @1,
    value: V @2,
}
") = true.
Proof. vm_compute. reflexivity. Qed.

(** tests/inputs/struct_many_ws.mabo *)
Example conf_struct_many_ws : prints (tx "
 /// Some comment
       struct      Sample<
            T
        >  {

      a:    u32    @1,
      b:    bool   @2,
      c:    T      @3,
    }
")
 (tx "/// Some comment
struct Sample<T> {
    a: u32 @1,
    b: bool @2,
    c: T @3,
}
") = true.
Proof. vm_compute. reflexivity. Qed.

(** tests/inputs/struct_min_ws.mabo *)
Example conf_struct_min_ws : prints (tx "struct Sample<T>{a:u32@1,b:bool@2,c:T@3}
")
 (tx "struct Sample<T> {
    a: u32 @1,
    b: bool @2,
    c: T @3
}
") = true.
Proof. vm_compute. reflexivity. Qed.

(** tests/inputs/struct_tuple.mabo *)
Example conf_struct_tuple : prints (tx "/// Basic struct.
struct Sample(u32 @1, bool @2)
")
 (tx "/// Basic struct.
struct Sample(u32 @1, bool @2)
") = true.
Proof. vm_compute. reflexivity. Qed.

(** tests/inputs/types_basic.mabo *)
Example conf_types_basic : prints (tx "struct Sample {
    f01: bool @1,
    f02: u8 @2,
    f03: u16 @3,
    f04: u32 @4,
    f05: u64 @5,
    f06: u128 @6,
    f07: i8 @7,
    f08: i16 @8,
    f09: i32 @9,
    f10: i64 @10,
    f11: i128 @11,
    f12: f32 @12,
    f13: f64 @13,
    f14: string @14,
    f15: &string @15,
    f16: bytes @16,
    f17: &bytes @17,
    f18: box<string> @18,
    f19: box<bytes> @19,
    f20: (u32, u32, u32) @20,
    f21: [u32; 12] @21,
}
")
 (tx "struct Sample {
    f01: bool @1,
    f02: u8 @2,
    f03: u16 @3,
    f04: u32 @4,
    f05: u64 @5,
    f06: u128 @6,
    f07: i8 @7,
    f08: i16 @8,
    f09: i32 @9,
    f10: i64 @10,
    f11: i128 @11,
    f12: f32 @12,
    f13: f64 @13,
    f14: string @14,
    f15: &string @15,
    f16: bytes @16,
    f17: &bytes @17,
    f18: box<string> @18,
    f19: box<bytes> @19,
    f20: (u32, u32, u32) @20,
    f21: [u32; 12] @21,
}
") = true.
Proof. vm_compute. reflexivity. Qed.

(** tests/inputs/types_generic.mabo *)
Example conf_types_generic : prints (tx "struct Sample {
    f1: vec<u32> @1,
    f2: hash_map<u32, string> @2,
    f3: hash_set<u32> @3,
    f4: option<u32> @4,
    f5: non_zero<u32> @5,
}

struct SampleUnnamed(
    vec<u32> @1,
    hash_map<u32, string> @2,
    hash_set<u32> @3,
    option<u32> @4,
    non_zero<u32> @5,
)
")
 (tx "struct Sample {
    f1: vec<u32> @1,
    f2: hash_map<u32, string> @2,
    f3: hash_set<u32> @3,
    f4: option<u32> @4,
    f5: non_zero<u32> @5,
}

struct SampleUnnamed(vec<u32> @1, hash_map<u32, string> @2, hash_set<u32> @3, option<u32> @4, non_zero<u32> @5,)
") = true.
Proof. vm_compute. reflexivity. Qed.

(** tests/inputs/types_nested.mabo *)
Example conf_types_nested : prints (tx "struct Sample {
    value: vec<option<non_zero<hash_map<i64, box<string>>>>> @1,
}
")
 (tx "struct Sample {
    value: vec<option<non_zero<hash_map<i64, box<string>>>>> @1,
}
") = true.
Proof. vm_compute. reflexivity. Qed.

(** tests/inputs/types_non_zero.mabo *)
Example conf_types_non_zero : prints (tx "struct Sample {
    f01: non_zero<u8> @1,
    f02: non_zero<u16> @2,
    f03: non_zero<u32> @3,
    f04: non_zero<u64> @4,
    f05: non_zero<u128> @5,
    f06: non_zero<i8> @6,
    f07: non_zero<i16> @7,
    f08: non_zero<i32> @8,
    f09: non_zero<i64> @9,
    f10: non_zero<i128> @10,
    f11: non_zero<string> @11,
    f12: non_zero<bytes> @12,
    f13: non_zero<vec<string>> @13,
    f14: non_zero<hash_map<string, bytes>> @14,
    f15: non_zero<hash_set<string>> @15,
}
")
 (tx "struct Sample {
    f01: non_zero<u8> @1,
    f02: non_zero<u16> @2,
    f03: non_zero<u32> @3,
    f04: non_zero<u64> @4,
    f05: non_zero<u128> @5,
    f06: non_zero<i8> @6,
    f07: non_zero<i16> @7,
    f08: non_zero<i32> @8,
    f09: non_zero<i64> @9,
    f10: non_zero<i128> @10,
    f11: non_zero<string> @11,
    f12: non_zero<bytes> @12,
    f13: non_zero<vec<string>> @13,
    f14: non_zero<hash_map<string, bytes>> @14,
    f15: non_zero<hash_set<string>> @15,
}
") = true.
Proof. vm_compute. reflexivity. Qed.

(** tests/inputs/types_ref.mabo *)
Example conf_types_ref : prints (tx "struct Sample {
    basic: Test123 @1,
    with_generics: KeyValue<u32, bool> @2,
}

enum Test123 {
    Value @1,
}

struct KeyValue<K, V> {
    key: K @1,
    value: V @2,
}
")
 (tx "struct Sample {
    basic: Test123 @1,
    with_generics: KeyValue<u32, bool> @2,
}

enum Test123 {
    Value @1,
}

struct KeyValue<K, V> {
    key: K @1,
    value: V @2,
}
") = true.
Proof. vm_compute. reflexivity. Qed.

(** tests/inputs/invalid/alias_name.mabo *)
Example conf_invalid_alias_name : rejects (tx "type sImple = Simple;
") = true.
Proof. vm_compute. reflexivity. Qed.

(** tests/inputs/invalid/alias_tuple_empty.mabo *)
Example conf_invalid_alias_tuple_empty : rejects (tx "type Sample = ();
") = true.
Proof. vm_compute. reflexivity. Qed.

(** tests/inputs/invalid/const_literal.mabo *)
Example conf_invalid_const_literal : rejects (tx "const VALUE: u32 = 1z;
") = true.
Proof. vm_compute. reflexivity. Qed.

(** tests/inputs/invalid/const_literal_bool.mabo *)
Example conf_invalid_const_literal_bool : rejects (tx "const VALUE: bool = truze;
") = true.
Proof. vm_compute. reflexivity. Qed.

(** tests/inputs/invalid/const_literal_float.mabo *)
Example conf_invalid_const_literal_float : rejects (tx "const VALUE: f64 = 1.0z;
") = true.
Proof. vm_compute. reflexivity. Qed.

(** tests/inputs/invalid/const_name.mabo *)
Example conf_invalid_const_name : rejects (tx "const vALUE: u32 = 1;
") = true.
Proof. vm_compute. reflexivity. Qed.

(** tests/inputs/invalid/enum_name.mabo *)
Example conf_invalid_enum_name : rejects (tx "enum sample {
    One @1,
}
") = true.
Proof. vm_compute. reflexivity. Qed.

(** tests/inputs/invalid/enum_named_tuple_empty.mabo *)
Example conf_invalid_enum_named_tuple_empty : rejects (tx "enum Sample {
    One @1,
    Two {
        field: () @1,
    } @2,
}
") = true.
Proof. vm_compute. reflexivity. Qed.

(** tests/inputs/invalid/enum_unnamed_tuple_empty.mabo *)
Example conf_invalid_enum_unnamed_tuple_empty : rejects (tx "enum Sample {
    One @1,
    Two(() @1) @2,
}
") = true.
Proof. vm_compute. reflexivity. Qed.

(** tests/inputs/invalid/field_name.mabo *)
Example conf_invalid_field_name : rejects (tx "struct Sample {
    1value: u32 @1,
}
") = true.
Proof. vm_compute. reflexivity. Qed.

(** tests/inputs/invalid/mod_name.mabo *)
Example conf_invalid_mod_name : rejects (tx "mod Sample {}
") = true.
Proof. vm_compute. reflexivity. Qed.

(** tests/inputs/invalid/struct_name.mabo *)
Example conf_invalid_struct_name : rejects (tx "struct sample {
    value: u32 @1,
}
") = true.
Proof. vm_compute. reflexivity. Qed.

(** tests/inputs/invalid/struct_named_tuple_empty.mabo *)
Example conf_invalid_struct_named_tuple_empty : rejects (tx "struct Sample {
    field: () @1,
}
") = true.
Proof. vm_compute. reflexivity. Qed.

(** tests/inputs/invalid/struct_unnamed_tuple_empty.mabo *)
Example conf_invalid_struct_unnamed_tuple_empty : rejects (tx "struct Sample(() @1)
") = true.
Proof. vm_compute. reflexivity. Qed.
