(** Conformance of the model of mabo-build with the repository's own tests (crates/mabo-build/tests/compiler.rs and its snapshots, generated
    from those files): parsing, simplifying and generating code for every input gives the tokens of the recorded text.  The recorded text went
    through prettyplease, which leaves out or adds final commas, empty statements and the braces around the body of an arm of a match; both
    sides are compared without them.  These are tests of the model, not proofs of properties. *)
From Verif Require Import Base Syntax Parser Compiler RustFile.
Require Coq.Strings.String.
Import Coq.Strings.String.StringSyntax.
Local Open Scope N_scope.
Definition pf (s : str) : option str := Some s.
Definition is_p (p : list N) (t : rt) : bool := match t with P s => str_eqb s p | _ => false end.
(** Final commas and semicolons. *)
Fixpoint strip (l : list rt) : list rt :=
  match l with
  | [] => []
  | t :: r => match strip r with
              | [] => if is_p [44] t || is_p [59] t then [] else [t]
              | r' => t :: r'
              end
  end.
Definition skip_comma (l : list rt) : list rt := match l with t :: r => if is_p [44] t then r else l | [] => [] end.
(** What prettyplease changes. *)
Fixpoint tidy (fuel : nat) (l : list rt) : list rt :=
  match fuel with
  | O => []
  | S f =>
      strip ((fix go (n : nat) (l : list rt) : list rt :=
        match n with
        | O => []
        | S n =>
            match l with
            | [] => []
            | P [61; 62] :: G Brc b :: r => P [61; 62] :: tidy f b ++ comma :: go n (skip_comma r)
            | P [44] :: P [62] :: r => P [62] :: go n r
            | P [59] :: P [59] :: r => go n (P [59] :: r)
            | Q [34; 32; 34] :: r => Q [34; 34] :: go n r      (* an empty line of documentation *)
            | G d b :: r => G d (tidy f b) :: go n r
            | t :: r => t :: go n r
            end
        end) (S (length l)) l)
  end.
Fixpoint flat (t : rt) : list str :=
  match t with
  | W s | P s | Q s => [s]
  | G d l => [match d with Par => 40 | Brk => 91 | Brc => 123 end] :: flat_map flat l ++ [[125]]
  end.
Fixpoint same (a b : list str) : bool :=
  match a, b with [], [] => true | x :: a', y :: b' => str_eqb x y && same a' b' | _, _ => false end.
Definition generated (i : str) : option (list rt) :=
  match schema_parse pf i with
  | Some s => match simplify_schema true s with
              | Some (_, ds) => if forallb generates ds then Some (schema_tokens false (fun s => s) (fun c => (c <? 32) || (c =? 127)) ds) else None
              | None => None
              end
  | None => None
  end.
(** tests/compiler.rs L20-37. *)
Definition compiles_to (i o : str) : bool :=
  match generated i, read o with
  | Some a, Some b => same (flat_map flat (tidy 100 a)) (flat_map flat (tidy 100 b))
  | _, _ => false
  end.

(** tests/inputs/alias_basic.mabo *)
Example rust_alias_basic : compiles_to (tx "/// Sample type alias.
type Sample = u32;
")
 (tx "#[allow(unused_imports)]
use ::mabo::buf::{Decode, Encode, Size};
/// Sample type alias.
#[allow(dead_code, clippy::module_name_repetitions, clippy::option_option)]
pub type Sample = u32;
") = true.
Proof. vm_cast_no_check (eq_refl true). Qed.

(** tests/inputs/attribute_multi.mabo *)
Example rust_attribute_multi : compiles_to (tx "#[validate(min = 1, max = 100)]
struct Sample
")
 (tx "#[allow(unused_imports)]
use ::mabo::buf::{Decode, Encode, Size};
#[derive(Clone, Debug, PartialEq)]
#[allow(dead_code, clippy::module_name_repetitions, clippy::option_option)]
pub struct Sample;
#[automatically_derived]
impl ::mabo::Encode for Sample {
    #[allow(
        clippy::borrow_deref_ref,
        clippy::deref_addrof,
        clippy::explicit_auto_deref,
        clippy::needless_borrow,
        clippy::too_many_lines,
    )]
    fn encode(&self, w: &mut impl ::mabo::BufMut) {
        let Self = self;
    }
}
#[automatically_derived]
impl ::mabo::Decode for Sample {
    #[allow(clippy::type_complexity, clippy::too_many_lines)]
    fn decode(r: &mut impl ::mabo::Buf) -> ::mabo::buf::Result<Self> {
        Ok(Self)
    }
}
#[automatically_derived]
impl ::mabo::buf::Size for Sample {
    #[allow(
        clippy::borrow_deref_ref,
        clippy::deref_addrof,
        clippy::explicit_auto_deref,
        clippy::needless_borrow,
        clippy::too_many_lines,
    )]
    fn size(&self) -> usize {
        let Self = self;
        0
    }
}
") = true.
Proof. vm_cast_no_check (eq_refl true). Qed.

(** tests/inputs/attribute_single.mabo *)
Example rust_attribute_single : compiles_to (tx "#[deprecated = ""don't use""]
struct Sample
")
 (tx "#[allow(unused_imports)]
use ::mabo::buf::{Decode, Encode, Size};
#[derive(Clone, Debug, PartialEq)]
#[allow(dead_code, clippy::module_name_repetitions, clippy::option_option)]
pub struct Sample;
#[automatically_derived]
impl ::mabo::Encode for Sample {
    #[allow(
        clippy::borrow_deref_ref,
        clippy::deref_addrof,
        clippy::explicit_auto_deref,
        clippy::needless_borrow,
        clippy::too_many_lines,
    )]
    fn encode(&self, w: &mut impl ::mabo::BufMut) {
        let Self = self;
    }
}
#[automatically_derived]
impl ::mabo::Decode for Sample {
    #[allow(clippy::type_complexity, clippy::too_many_lines)]
    fn decode(r: &mut impl ::mabo::Buf) -> ::mabo::buf::Result<Self> {
        Ok(Self)
    }
}
#[automatically_derived]
impl ::mabo::buf::Size for Sample {
    #[allow(
        clippy::borrow_deref_ref,
        clippy::deref_addrof,
        clippy::explicit_auto_deref,
        clippy::needless_borrow,
        clippy::too_many_lines,
    )]
    fn size(&self) -> usize {
        let Self = self;
        0
    }
}
") = true.
Proof. vm_cast_no_check (eq_refl true). Qed.

(** tests/inputs/attribute_unit.mabo *)
Example rust_attribute_unit : compiles_to (tx "#[deprecated]
struct Sample
")
 (tx "#[allow(unused_imports)]
use ::mabo::buf::{Decode, Encode, Size};
#[derive(Clone, Debug, PartialEq)]
#[allow(dead_code, clippy::module_name_repetitions, clippy::option_option)]
pub struct Sample;
#[automatically_derived]
impl ::mabo::Encode for Sample {
    #[allow(
        clippy::borrow_deref_ref,
        clippy::deref_addrof,
        clippy::explicit_auto_deref,
        clippy::needless_borrow,
        clippy::too_many_lines,
    )]
    fn encode(&self, w: &mut impl ::mabo::BufMut) {
        let Self = self;
    }
}
#[automatically_derived]
impl ::mabo::Decode for Sample {
    #[allow(clippy::type_complexity, clippy::too_many_lines)]
    fn decode(r: &mut impl ::mabo::Buf) -> ::mabo::buf::Result<Self> {
        Ok(Self)
    }
}
#[automatically_derived]
impl ::mabo::buf::Size for Sample {
    #[allow(
        clippy::borrow_deref_ref,
        clippy::deref_addrof,
        clippy::explicit_auto_deref,
        clippy::needless_borrow,
        clippy::too_many_lines,
    )]
    fn size(&self) -> usize {
        let Self = self;
        0
    }
}
") = true.
Proof. vm_cast_no_check (eq_refl true). Qed.

(** tests/inputs/attributes.mabo *)
Example rust_attributes : compiles_to (tx "#[deprecated = ""don't use"", compress]
#[validate(
    in_range(min = 100, max = 200),
    non_empty,
)]
struct Sample
")
 (tx "#[allow(unused_imports)]
use ::mabo::buf::{Decode, Encode, Size};
#[derive(Clone, Debug, PartialEq)]
#[allow(dead_code, clippy::module_name_repetitions, clippy::option_option)]
pub struct Sample;
#[automatically_derived]
impl ::mabo::Encode for Sample {
    #[allow(
        clippy::borrow_deref_ref,
        clippy::deref_addrof,
        clippy::explicit_auto_deref,
        clippy::needless_borrow,
        clippy::too_many_lines,
    )]
    fn encode(&self, w: &mut impl ::mabo::BufMut) {
        let Self = self;
    }
}
#[automatically_derived]
impl ::mabo::Decode for Sample {
    #[allow(clippy::type_complexity, clippy::too_many_lines)]
    fn decode(r: &mut impl ::mabo::Buf) -> ::mabo::buf::Result<Self> {
        Ok(Self)
    }
}
#[automatically_derived]
impl ::mabo::buf::Size for Sample {
    #[allow(
        clippy::borrow_deref_ref,
        clippy::deref_addrof,
        clippy::explicit_auto_deref,
        clippy::needless_borrow,
        clippy::too_many_lines,
    )]
    fn size(&self) -> usize {
        let Self = self;
        0
    }
}
") = true.
Proof. vm_cast_no_check (eq_refl true). Qed.

(** tests/inputs/attributes_min_ws.mabo *)
Example rust_attributes_min_ws : compiles_to (tx "#[deprecated=""don't use"",compress]
#[validate(in_range(min=100,max=200),non_empty)]
struct Sample
")
 (tx "#[allow(unused_imports)]
use ::mabo::buf::{Decode, Encode, Size};
#[derive(Clone, Debug, PartialEq)]
#[allow(dead_code, clippy::module_name_repetitions, clippy::option_option)]
pub struct Sample;
#[automatically_derived]
impl ::mabo::Encode for Sample {
    #[allow(
        clippy::borrow_deref_ref,
        clippy::deref_addrof,
        clippy::explicit_auto_deref,
        clippy::needless_borrow,
        clippy::too_many_lines,
    )]
    fn encode(&self, w: &mut impl ::mabo::BufMut) {
        let Self = self;
    }
}
#[automatically_derived]
impl ::mabo::Decode for Sample {
    #[allow(clippy::type_complexity, clippy::too_many_lines)]
    fn decode(r: &mut impl ::mabo::Buf) -> ::mabo::buf::Result<Self> {
        Ok(Self)
    }
}
#[automatically_derived]
impl ::mabo::buf::Size for Sample {
    #[allow(
        clippy::borrow_deref_ref,
        clippy::deref_addrof,
        clippy::explicit_auto_deref,
        clippy::needless_borrow,
        clippy::too_many_lines,
    )]
    fn size(&self) -> usize {
        let Self = self;
        0
    }
}
") = true.
Proof. vm_cast_no_check (eq_refl true). Qed.

(** tests/inputs/const_basic.mabo *)
Example rust_const_basic : compiles_to (tx "const BOOL_TRUE: bool = true;
const BOOL_FALSE: bool = false;
const INT: u32 = 100;
const FLOAT: f64 = 5.5;
const STRING: string = ""value"";
const BYTES: bytes = [1, 2, 3];
")
 (tx "#[allow(unused_imports)]
use ::mabo::buf::{Decode, Encode, Size};
#[allow(dead_code)]
pub const BOOL_TRUE: bool = true;
#[allow(dead_code)]
pub const BOOL_FALSE: bool = false;
#[allow(dead_code)]
pub const INT: u32 = 100;
#[allow(dead_code)]
pub const FLOAT: f64 = 5.5;
#[allow(dead_code)]
pub const STRING: &str = ""value"";
#[allow(dead_code)]
pub const BYTES: &[u8] = b""\x01\x02\x03"";
") = true.
Proof. vm_cast_no_check (eq_refl true). Qed.

(** tests/inputs/const_string.mabo *)
Example rust_const_string : compiles_to (tx "const SIMPLE: string = ""value"";

const NEWLINE_ESCAPE: string = ""one \
    two \
    three\
"";

const ESCAPES: string = ""escape basics \r\n \t \b \f \\ \""\
    hello\"" \n\
    unicode \u{2764}  \
    emoji " ++ [10084] ++ tx " \
"";

const MULTILINE: string = ""a
    b
    c
"";
")
 (tx "#[allow(unused_imports)]
use ::mabo::buf::{Decode, Encode, Size};
#[allow(dead_code)]
pub const SIMPLE: &str = ""value"";
#[allow(dead_code)]
pub const NEWLINE_ESCAPE: &str = ""one two three"";
#[allow(dead_code)]
pub const ESCAPES: &str = ""escape basics \r\n \t \u{8} \u{c} \\ \""hello\"" \nunicode " ++ [10084] ++ tx "  emoji " ++ [10084] ++ tx " "";
#[allow(dead_code)]
pub const MULTILINE: &str = ""a\n    b\n    c\n"";
") = true.
Proof. vm_cast_no_check (eq_refl true). Qed.

(** tests/inputs/enum_basic.mabo *)
Example rust_enum_basic : compiles_to (tx "/// Sample enum.
enum Sample {
    One @1,
    /// Second variant
    Two(u32 @1, u64 @2) @2,
    Three {
        field1: u32 @1,
        /// Second field of third variant
        field2: bool @2,
    } @3,
}
")
 (tx "#[allow(unused_imports)]
use ::mabo::buf::{Decode, Encode, Size};
/// Sample enum.
#[derive(Clone, Debug, PartialEq)]
#[allow(dead_code, clippy::module_name_repetitions, clippy::option_option)]
pub enum Sample {
    One,
    /// Second variant
    Two(u32, u64),
    Three {
        field1: u32,
        /// Second field of third variant
        field2: bool,
    },
}
#[automatically_derived]
impl ::mabo::Encode for Sample {
    #[allow(
        clippy::borrow_deref_ref,
        clippy::deref_addrof,
        clippy::semicolon_if_nothing_returned,
        clippy::too_many_lines,
    )]
    fn encode(&self, w: &mut impl ::mabo::BufMut) {
        match self {
            Self::One => {
                ::mabo::buf::encode_variant_id(w, ::mabo::VariantId::new(1));
            }
            Self::Two(n0, n1) => {
                ::mabo::buf::encode_variant_id(w, ::mabo::VariantId::new(2));
                ::mabo::buf::encode_field(
                    w,
                    ::mabo::FieldId::new(1, ::mabo::FieldEncoding::Varint),
                    |w| {
                        ::mabo::buf::encode_u32(w, *n0);
                    },
                );
                ::mabo::buf::encode_field(
                    w,
                    ::mabo::FieldId::new(2, ::mabo::FieldEncoding::Varint),
                    |w| {
                        ::mabo::buf::encode_u64(w, *n1);
                    },
                );
                ::mabo::buf::encode_u32(w, ::mabo::buf::END_MARKER);
            }
            Self::Three { field1, field2 } => {
                ::mabo::buf::encode_variant_id(w, ::mabo::VariantId::new(3));
                ::mabo::buf::encode_field(
                    w,
                    ::mabo::FieldId::new(1, ::mabo::FieldEncoding::Varint),
                    |w| {
                        ::mabo::buf::encode_u32(w, *field1);
                    },
                );
                ::mabo::buf::encode_field(
                    w,
                    ::mabo::FieldId::new(2, ::mabo::FieldEncoding::Fixed1),
                    |w| {
                        ::mabo::buf::encode_bool(w, *field2);
                    },
                );
                ::mabo::buf::encode_u32(w, ::mabo::buf::END_MARKER);
            }
        }
    }
}
#[automatically_derived]
impl ::mabo::Decode for Sample {
    #[allow(clippy::too_many_lines)]
    fn decode(r: &mut impl ::mabo::Buf) -> ::mabo::buf::Result<Self> {
        match ::mabo::buf::decode_variant_id(r)?.value {
            1 => Ok(Self::One),
            2 => {
                let mut n0: Option<u32> = None;
                let mut n1: Option<u64> = None;
                loop {
                    let id = ::mabo::buf::decode_id(r)?;
                    match id.value {
                        ::mabo::buf::END_MARKER => break,
                        1 => n0 = Some(::mabo::buf::decode_u32(r)?),
                        2 => n1 = Some(::mabo::buf::decode_u64(r)?),
                        _ => ::mabo::buf::decode_skip(r, id.encoding)?,
                    }
                }
                Ok(
                    Self::Two(
                        n0
                            .ok_or(::mabo::buf::Error::MissingField {
                                id: 1,
                                name: None,
                            })?,
                        n1
                            .ok_or(::mabo::buf::Error::MissingField {
                                id: 2,
                                name: None,
                            })?,
                    ),
                )
            }
            3 => {
                let mut field1: Option<u32> = None;
                let mut field2: Option<bool> = None;
                loop {
                    let id = ::mabo::buf::decode_id(r)?;
                    match id.value {
                        ::mabo::buf::END_MARKER => break,
                        1 => field1 = Some(::mabo::buf::decode_u32(r)?),
                        2 => field2 = Some(::mabo::buf::decode_bool(r)?),
                        _ => ::mabo::buf::decode_skip(r, id.encoding)?,
                    }
                }
                Ok(Self::Three {
                    field1: field1
                        .ok_or(::mabo::buf::Error::MissingField {
                            id: 1,
                            name: Some(""field1""),
                        })?,
                    field2: field2
                        .ok_or(::mabo::buf::Error::MissingField {
                            id: 2,
                            name: Some(""field2""),
                        })?,
                })
            }
            id => Err(::mabo::buf::Error::UnknownVariant(id)),
        }
    }
}
#[automatically_derived]
impl ::mabo::buf::Size for Sample {
    #[allow(
        clippy::borrow_deref_ref,
        clippy::deref_addrof,
        clippy::semicolon_if_nothing_returned,
        clippy::too_many_lines,
    )]
    fn size(&self) -> usize {
        match self {
            Self::One => ::mabo::buf::size_variant_id(1),
            Self::Two(n0, n1) => {
                ::mabo::buf::size_variant_id(2)
                    + ::mabo::buf::size_field(1, || { ::mabo::buf::size_u32(*n0) })
                    + ::mabo::buf::size_field(2, || { ::mabo::buf::size_u64(*n1) })
                    + ::mabo::buf::END_MARKER_SIZE
            }
            Self::Three { field1, field2 } => {
                ::mabo::buf::size_variant_id(3)
                    + ::mabo::buf::size_field(1, || { ::mabo::buf::size_u32(*field1) })
                    + ::mabo::buf::size_field(2, || { ::mabo::buf::size_bool(*field2) })
                    + ::mabo::buf::END_MARKER_SIZE
            }
        }
    }
}
") = true.
Proof. vm_cast_no_check (eq_refl true). Qed.

(** tests/inputs/enum_generics.mabo *)
Example rust_enum_generics : compiles_to (tx "/// Enum with generics.
enum Sample<A, B, C, D> {
    One @1,
    Two(A @1, B @2) @2,
    Three {
        field1: C @1,
        field2: D @2,
    } @3,
}
")
 (tx "#[allow(unused_imports)]
use ::mabo::buf::{Decode, Encode, Size};
/// Enum with generics.
#[derive(Clone, Debug, PartialEq)]
#[allow(dead_code, clippy::module_name_repetitions, clippy::option_option)]
pub enum Sample<A, B, C, D> {
    One,
    Two(A, B),
    Three { field1: C, field2: D },
}
#[automatically_derived]
impl<A, B, C, D> ::mabo::Encode for Sample<A, B, C, D>
where
    A: ::mabo::buf::Encode + ::mabo::buf::Size,
    B: ::mabo::buf::Encode + ::mabo::buf::Size,
    C: ::mabo::buf::Encode + ::mabo::buf::Size,
    D: ::mabo::buf::Encode + ::mabo::buf::Size,
{
    #[allow(
        clippy::borrow_deref_ref,
        clippy::deref_addrof,
        clippy::semicolon_if_nothing_returned,
        clippy::too_many_lines,
    )]
    fn encode(&self, w: &mut impl ::mabo::BufMut) {
        match self {
            Self::One => {
                ::mabo::buf::encode_variant_id(w, ::mabo::VariantId::new(1));
            }
            Self::Two(n0, n1) => {
                ::mabo::buf::encode_variant_id(w, ::mabo::VariantId::new(2));
                ::mabo::buf::encode_field(
                    w,
                    ::mabo::FieldId::new(1, ::mabo::FieldEncoding::LengthPrefixed),
                    |w| {
                        n0.encode(w);
                    },
                );
                ::mabo::buf::encode_field(
                    w,
                    ::mabo::FieldId::new(2, ::mabo::FieldEncoding::LengthPrefixed),
                    |w| {
                        n1.encode(w);
                    },
                );
                ::mabo::buf::encode_u32(w, ::mabo::buf::END_MARKER);
            }
            Self::Three { field1, field2 } => {
                ::mabo::buf::encode_variant_id(w, ::mabo::VariantId::new(3));
                ::mabo::buf::encode_field(
                    w,
                    ::mabo::FieldId::new(1, ::mabo::FieldEncoding::LengthPrefixed),
                    |w| {
                        field1.encode(w);
                    },
                );
                ::mabo::buf::encode_field(
                    w,
                    ::mabo::FieldId::new(2, ::mabo::FieldEncoding::LengthPrefixed),
                    |w| {
                        field2.encode(w);
                    },
                );
                ::mabo::buf::encode_u32(w, ::mabo::buf::END_MARKER);
            }
        }
    }
}
#[automatically_derived]
impl<A, B, C, D> ::mabo::Decode for Sample<A, B, C, D>
where
    A: ::std::fmt::Debug + ::mabo::buf::Decode,
    B: ::std::fmt::Debug + ::mabo::buf::Decode,
    C: ::std::fmt::Debug + ::mabo::buf::Decode,
    D: ::std::fmt::Debug + ::mabo::buf::Decode,
{
    #[allow(clippy::too_many_lines)]
    fn decode(r: &mut impl ::mabo::Buf) -> ::mabo::buf::Result<Self> {
        match ::mabo::buf::decode_variant_id(r)?.value {
            1 => Ok(Self::One),
            2 => {
                let mut n0: Option<A> = None;
                let mut n1: Option<B> = None;
                loop {
                    let id = ::mabo::buf::decode_id(r)?;
                    match id.value {
                        ::mabo::buf::END_MARKER => break,
                        1 => n0 = Some(A::decode(r)?),
                        2 => n1 = Some(B::decode(r)?),
                        _ => ::mabo::buf::decode_skip(r, id.encoding)?,
                    }
                }
                Ok(
                    Self::Two(
                        n0
                            .ok_or(::mabo::buf::Error::MissingField {
                                id: 1,
                                name: None,
                            })?,
                        n1
                            .ok_or(::mabo::buf::Error::MissingField {
                                id: 2,
                                name: None,
                            })?,
                    ),
                )
            }
            3 => {
                let mut field1: Option<C> = None;
                let mut field2: Option<D> = None;
                loop {
                    let id = ::mabo::buf::decode_id(r)?;
                    match id.value {
                        ::mabo::buf::END_MARKER => break,
                        1 => field1 = Some(C::decode(r)?),
                        2 => field2 = Some(D::decode(r)?),
                        _ => ::mabo::buf::decode_skip(r, id.encoding)?,
                    }
                }
                Ok(Self::Three {
                    field1: field1
                        .ok_or(::mabo::buf::Error::MissingField {
                            id: 1,
                            name: Some(""field1""),
                        })?,
                    field2: field2
                        .ok_or(::mabo::buf::Error::MissingField {
                            id: 2,
                            name: Some(""field2""),
                        })?,
                })
            }
            id => Err(::mabo::buf::Error::UnknownVariant(id)),
        }
    }
}
#[automatically_derived]
impl<A, B, C, D> ::mabo::buf::Size for Sample<A, B, C, D>
where
    A: ::mabo::buf::Size,
    B: ::mabo::buf::Size,
    C: ::mabo::buf::Size,
    D: ::mabo::buf::Size,
{
    #[allow(
        clippy::borrow_deref_ref,
        clippy::deref_addrof,
        clippy::semicolon_if_nothing_returned,
        clippy::too_many_lines,
    )]
    fn size(&self) -> usize {
        match self {
            Self::One => ::mabo::buf::size_variant_id(1),
            Self::Two(n0, n1) => {
                ::mabo::buf::size_variant_id(2)
                    + ::mabo::buf::size_field(1, || { n0.size() })
                    + ::mabo::buf::size_field(2, || { n1.size() })
                    + ::mabo::buf::END_MARKER_SIZE
            }
            Self::Three { field1, field2 } => {
                ::mabo::buf::size_variant_id(3)
                    + ::mabo::buf::size_field(1, || { field1.size() })
                    + ::mabo::buf::size_field(2, || { field2.size() })
                    + ::mabo::buf::END_MARKER_SIZE
            }
        }
    }
}
") = true.
Proof. vm_cast_no_check (eq_refl true). Qed.

(** tests/inputs/enum_many_ws.mabo *)
Example rust_enum_many_ws : compiles_to (tx "
 /// Sample enum.
 enum     Sample    {

       One      @1,

       Two  (   u32   @1,     u64     @2)    @2,

            Three     {

                    field1:    u32      @1,

                    field2:    bool     @2,

            }    @3,

 }
")
 (tx "#[allow(unused_imports)]
use ::mabo::buf::{Decode, Encode, Size};
/// Sample enum.
#[derive(Clone, Debug, PartialEq)]
#[allow(dead_code, clippy::module_name_repetitions, clippy::option_option)]
pub enum Sample {
    One,
    Two(u32, u64),
    Three { field1: u32, field2: bool },
}
#[automatically_derived]
impl ::mabo::Encode for Sample {
    #[allow(
        clippy::borrow_deref_ref,
        clippy::deref_addrof,
        clippy::semicolon_if_nothing_returned,
        clippy::too_many_lines,
    )]
    fn encode(&self, w: &mut impl ::mabo::BufMut) {
        match self {
            Self::One => {
                ::mabo::buf::encode_variant_id(w, ::mabo::VariantId::new(1));
            }
            Self::Two(n0, n1) => {
                ::mabo::buf::encode_variant_id(w, ::mabo::VariantId::new(2));
                ::mabo::buf::encode_field(
                    w,
                    ::mabo::FieldId::new(1, ::mabo::FieldEncoding::Varint),
                    |w| {
                        ::mabo::buf::encode_u32(w, *n0);
                    },
                );
                ::mabo::buf::encode_field(
                    w,
                    ::mabo::FieldId::new(2, ::mabo::FieldEncoding::Varint),
                    |w| {
                        ::mabo::buf::encode_u64(w, *n1);
                    },
                );
                ::mabo::buf::encode_u32(w, ::mabo::buf::END_MARKER);
            }
            Self::Three { field1, field2 } => {
                ::mabo::buf::encode_variant_id(w, ::mabo::VariantId::new(3));
                ::mabo::buf::encode_field(
                    w,
                    ::mabo::FieldId::new(1, ::mabo::FieldEncoding::Varint),
                    |w| {
                        ::mabo::buf::encode_u32(w, *field1);
                    },
                );
                ::mabo::buf::encode_field(
                    w,
                    ::mabo::FieldId::new(2, ::mabo::FieldEncoding::Fixed1),
                    |w| {
                        ::mabo::buf::encode_bool(w, *field2);
                    },
                );
                ::mabo::buf::encode_u32(w, ::mabo::buf::END_MARKER);
            }
        }
    }
}
#[automatically_derived]
impl ::mabo::Decode for Sample {
    #[allow(clippy::too_many_lines)]
    fn decode(r: &mut impl ::mabo::Buf) -> ::mabo::buf::Result<Self> {
        match ::mabo::buf::decode_variant_id(r)?.value {
            1 => Ok(Self::One),
            2 => {
                let mut n0: Option<u32> = None;
                let mut n1: Option<u64> = None;
                loop {
                    let id = ::mabo::buf::decode_id(r)?;
                    match id.value {
                        ::mabo::buf::END_MARKER => break,
                        1 => n0 = Some(::mabo::buf::decode_u32(r)?),
                        2 => n1 = Some(::mabo::buf::decode_u64(r)?),
                        _ => ::mabo::buf::decode_skip(r, id.encoding)?,
                    }
                }
                Ok(
                    Self::Two(
                        n0
                            .ok_or(::mabo::buf::Error::MissingField {
                                id: 1,
                                name: None,
                            })?,
                        n1
                            .ok_or(::mabo::buf::Error::MissingField {
                                id: 2,
                                name: None,
                            })?,
                    ),
                )
            }
            3 => {
                let mut field1: Option<u32> = None;
                let mut field2: Option<bool> = None;
                loop {
                    let id = ::mabo::buf::decode_id(r)?;
                    match id.value {
                        ::mabo::buf::END_MARKER => break,
                        1 => field1 = Some(::mabo::buf::decode_u32(r)?),
                        2 => field2 = Some(::mabo::buf::decode_bool(r)?),
                        _ => ::mabo::buf::decode_skip(r, id.encoding)?,
                    }
                }
                Ok(Self::Three {
                    field1: field1
                        .ok_or(::mabo::buf::Error::MissingField {
                            id: 1,
                            name: Some(""field1""),
                        })?,
                    field2: field2
                        .ok_or(::mabo::buf::Error::MissingField {
                            id: 2,
                            name: Some(""field2""),
                        })?,
                })
            }
            id => Err(::mabo::buf::Error::UnknownVariant(id)),
        }
    }
}
#[automatically_derived]
impl ::mabo::buf::Size for Sample {
    #[allow(
        clippy::borrow_deref_ref,
        clippy::deref_addrof,
        clippy::semicolon_if_nothing_returned,
        clippy::too_many_lines,
    )]
    fn size(&self) -> usize {
        match self {
            Self::One => ::mabo::buf::size_variant_id(1),
            Self::Two(n0, n1) => {
                ::mabo::buf::size_variant_id(2)
                    + ::mabo::buf::size_field(1, || { ::mabo::buf::size_u32(*n0) })
                    + ::mabo::buf::size_field(2, || { ::mabo::buf::size_u64(*n1) })
                    + ::mabo::buf::END_MARKER_SIZE
            }
            Self::Three { field1, field2 } => {
                ::mabo::buf::size_variant_id(3)
                    + ::mabo::buf::size_field(1, || { ::mabo::buf::size_u32(*field1) })
                    + ::mabo::buf::size_field(2, || { ::mabo::buf::size_bool(*field2) })
                    + ::mabo::buf::END_MARKER_SIZE
            }
        }
    }
}
") = true.
Proof. vm_cast_no_check (eq_refl true). Qed.

(** tests/inputs/enum_min_ws.mabo *)
Example rust_enum_min_ws : compiles_to (tx "enum Sample<T>{One@1,Two(u32@1,u64@2,T@3)@2,Three{field1:u32@1,field2:bool@2,field3:T@3}@3}
")
 (tx "#[allow(unused_imports)]
use ::mabo::buf::{Decode, Encode, Size};
#[derive(Clone, Debug, PartialEq)]
#[allow(dead_code, clippy::module_name_repetitions, clippy::option_option)]
pub enum Sample<T> {
    One,
    Two(u32, u64, T),
    Three { field1: u32, field2: bool, field3: T },
}
#[automatically_derived]
impl<T> ::mabo::Encode for Sample<T>
where
    T: ::mabo::buf::Encode + ::mabo::buf::Size,
{
    #[allow(
        clippy::borrow_deref_ref,
        clippy::deref_addrof,
        clippy::semicolon_if_nothing_returned,
        clippy::too_many_lines,
    )]
    fn encode(&self, w: &mut impl ::mabo::BufMut) {
        match self {
            Self::One => {
                ::mabo::buf::encode_variant_id(w, ::mabo::VariantId::new(1));
            }
            Self::Two(n0, n1, n2) => {
                ::mabo::buf::encode_variant_id(w, ::mabo::VariantId::new(2));
                ::mabo::buf::encode_field(
                    w,
                    ::mabo::FieldId::new(1, ::mabo::FieldEncoding::Varint),
                    |w| {
                        ::mabo::buf::encode_u32(w, *n0);
                    },
                );
                ::mabo::buf::encode_field(
                    w,
                    ::mabo::FieldId::new(2, ::mabo::FieldEncoding::Varint),
                    |w| {
                        ::mabo::buf::encode_u64(w, *n1);
                    },
                );
                ::mabo::buf::encode_field(
                    w,
                    ::mabo::FieldId::new(3, ::mabo::FieldEncoding::LengthPrefixed),
                    |w| {
                        n2.encode(w);
                    },
                );
                ::mabo::buf::encode_u32(w, ::mabo::buf::END_MARKER);
            }
            Self::Three { field1, field2, field3 } => {
                ::mabo::buf::encode_variant_id(w, ::mabo::VariantId::new(3));
                ::mabo::buf::encode_field(
                    w,
                    ::mabo::FieldId::new(1, ::mabo::FieldEncoding::Varint),
                    |w| {
                        ::mabo::buf::encode_u32(w, *field1);
                    },
                );
                ::mabo::buf::encode_field(
                    w,
                    ::mabo::FieldId::new(2, ::mabo::FieldEncoding::Fixed1),
                    |w| {
                        ::mabo::buf::encode_bool(w, *field2);
                    },
                );
                ::mabo::buf::encode_field(
                    w,
                    ::mabo::FieldId::new(3, ::mabo::FieldEncoding::LengthPrefixed),
                    |w| {
                        field3.encode(w);
                    },
                );
                ::mabo::buf::encode_u32(w, ::mabo::buf::END_MARKER);
            }
        }
    }
}
#[automatically_derived]
impl<T> ::mabo::Decode for Sample<T>
where
    T: ::std::fmt::Debug + ::mabo::buf::Decode,
{
    #[allow(clippy::too_many_lines)]
    fn decode(r: &mut impl ::mabo::Buf) -> ::mabo::buf::Result<Self> {
        match ::mabo::buf::decode_variant_id(r)?.value {
            1 => Ok(Self::One),
            2 => {
                let mut n0: Option<u32> = None;
                let mut n1: Option<u64> = None;
                let mut n2: Option<T> = None;
                loop {
                    let id = ::mabo::buf::decode_id(r)?;
                    match id.value {
                        ::mabo::buf::END_MARKER => break,
                        1 => n0 = Some(::mabo::buf::decode_u32(r)?),
                        2 => n1 = Some(::mabo::buf::decode_u64(r)?),
                        3 => n2 = Some(T::decode(r)?),
                        _ => ::mabo::buf::decode_skip(r, id.encoding)?,
                    }
                }
                Ok(
                    Self::Two(
                        n0
                            .ok_or(::mabo::buf::Error::MissingField {
                                id: 1,
                                name: None,
                            })?,
                        n1
                            .ok_or(::mabo::buf::Error::MissingField {
                                id: 2,
                                name: None,
                            })?,
                        n2
                            .ok_or(::mabo::buf::Error::MissingField {
                                id: 3,
                                name: None,
                            })?,
                    ),
                )
            }
            3 => {
                let mut field1: Option<u32> = None;
                let mut field2: Option<bool> = None;
                let mut field3: Option<T> = None;
                loop {
                    let id = ::mabo::buf::decode_id(r)?;
                    match id.value {
                        ::mabo::buf::END_MARKER => break,
                        1 => field1 = Some(::mabo::buf::decode_u32(r)?),
                        2 => field2 = Some(::mabo::buf::decode_bool(r)?),
                        3 => field3 = Some(T::decode(r)?),
                        _ => ::mabo::buf::decode_skip(r, id.encoding)?,
                    }
                }
                Ok(Self::Three {
                    field1: field1
                        .ok_or(::mabo::buf::Error::MissingField {
                            id: 1,
                            name: Some(""field1""),
                        })?,
                    field2: field2
                        .ok_or(::mabo::buf::Error::MissingField {
                            id: 2,
                            name: Some(""field2""),
                        })?,
                    field3: field3
                        .ok_or(::mabo::buf::Error::MissingField {
                            id: 3,
                            name: Some(""field3""),
                        })?,
                })
            }
            id => Err(::mabo::buf::Error::UnknownVariant(id)),
        }
    }
}
#[automatically_derived]
impl<T> ::mabo::buf::Size for Sample<T>
where
    T: ::mabo::buf::Size,
{
    #[allow(
        clippy::borrow_deref_ref,
        clippy::deref_addrof,
        clippy::semicolon_if_nothing_returned,
        clippy::too_many_lines,
    )]
    fn size(&self) -> usize {
        match self {
            Self::One => ::mabo::buf::size_variant_id(1),
            Self::Two(n0, n1, n2) => {
                ::mabo::buf::size_variant_id(2)
                    + ::mabo::buf::size_field(1, || { ::mabo::buf::size_u32(*n0) })
                    + ::mabo::buf::size_field(2, || { ::mabo::buf::size_u64(*n1) })
                    + ::mabo::buf::size_field(3, || { n2.size() })
                    + ::mabo::buf::END_MARKER_SIZE
            }
            Self::Three { field1, field2, field3 } => {
                ::mabo::buf::size_variant_id(3)
                    + ::mabo::buf::size_field(1, || { ::mabo::buf::size_u32(*field1) })
                    + ::mabo::buf::size_field(2, || { ::mabo::buf::size_bool(*field2) })
                    + ::mabo::buf::size_field(3, || { field3.size() })
                    + ::mabo::buf::END_MARKER_SIZE
            }
        }
    }
}
") = true.
Proof. vm_cast_no_check (eq_refl true). Qed.

(** tests/inputs/import_basic.mabo *)
Example rust_import_basic : compiles_to (tx "use other::schema::Sample;
use second::submodule;
")
 (tx "#[allow(unused_imports)]
use ::mabo::buf::{Decode, Encode, Size};
#[allow(unused_imports)]
use super::other::schema::Sample;
#[allow(unused_imports)]
use super::second::submodule;
") = true.
Proof. vm_cast_no_check (eq_refl true). Qed.

(** tests/inputs/mixed.mabo *)
Example rust_mixed : compiles_to (tx "/// Schema with a bit of everything, to try out more complex scenarios.

/// Basic user information.
///
/// Uses various other `structs` and `enums` to compose the information
/// in a **type safe** way.
struct User {
    name: FullName @1,
    /// Physical address, might not be specified by the user.
    address: option<Address> @2,
    age: u8 @3,
    birthday: birthday::DayOfBirth @4,
}

/// Full name of a user.
struct FullName {
    first: string @1,
    middle: option<string> @2,
    last: string @3,
}

/// Simple alias for convenience.
///
/// - Might be easier to remember.
/// - Often referenced as this.
type Name = FullName;

struct Address {
    /// Street name.
    street: string @1,
    /// Number of the house in the street.
    house_no: HouseNumber @2,
    city: string @3,
}

/// The number on the house.
///
/// More details can be found at [Wikipedia](https://en.wikipedia.org/wiki/House_numbering).
enum HouseNumber {
    /// Digit only number.
    Digit(u16 @1) @1,
    /// Mixed _number_ with characters like `1a`.
    Text(string @1) @2,
}

/// Probably the max age of a human, currently.
const MAX_AGE: u8 = 120;


/// Details for defining birthdays.
mod birthday {
    /// As the name suggests, specifies details about birthdays.
    enum DayOfBirth {
        Specific {
            year: u16 @1,
            month: Month @2,
            day: u8 @3,
        } @1,
        /// The user didn't want to say.
        Secret {
            /// Optional info from the user about why they didn't want to
            /// reveal their birthday.
            reason: option<string> @1,
        } @2,
        /// We never asked and nobody knows.
        Unknown @3,
    }

    /// Let's assume we only have details of people born **after** this year.
    const MIN_YEAR: u16 = 1900;

    /// Absolute maximum for a day, but might be even less depending
    /// on the month.
    const MAX_DAY: u8 = 31;

    /// The month of the year.
    enum Month {
        January @1,
        February @2,
        March @3,
        April @4,
        May @5,
        June @6,
        July @7,
        August @8,
        September @9,
        October @10,
        November @11,
        December @12,
    }
}
")
 (tx "#[allow(unused_imports)]
use ::mabo::buf::{Decode, Encode, Size};
/// Basic user information.
///
/// Uses various other `structs` and `enums` to compose the information
/// in a **type safe** way.
#[derive(Clone, Debug, PartialEq)]
#[allow(dead_code, clippy::module_name_repetitions, clippy::option_option)]
pub struct User {
    pub name: FullName,
    /// Physical address, might not be specified by the user.
    pub address: Option<Address>,
    pub age: u8,
    pub birthday: birthday::DayOfBirth,
}
#[automatically_derived]
impl ::mabo::Encode for User {
    #[allow(
        clippy::borrow_deref_ref,
        clippy::deref_addrof,
        clippy::explicit_auto_deref,
        clippy::needless_borrow,
        clippy::too_many_lines,
    )]
    fn encode(&self, w: &mut impl ::mabo::BufMut) {
        let Self { name, address, age, birthday } = self;
        ::mabo::buf::encode_field(
            w,
            ::mabo::FieldId::new(1, ::mabo::FieldEncoding::LengthPrefixed),
            |w| {
                name.encode(w);
            },
        );
        ::mabo::buf::encode_field_option(
            w,
            ::mabo::FieldId::new(2, ::mabo::FieldEncoding::LengthPrefixed),
            address,
            |w, v| {
                v.encode(w);
            },
        );
        ::mabo::buf::encode_field(
            w,
            ::mabo::FieldId::new(3, ::mabo::FieldEncoding::Fixed1),
            |w| {
                ::mabo::buf::encode_u8(w, *age);
            },
        );
        ::mabo::buf::encode_field(
            w,
            ::mabo::FieldId::new(4, ::mabo::FieldEncoding::LengthPrefixed),
            |w| {
                birthday.encode(w);
            },
        );
        ::mabo::buf::encode_u32(w, ::mabo::buf::END_MARKER);
    }
}
#[automatically_derived]
impl ::mabo::Decode for User {
    #[allow(clippy::type_complexity, clippy::too_many_lines)]
    fn decode(r: &mut impl ::mabo::Buf) -> ::mabo::buf::Result<Self> {
        let mut name: Option<FullName> = None;
        let mut address: Option<Address> = None;
        let mut age: Option<u8> = None;
        let mut birthday: Option<birthday::DayOfBirth> = None;
        loop {
            let id = ::mabo::buf::decode_id(r)?;
            match id.value {
                ::mabo::buf::END_MARKER => break,
                1 => name = Some(FullName::decode(r)?),
                2 => address = Some(Address::decode(r)?),
                3 => age = Some(::mabo::buf::decode_u8(r)?),
                4 => birthday = Some(birthday::DayOfBirth::decode(r)?),
                _ => ::mabo::buf::decode_skip(r, id.encoding)?,
            }
        }
        Ok(Self {
            name: name
                .ok_or(::mabo::buf::Error::MissingField {
                    id: 1,
                    name: Some(""name""),
                })?,
            address,
            age: age
                .ok_or(::mabo::buf::Error::MissingField {
                    id: 3,
                    name: Some(""age""),
                })?,
            birthday: birthday
                .ok_or(::mabo::buf::Error::MissingField {
                    id: 4,
                    name: Some(""birthday""),
                })?,
        })
    }
}
#[automatically_derived]
impl ::mabo::buf::Size for User {
    #[allow(
        clippy::borrow_deref_ref,
        clippy::deref_addrof,
        clippy::explicit_auto_deref,
        clippy::needless_borrow,
        clippy::too_many_lines,
    )]
    fn size(&self) -> usize {
        let Self { name, address, age, birthday } = self;
        ::mabo::buf::size_field(1, || { name.size() })
            + ::mabo::buf::size_field_option(2, address.as_ref(), |v| { v.size() })
            + ::mabo::buf::size_field(3, || { ::mabo::buf::size_u8(*age) })
            + ::mabo::buf::size_field(4, || { birthday.size() })
            + ::mabo::buf::END_MARKER_SIZE
    }
}
/// Full name of a user.
#[derive(Clone, Debug, PartialEq)]
#[allow(dead_code, clippy::module_name_repetitions, clippy::option_option)]
pub struct FullName {
    pub first: String,
    pub middle: Option<String>,
    pub last: String,
}
#[automatically_derived]
impl ::mabo::Encode for FullName {
    #[allow(
        clippy::borrow_deref_ref,
        clippy::deref_addrof,
        clippy::explicit_auto_deref,
        clippy::needless_borrow,
        clippy::too_many_lines,
    )]
    fn encode(&self, w: &mut impl ::mabo::BufMut) {
        let Self { first, middle, last } = self;
        ::mabo::buf::encode_field(
            w,
            ::mabo::FieldId::new(1, ::mabo::FieldEncoding::LengthPrefixed),
            |w| {
                ::mabo::buf::encode_string(w, first);
            },
        );
        ::mabo::buf::encode_field_option(
            w,
            ::mabo::FieldId::new(2, ::mabo::FieldEncoding::LengthPrefixed),
            middle,
            |w, v| {
                ::mabo::buf::encode_string(w, v);
            },
        );
        ::mabo::buf::encode_field(
            w,
            ::mabo::FieldId::new(3, ::mabo::FieldEncoding::LengthPrefixed),
            |w| {
                ::mabo::buf::encode_string(w, last);
            },
        );
        ::mabo::buf::encode_u32(w, ::mabo::buf::END_MARKER);
    }
}
#[automatically_derived]
impl ::mabo::Decode for FullName {
    #[allow(clippy::type_complexity, clippy::too_many_lines)]
    fn decode(r: &mut impl ::mabo::Buf) -> ::mabo::buf::Result<Self> {
        let mut first: Option<String> = None;
        let mut middle: Option<String> = None;
        let mut last: Option<String> = None;
        loop {
            let id = ::mabo::buf::decode_id(r)?;
            match id.value {
                ::mabo::buf::END_MARKER => break,
                1 => first = Some(::mabo::buf::decode_string(r)?),
                2 => middle = Some(::mabo::buf::decode_string(r)?),
                3 => last = Some(::mabo::buf::decode_string(r)?),
                _ => ::mabo::buf::decode_skip(r, id.encoding)?,
            }
        }
        Ok(Self {
            first: first
                .ok_or(::mabo::buf::Error::MissingField {
                    id: 1,
                    name: Some(""first""),
                })?,
            middle,
            last: last
                .ok_or(::mabo::buf::Error::MissingField {
                    id: 3,
                    name: Some(""last""),
                })?,
        })
    }
}
#[automatically_derived]
impl ::mabo::buf::Size for FullName {
    #[allow(
        clippy::borrow_deref_ref,
        clippy::deref_addrof,
        clippy::explicit_auto_deref,
        clippy::needless_borrow,
        clippy::too_many_lines,
    )]
    fn size(&self) -> usize {
        let Self { first, middle, last } = self;
        ::mabo::buf::size_field(1, || { ::mabo::buf::size_string(first) })
            + ::mabo::buf::size_field_option(
                2,
                middle.as_ref(),
                |v| { ::mabo::buf::size_string(v) },
            ) + ::mabo::buf::size_field(3, || { ::mabo::buf::size_string(last) })
            + ::mabo::buf::END_MARKER_SIZE
    }
}
/// Simple alias for convenience.
///
/// - Might be easier to remember.
/// - Often referenced as this.
#[allow(dead_code, clippy::module_name_repetitions, clippy::option_option)]
pub type Name = FullName;
#[derive(Clone, Debug, PartialEq)]
#[allow(dead_code, clippy::module_name_repetitions, clippy::option_option)]
pub struct Address {
    /// Street name.
    pub street: String,
    /// Number of the house in the street.
    pub house_no: HouseNumber,
    pub city: String,
}
#[automatically_derived]
impl ::mabo::Encode for Address {
    #[allow(
        clippy::borrow_deref_ref,
        clippy::deref_addrof,
        clippy::explicit_auto_deref,
        clippy::needless_borrow,
        clippy::too_many_lines,
    )]
    fn encode(&self, w: &mut impl ::mabo::BufMut) {
        let Self { street, house_no, city } = self;
        ::mabo::buf::encode_field(
            w,
            ::mabo::FieldId::new(1, ::mabo::FieldEncoding::LengthPrefixed),
            |w| {
                ::mabo::buf::encode_string(w, street);
            },
        );
        ::mabo::buf::encode_field(
            w,
            ::mabo::FieldId::new(2, ::mabo::FieldEncoding::LengthPrefixed),
            |w| {
                house_no.encode(w);
            },
        );
        ::mabo::buf::encode_field(
            w,
            ::mabo::FieldId::new(3, ::mabo::FieldEncoding::LengthPrefixed),
            |w| {
                ::mabo::buf::encode_string(w, city);
            },
        );
        ::mabo::buf::encode_u32(w, ::mabo::buf::END_MARKER);
    }
}
#[automatically_derived]
impl ::mabo::Decode for Address {
    #[allow(clippy::type_complexity, clippy::too_many_lines)]
    fn decode(r: &mut impl ::mabo::Buf) -> ::mabo::buf::Result<Self> {
        let mut street: Option<String> = None;
        let mut house_no: Option<HouseNumber> = None;
        let mut city: Option<String> = None;
        loop {
            let id = ::mabo::buf::decode_id(r)?;
            match id.value {
                ::mabo::buf::END_MARKER => break,
                1 => street = Some(::mabo::buf::decode_string(r)?),
                2 => house_no = Some(HouseNumber::decode(r)?),
                3 => city = Some(::mabo::buf::decode_string(r)?),
                _ => ::mabo::buf::decode_skip(r, id.encoding)?,
            }
        }
        Ok(Self {
            street: street
                .ok_or(::mabo::buf::Error::MissingField {
                    id: 1,
                    name: Some(""street""),
                })?,
            house_no: house_no
                .ok_or(::mabo::buf::Error::MissingField {
                    id: 2,
                    name: Some(""house_no""),
                })?,
            city: city
                .ok_or(::mabo::buf::Error::MissingField {
                    id: 3,
                    name: Some(""city""),
                })?,
        })
    }
}
#[automatically_derived]
impl ::mabo::buf::Size for Address {
    #[allow(
        clippy::borrow_deref_ref,
        clippy::deref_addrof,
        clippy::explicit_auto_deref,
        clippy::needless_borrow,
        clippy::too_many_lines,
    )]
    fn size(&self) -> usize {
        let Self { street, house_no, city } = self;
        ::mabo::buf::size_field(1, || { ::mabo::buf::size_string(street) })
            + ::mabo::buf::size_field(2, || { house_no.size() })
            + ::mabo::buf::size_field(3, || { ::mabo::buf::size_string(city) })
            + ::mabo::buf::END_MARKER_SIZE
    }
}
/// The number on the house.
///
/// More details can be found at [Wikipedia](https://en.wikipedia.org/wiki/House_numbering).
#[derive(Clone, Debug, PartialEq)]
#[allow(dead_code, clippy::module_name_repetitions, clippy::option_option)]
pub enum HouseNumber {
    /// Digit only number.
    Digit(u16),
    /// Mixed _number_ with characters like `1a`.
    Text(String),
}
#[automatically_derived]
impl ::mabo::Encode for HouseNumber {
    #[allow(
        clippy::borrow_deref_ref,
        clippy::deref_addrof,
        clippy::semicolon_if_nothing_returned,
        clippy::too_many_lines,
    )]
    fn encode(&self, w: &mut impl ::mabo::BufMut) {
        match self {
            Self::Digit(n0) => {
                ::mabo::buf::encode_variant_id(w, ::mabo::VariantId::new(1));
                ::mabo::buf::encode_field(
                    w,
                    ::mabo::FieldId::new(1, ::mabo::FieldEncoding::Varint),
                    |w| {
                        ::mabo::buf::encode_u16(w, *n0);
                    },
                );
                ::mabo::buf::encode_u32(w, ::mabo::buf::END_MARKER);
            }
            Self::Text(n0) => {
                ::mabo::buf::encode_variant_id(w, ::mabo::VariantId::new(2));
                ::mabo::buf::encode_field(
                    w,
                    ::mabo::FieldId::new(1, ::mabo::FieldEncoding::LengthPrefixed),
                    |w| {
                        ::mabo::buf::encode_string(w, n0);
                    },
                );
                ::mabo::buf::encode_u32(w, ::mabo::buf::END_MARKER);
            }
        }
    }
}
#[automatically_derived]
impl ::mabo::Decode for HouseNumber {
    #[allow(clippy::too_many_lines)]
    fn decode(r: &mut impl ::mabo::Buf) -> ::mabo::buf::Result<Self> {
        match ::mabo::buf::decode_variant_id(r)?.value {
            1 => {
                let mut n0: Option<u16> = None;
                loop {
                    let id = ::mabo::buf::decode_id(r)?;
                    match id.value {
                        ::mabo::buf::END_MARKER => break,
                        1 => n0 = Some(::mabo::buf::decode_u16(r)?),
                        _ => ::mabo::buf::decode_skip(r, id.encoding)?,
                    }
                }
                Ok(
                    Self::Digit(
                        n0
                            .ok_or(::mabo::buf::Error::MissingField {
                                id: 1,
                                name: None,
                            })?,
                    ),
                )
            }
            2 => {
                let mut n0: Option<String> = None;
                loop {
                    let id = ::mabo::buf::decode_id(r)?;
                    match id.value {
                        ::mabo::buf::END_MARKER => break,
                        1 => n0 = Some(::mabo::buf::decode_string(r)?),
                        _ => ::mabo::buf::decode_skip(r, id.encoding)?,
                    }
                }
                Ok(
                    Self::Text(
                        n0
                            .ok_or(::mabo::buf::Error::MissingField {
                                id: 1,
                                name: None,
                            })?,
                    ),
                )
            }
            id => Err(::mabo::buf::Error::UnknownVariant(id)),
        }
    }
}
#[automatically_derived]
impl ::mabo::buf::Size for HouseNumber {
    #[allow(
        clippy::borrow_deref_ref,
        clippy::deref_addrof,
        clippy::semicolon_if_nothing_returned,
        clippy::too_many_lines,
    )]
    fn size(&self) -> usize {
        match self {
            Self::Digit(n0) => {
                ::mabo::buf::size_variant_id(1)
                    + ::mabo::buf::size_field(1, || { ::mabo::buf::size_u16(*n0) })
                    + ::mabo::buf::END_MARKER_SIZE
            }
            Self::Text(n0) => {
                ::mabo::buf::size_variant_id(2)
                    + ::mabo::buf::size_field(1, || { ::mabo::buf::size_string(n0) })
                    + ::mabo::buf::END_MARKER_SIZE
            }
        }
    }
}
/// Probably the max age of a human, currently.
#[allow(dead_code)]
pub const MAX_AGE: u8 = 120;
/// Details for defining birthdays.
pub mod birthday {
    #[allow(unused_imports)]
    use ::mabo::buf::{Decode, Encode, Size};
    /// As the name suggests, specifies details about birthdays.
    #[derive(Clone, Debug, PartialEq)]
    #[allow(dead_code, clippy::module_name_repetitions, clippy::option_option)]
    pub enum DayOfBirth {
        Specific { year: u16, month: Month, day: u8 },
        /// The user didn't want to say.
        Secret {
            /// Optional info from the user about why they didn't want to
            /// reveal their birthday.
            reason: Option<String>,
        },
        /// We never asked and nobody knows.
        Unknown,
    }
    #[automatically_derived]
    impl ::mabo::Encode for DayOfBirth {
        #[allow(
            clippy::borrow_deref_ref,
            clippy::deref_addrof,
            clippy::semicolon_if_nothing_returned,
            clippy::too_many_lines,
        )]
        fn encode(&self, w: &mut impl ::mabo::BufMut) {
            match self {
                Self::Specific { year, month, day } => {
                    ::mabo::buf::encode_variant_id(w, ::mabo::VariantId::new(1));
                    ::mabo::buf::encode_field(
                        w,
                        ::mabo::FieldId::new(1, ::mabo::FieldEncoding::Varint),
                        |w| {
                            ::mabo::buf::encode_u16(w, *year);
                        },
                    );
                    ::mabo::buf::encode_field(
                        w,
                        ::mabo::FieldId::new(2, ::mabo::FieldEncoding::LengthPrefixed),
                        |w| {
                            month.encode(w);
                        },
                    );
                    ::mabo::buf::encode_field(
                        w,
                        ::mabo::FieldId::new(3, ::mabo::FieldEncoding::Fixed1),
                        |w| {
                            ::mabo::buf::encode_u8(w, *day);
                        },
                    );
                    ::mabo::buf::encode_u32(w, ::mabo::buf::END_MARKER);
                }
                Self::Secret { reason } => {
                    ::mabo::buf::encode_variant_id(w, ::mabo::VariantId::new(2));
                    ::mabo::buf::encode_field_option(
                        w,
                        ::mabo::FieldId::new(1, ::mabo::FieldEncoding::LengthPrefixed),
                        reason,
                        |w, v| {
                            ::mabo::buf::encode_string(w, v);
                        },
                    );
                    ::mabo::buf::encode_u32(w, ::mabo::buf::END_MARKER);
                }
                Self::Unknown => {
                    ::mabo::buf::encode_variant_id(w, ::mabo::VariantId::new(3));
                }
            }
        }
    }
    #[automatically_derived]
    impl ::mabo::Decode for DayOfBirth {
        #[allow(clippy::too_many_lines)]
        fn decode(r: &mut impl ::mabo::Buf) -> ::mabo::buf::Result<Self> {
            match ::mabo::buf::decode_variant_id(r)?.value {
                1 => {
                    let mut year: Option<u16> = None;
                    let mut month: Option<Month> = None;
                    let mut day: Option<u8> = None;
                    loop {
                        let id = ::mabo::buf::decode_id(r)?;
                        match id.value {
                            ::mabo::buf::END_MARKER => break,
                            1 => year = Some(::mabo::buf::decode_u16(r)?),
                            2 => month = Some(Month::decode(r)?),
                            3 => day = Some(::mabo::buf::decode_u8(r)?),
                            _ => ::mabo::buf::decode_skip(r, id.encoding)?,
                        }
                    }
                    Ok(Self::Specific {
                        year: year
                            .ok_or(::mabo::buf::Error::MissingField {
                                id: 1,
                                name: Some(""year""),
                            })?,
                        month: month
                            .ok_or(::mabo::buf::Error::MissingField {
                                id: 2,
                                name: Some(""month""),
                            })?,
                        day: day
                            .ok_or(::mabo::buf::Error::MissingField {
                                id: 3,
                                name: Some(""day""),
                            })?,
                    })
                }
                2 => {
                    let mut reason: Option<String> = None;
                    loop {
                        let id = ::mabo::buf::decode_id(r)?;
                        match id.value {
                            ::mabo::buf::END_MARKER => break,
                            1 => reason = Some(::mabo::buf::decode_string(r)?),
                            _ => ::mabo::buf::decode_skip(r, id.encoding)?,
                        }
                    }
                    Ok(Self::Secret { reason })
                }
                3 => Ok(Self::Unknown),
                id => Err(::mabo::buf::Error::UnknownVariant(id)),
            }
        }
    }
    #[automatically_derived]
    impl ::mabo::buf::Size for DayOfBirth {
        #[allow(
            clippy::borrow_deref_ref,
            clippy::deref_addrof,
            clippy::semicolon_if_nothing_returned,
            clippy::too_many_lines,
        )]
        fn size(&self) -> usize {
            match self {
                Self::Specific { year, month, day } => {
                    ::mabo::buf::size_variant_id(1)
                        + ::mabo::buf::size_field(1, || { ::mabo::buf::size_u16(*year) })
                        + ::mabo::buf::size_field(2, || { month.size() })
                        + ::mabo::buf::size_field(3, || { ::mabo::buf::size_u8(*day) })
                        + ::mabo::buf::END_MARKER_SIZE
                }
                Self::Secret { reason } => {
                    ::mabo::buf::size_variant_id(2)
                        + ::mabo::buf::size_field_option(
                            1,
                            reason.as_ref(),
                            |v| { ::mabo::buf::size_string(v) },
                        ) + ::mabo::buf::END_MARKER_SIZE
                }
                Self::Unknown => ::mabo::buf::size_variant_id(3),
            }
        }
    }
    /// Let's assume we only have details of people born **after** this year.
    #[allow(dead_code)]
    pub const MIN_YEAR: u16 = 1900;
    /// Absolute maximum for a day, but might be even less depending
    /// on the month.
    #[allow(dead_code)]
    pub const MAX_DAY: u8 = 31;
    /// The month of the year.
    #[derive(Clone, Debug, PartialEq)]
    #[allow(dead_code, clippy::module_name_repetitions, clippy::option_option)]
    pub enum Month {
        January,
        February,
        March,
        April,
        May,
        June,
        July,
        August,
        September,
        October,
        November,
        December,
    }
    #[automatically_derived]
    impl ::mabo::Encode for Month {
        #[allow(
            clippy::borrow_deref_ref,
            clippy::deref_addrof,
            clippy::semicolon_if_nothing_returned,
            clippy::too_many_lines,
        )]
        fn encode(&self, w: &mut impl ::mabo::BufMut) {
            match self {
                Self::January => {
                    ::mabo::buf::encode_variant_id(w, ::mabo::VariantId::new(1));
                }
                Self::February => {
                    ::mabo::buf::encode_variant_id(w, ::mabo::VariantId::new(2));
                }
                Self::March => {
                    ::mabo::buf::encode_variant_id(w, ::mabo::VariantId::new(3));
                }
                Self::April => {
                    ::mabo::buf::encode_variant_id(w, ::mabo::VariantId::new(4));
                }
                Self::May => {
                    ::mabo::buf::encode_variant_id(w, ::mabo::VariantId::new(5));
                }
                Self::June => {
                    ::mabo::buf::encode_variant_id(w, ::mabo::VariantId::new(6));
                }
                Self::July => {
                    ::mabo::buf::encode_variant_id(w, ::mabo::VariantId::new(7));
                }
                Self::August => {
                    ::mabo::buf::encode_variant_id(w, ::mabo::VariantId::new(8));
                }
                Self::September => {
                    ::mabo::buf::encode_variant_id(w, ::mabo::VariantId::new(9));
                }
                Self::October => {
                    ::mabo::buf::encode_variant_id(w, ::mabo::VariantId::new(10));
                }
                Self::November => {
                    ::mabo::buf::encode_variant_id(w, ::mabo::VariantId::new(11));
                }
                Self::December => {
                    ::mabo::buf::encode_variant_id(w, ::mabo::VariantId::new(12));
                }
            }
        }
    }
    #[automatically_derived]
    impl ::mabo::Decode for Month {
        #[allow(clippy::too_many_lines)]
        fn decode(r: &mut impl ::mabo::Buf) -> ::mabo::buf::Result<Self> {
            match ::mabo::buf::decode_variant_id(r)?.value {
                1 => Ok(Self::January),
                2 => Ok(Self::February),
                3 => Ok(Self::March),
                4 => Ok(Self::April),
                5 => Ok(Self::May),
                6 => Ok(Self::June),
                7 => Ok(Self::July),
                8 => Ok(Self::August),
                9 => Ok(Self::September),
                10 => Ok(Self::October),
                11 => Ok(Self::November),
                12 => Ok(Self::December),
                id => Err(::mabo::buf::Error::UnknownVariant(id)),
            }
        }
    }
    #[automatically_derived]
    impl ::mabo::buf::Size for Month {
        #[allow(
            clippy::borrow_deref_ref,
            clippy::deref_addrof,
            clippy::semicolon_if_nothing_returned,
            clippy::too_many_lines,
        )]
        fn size(&self) -> usize {
            match self {
                Self::January => ::mabo::buf::size_variant_id(1),
                Self::February => ::mabo::buf::size_variant_id(2),
                Self::March => ::mabo::buf::size_variant_id(3),
                Self::April => ::mabo::buf::size_variant_id(4),
                Self::May => ::mabo::buf::size_variant_id(5),
                Self::June => ::mabo::buf::size_variant_id(6),
                Self::July => ::mabo::buf::size_variant_id(7),
                Self::August => ::mabo::buf::size_variant_id(8),
                Self::September => ::mabo::buf::size_variant_id(9),
                Self::October => ::mabo::buf::size_variant_id(10),
                Self::November => ::mabo::buf::size_variant_id(11),
                Self::December => ::mabo::buf::size_variant_id(12),
            }
        }
    }
}
") = true.
Proof. vm_cast_no_check (eq_refl true). Qed.

(** tests/inputs/module_basic.mabo *)
Example rust_module_basic : compiles_to (tx "mod a {
    /// Inner module
    mod b {
        enum Sample {
            One @1,
        }
    }

    struct Sample {
        value: u32 @1,
        inner: b::Sample @2,
    }
}
")
 (tx "#[allow(unused_imports)]
use ::mabo::buf::{Decode, Encode, Size};
pub mod a {
    #[allow(unused_imports)]
    use ::mabo::buf::{Decode, Encode, Size};
    /// Inner module
    pub mod b {
        #[allow(unused_imports)]
        use ::mabo::buf::{Decode, Encode, Size};
        #[derive(Clone, Debug, PartialEq)]
        #[allow(dead_code, clippy::module_name_repetitions, clippy::option_option)]
        pub enum Sample {
            One,
        }
        #[automatically_derived]
        impl ::mabo::Encode for Sample {
            #[allow(
                clippy::borrow_deref_ref,
                clippy::deref_addrof,
                clippy::semicolon_if_nothing_returned,
                clippy::too_many_lines,
            )]
            fn encode(&self, w: &mut impl ::mabo::BufMut) {
                match self {
                    Self::One => {
                        ::mabo::buf::encode_variant_id(w, ::mabo::VariantId::new(1));
                    }
                }
            }
        }
        #[automatically_derived]
        impl ::mabo::Decode for Sample {
            #[allow(clippy::too_many_lines)]
            fn decode(r: &mut impl ::mabo::Buf) -> ::mabo::buf::Result<Self> {
                match ::mabo::buf::decode_variant_id(r)?.value {
                    1 => Ok(Self::One),
                    id => Err(::mabo::buf::Error::UnknownVariant(id)),
                }
            }
        }
        #[automatically_derived]
        impl ::mabo::buf::Size for Sample {
            #[allow(
                clippy::borrow_deref_ref,
                clippy::deref_addrof,
                clippy::semicolon_if_nothing_returned,
                clippy::too_many_lines,
            )]
            fn size(&self) -> usize {
                match self {
                    Self::One => ::mabo::buf::size_variant_id(1),
                }
            }
        }
    }
    #[derive(Clone, Debug, PartialEq)]
    #[allow(dead_code, clippy::module_name_repetitions, clippy::option_option)]
    pub struct Sample {
        pub value: u32,
        pub inner: b::Sample,
    }
    #[automatically_derived]
    impl ::mabo::Encode for Sample {
        #[allow(
            clippy::borrow_deref_ref,
            clippy::deref_addrof,
            clippy::explicit_auto_deref,
            clippy::needless_borrow,
            clippy::too_many_lines,
        )]
        fn encode(&self, w: &mut impl ::mabo::BufMut) {
            let Self { value, inner } = self;
            ::mabo::buf::encode_field(
                w,
                ::mabo::FieldId::new(1, ::mabo::FieldEncoding::Varint),
                |w| {
                    ::mabo::buf::encode_u32(w, *value);
                },
            );
            ::mabo::buf::encode_field(
                w,
                ::mabo::FieldId::new(2, ::mabo::FieldEncoding::LengthPrefixed),
                |w| {
                    inner.encode(w);
                },
            );
            ::mabo::buf::encode_u32(w, ::mabo::buf::END_MARKER);
        }
    }
    #[automatically_derived]
    impl ::mabo::Decode for Sample {
        #[allow(clippy::type_complexity, clippy::too_many_lines)]
        fn decode(r: &mut impl ::mabo::Buf) -> ::mabo::buf::Result<Self> {
            let mut value: Option<u32> = None;
            let mut inner: Option<b::Sample> = None;
            loop {
                let id = ::mabo::buf::decode_id(r)?;
                match id.value {
                    ::mabo::buf::END_MARKER => break,
                    1 => value = Some(::mabo::buf::decode_u32(r)?),
                    2 => inner = Some(b::Sample::decode(r)?),
                    _ => ::mabo::buf::decode_skip(r, id.encoding)?,
                }
            }
            Ok(Self {
                value: value
                    .ok_or(::mabo::buf::Error::MissingField {
                        id: 1,
                        name: Some(""value""),
                    })?,
                inner: inner
                    .ok_or(::mabo::buf::Error::MissingField {
                        id: 2,
                        name: Some(""inner""),
                    })?,
            })
        }
    }
    #[automatically_derived]
    impl ::mabo::buf::Size for Sample {
        #[allow(
            clippy::borrow_deref_ref,
            clippy::deref_addrof,
            clippy::explicit_auto_deref,
            clippy::needless_borrow,
            clippy::too_many_lines,
        )]
        fn size(&self) -> usize {
            let Self { value, inner } = self;
            ::mabo::buf::size_field(1, || { ::mabo::buf::size_u32(*value) })
                + ::mabo::buf::size_field(2, || { inner.size() })
                + ::mabo::buf::END_MARKER_SIZE
        }
    }
}
") = true.
Proof. vm_cast_no_check (eq_refl true). Qed.

(** tests/inputs/optional_ids.mabo *)
Example rust_optional_ids : compiles_to (tx "struct SampleNamed {
    field1: u32,
    field2: u32 @100,
    field3: u32,
}

struct SampleUnnamed(u32, u32 @100, u32)

enum SampleEnum {
    Named {
        field1: u32,
        field2: u32 @100,
        field3: u32,
    },
    Unit @50,
    Unnamed(u32, u32 @100, u32),
}
")
 (tx "#[allow(unused_imports)]
use ::mabo::buf::{Decode, Encode, Size};
#[derive(Clone, Debug, PartialEq)]
#[allow(dead_code, clippy::module_name_repetitions, clippy::option_option)]
pub struct SampleNamed {
    pub field1: u32,
    pub field2: u32,
    pub field3: u32,
}
#[automatically_derived]
impl ::mabo::Encode for SampleNamed {
    #[allow(
        clippy::borrow_deref_ref,
        clippy::deref_addrof,
        clippy::explicit_auto_deref,
        clippy::needless_borrow,
        clippy::too_many_lines,
    )]
    fn encode(&self, w: &mut impl ::mabo::BufMut) {
        let Self { field1, field2, field3 } = self;
        ::mabo::buf::encode_field(
            w,
            ::mabo::FieldId::new(1, ::mabo::FieldEncoding::Varint),
            |w| {
                ::mabo::buf::encode_u32(w, *field1);
            },
        );
        ::mabo::buf::encode_field(
            w,
            ::mabo::FieldId::new(100, ::mabo::FieldEncoding::Varint),
            |w| {
                ::mabo::buf::encode_u32(w, *field2);
            },
        );
        ::mabo::buf::encode_field(
            w,
            ::mabo::FieldId::new(101, ::mabo::FieldEncoding::Varint),
            |w| {
                ::mabo::buf::encode_u32(w, *field3);
            },
        );
        ::mabo::buf::encode_u32(w, ::mabo::buf::END_MARKER);
    }
}
#[automatically_derived]
impl ::mabo::Decode for SampleNamed {
    #[allow(clippy::type_complexity, clippy::too_many_lines)]
    fn decode(r: &mut impl ::mabo::Buf) -> ::mabo::buf::Result<Self> {
        let mut field1: Option<u32> = None;
        let mut field2: Option<u32> = None;
        let mut field3: Option<u32> = None;
        loop {
            let id = ::mabo::buf::decode_id(r)?;
            match id.value {
                ::mabo::buf::END_MARKER => break,
                1 => field1 = Some(::mabo::buf::decode_u32(r)?),
                100 => field2 = Some(::mabo::buf::decode_u32(r)?),
                101 => field3 = Some(::mabo::buf::decode_u32(r)?),
                _ => ::mabo::buf::decode_skip(r, id.encoding)?,
            }
        }
        Ok(Self {
            field1: field1
                .ok_or(::mabo::buf::Error::MissingField {
                    id: 1,
                    name: Some(""field1""),
                })?,
            field2: field2
                .ok_or(::mabo::buf::Error::MissingField {
                    id: 100,
                    name: Some(""field2""),
                })?,
            field3: field3
                .ok_or(::mabo::buf::Error::MissingField {
                    id: 101,
                    name: Some(""field3""),
                })?,
        })
    }
}
#[automatically_derived]
impl ::mabo::buf::Size for SampleNamed {
    #[allow(
        clippy::borrow_deref_ref,
        clippy::deref_addrof,
        clippy::explicit_auto_deref,
        clippy::needless_borrow,
        clippy::too_many_lines,
    )]
    fn size(&self) -> usize {
        let Self { field1, field2, field3 } = self;
        ::mabo::buf::size_field(1, || { ::mabo::buf::size_u32(*field1) })
            + ::mabo::buf::size_field(100, || { ::mabo::buf::size_u32(*field2) })
            + ::mabo::buf::size_field(101, || { ::mabo::buf::size_u32(*field3) })
            + ::mabo::buf::END_MARKER_SIZE
    }
}
#[derive(Clone, Debug, PartialEq)]
#[allow(dead_code, clippy::module_name_repetitions, clippy::option_option)]
pub struct SampleUnnamed(pub u32, pub u32, pub u32);
#[automatically_derived]
impl ::mabo::Encode for SampleUnnamed {
    #[allow(
        clippy::borrow_deref_ref,
        clippy::deref_addrof,
        clippy::explicit_auto_deref,
        clippy::needless_borrow,
        clippy::too_many_lines,
    )]
    fn encode(&self, w: &mut impl ::mabo::BufMut) {
        let Self(n0, n1, n2) = self;
        ::mabo::buf::encode_field(
            w,
            ::mabo::FieldId::new(1, ::mabo::FieldEncoding::Varint),
            |w| {
                ::mabo::buf::encode_u32(w, *n0);
            },
        );
        ::mabo::buf::encode_field(
            w,
            ::mabo::FieldId::new(100, ::mabo::FieldEncoding::Varint),
            |w| {
                ::mabo::buf::encode_u32(w, *n1);
            },
        );
        ::mabo::buf::encode_field(
            w,
            ::mabo::FieldId::new(101, ::mabo::FieldEncoding::Varint),
            |w| {
                ::mabo::buf::encode_u32(w, *n2);
            },
        );
        ::mabo::buf::encode_u32(w, ::mabo::buf::END_MARKER);
    }
}
#[automatically_derived]
impl ::mabo::Decode for SampleUnnamed {
    #[allow(clippy::type_complexity, clippy::too_many_lines)]
    fn decode(r: &mut impl ::mabo::Buf) -> ::mabo::buf::Result<Self> {
        let mut n0: Option<u32> = None;
        let mut n1: Option<u32> = None;
        let mut n2: Option<u32> = None;
        loop {
            let id = ::mabo::buf::decode_id(r)?;
            match id.value {
                ::mabo::buf::END_MARKER => break,
                1 => n0 = Some(::mabo::buf::decode_u32(r)?),
                100 => n1 = Some(::mabo::buf::decode_u32(r)?),
                101 => n2 = Some(::mabo::buf::decode_u32(r)?),
                _ => ::mabo::buf::decode_skip(r, id.encoding)?,
            }
        }
        Ok(
            Self(
                n0
                    .ok_or(::mabo::buf::Error::MissingField {
                        id: 1,
                        name: None,
                    })?,
                n1
                    .ok_or(::mabo::buf::Error::MissingField {
                        id: 100,
                        name: None,
                    })?,
                n2
                    .ok_or(::mabo::buf::Error::MissingField {
                        id: 101,
                        name: None,
                    })?,
            ),
        )
    }
}
#[automatically_derived]
impl ::mabo::buf::Size for SampleUnnamed {
    #[allow(
        clippy::borrow_deref_ref,
        clippy::deref_addrof,
        clippy::explicit_auto_deref,
        clippy::needless_borrow,
        clippy::too_many_lines,
    )]
    fn size(&self) -> usize {
        let Self(n0, n1, n2) = self;
        ::mabo::buf::size_field(1, || { ::mabo::buf::size_u32(*n0) })
            + ::mabo::buf::size_field(100, || { ::mabo::buf::size_u32(*n1) })
            + ::mabo::buf::size_field(101, || { ::mabo::buf::size_u32(*n2) })
            + ::mabo::buf::END_MARKER_SIZE
    }
}
#[derive(Clone, Debug, PartialEq)]
#[allow(dead_code, clippy::module_name_repetitions, clippy::option_option)]
pub enum SampleEnum {
    Named { field1: u32, field2: u32, field3: u32 },
    Unit,
    Unnamed(u32, u32, u32),
}
#[automatically_derived]
impl ::mabo::Encode for SampleEnum {
    #[allow(
        clippy::borrow_deref_ref,
        clippy::deref_addrof,
        clippy::semicolon_if_nothing_returned,
        clippy::too_many_lines,
    )]
    fn encode(&self, w: &mut impl ::mabo::BufMut) {
        match self {
            Self::Named { field1, field2, field3 } => {
                ::mabo::buf::encode_variant_id(w, ::mabo::VariantId::new(1));
                ::mabo::buf::encode_field(
                    w,
                    ::mabo::FieldId::new(1, ::mabo::FieldEncoding::Varint),
                    |w| {
                        ::mabo::buf::encode_u32(w, *field1);
                    },
                );
                ::mabo::buf::encode_field(
                    w,
                    ::mabo::FieldId::new(100, ::mabo::FieldEncoding::Varint),
                    |w| {
                        ::mabo::buf::encode_u32(w, *field2);
                    },
                );
                ::mabo::buf::encode_field(
                    w,
                    ::mabo::FieldId::new(101, ::mabo::FieldEncoding::Varint),
                    |w| {
                        ::mabo::buf::encode_u32(w, *field3);
                    },
                );
                ::mabo::buf::encode_u32(w, ::mabo::buf::END_MARKER);
            }
            Self::Unit => {
                ::mabo::buf::encode_variant_id(w, ::mabo::VariantId::new(50));
            }
            Self::Unnamed(n0, n1, n2) => {
                ::mabo::buf::encode_variant_id(w, ::mabo::VariantId::new(51));
                ::mabo::buf::encode_field(
                    w,
                    ::mabo::FieldId::new(1, ::mabo::FieldEncoding::Varint),
                    |w| {
                        ::mabo::buf::encode_u32(w, *n0);
                    },
                );
                ::mabo::buf::encode_field(
                    w,
                    ::mabo::FieldId::new(100, ::mabo::FieldEncoding::Varint),
                    |w| {
                        ::mabo::buf::encode_u32(w, *n1);
                    },
                );
                ::mabo::buf::encode_field(
                    w,
                    ::mabo::FieldId::new(101, ::mabo::FieldEncoding::Varint),
                    |w| {
                        ::mabo::buf::encode_u32(w, *n2);
                    },
                );
                ::mabo::buf::encode_u32(w, ::mabo::buf::END_MARKER);
            }
        }
    }
}
#[automatically_derived]
impl ::mabo::Decode for SampleEnum {
    #[allow(clippy::too_many_lines)]
    fn decode(r: &mut impl ::mabo::Buf) -> ::mabo::buf::Result<Self> {
        match ::mabo::buf::decode_variant_id(r)?.value {
            1 => {
                let mut field1: Option<u32> = None;
                let mut field2: Option<u32> = None;
                let mut field3: Option<u32> = None;
                loop {
                    let id = ::mabo::buf::decode_id(r)?;
                    match id.value {
                        ::mabo::buf::END_MARKER => break,
                        1 => field1 = Some(::mabo::buf::decode_u32(r)?),
                        100 => field2 = Some(::mabo::buf::decode_u32(r)?),
                        101 => field3 = Some(::mabo::buf::decode_u32(r)?),
                        _ => ::mabo::buf::decode_skip(r, id.encoding)?,
                    }
                }
                Ok(Self::Named {
                    field1: field1
                        .ok_or(::mabo::buf::Error::MissingField {
                            id: 1,
                            name: Some(""field1""),
                        })?,
                    field2: field2
                        .ok_or(::mabo::buf::Error::MissingField {
                            id: 100,
                            name: Some(""field2""),
                        })?,
                    field3: field3
                        .ok_or(::mabo::buf::Error::MissingField {
                            id: 101,
                            name: Some(""field3""),
                        })?,
                })
            }
            50 => Ok(Self::Unit),
            51 => {
                let mut n0: Option<u32> = None;
                let mut n1: Option<u32> = None;
                let mut n2: Option<u32> = None;
                loop {
                    let id = ::mabo::buf::decode_id(r)?;
                    match id.value {
                        ::mabo::buf::END_MARKER => break,
                        1 => n0 = Some(::mabo::buf::decode_u32(r)?),
                        100 => n1 = Some(::mabo::buf::decode_u32(r)?),
                        101 => n2 = Some(::mabo::buf::decode_u32(r)?),
                        _ => ::mabo::buf::decode_skip(r, id.encoding)?,
                    }
                }
                Ok(
                    Self::Unnamed(
                        n0
                            .ok_or(::mabo::buf::Error::MissingField {
                                id: 1,
                                name: None,
                            })?,
                        n1
                            .ok_or(::mabo::buf::Error::MissingField {
                                id: 100,
                                name: None,
                            })?,
                        n2
                            .ok_or(::mabo::buf::Error::MissingField {
                                id: 101,
                                name: None,
                            })?,
                    ),
                )
            }
            id => Err(::mabo::buf::Error::UnknownVariant(id)),
        }
    }
}
#[automatically_derived]
impl ::mabo::buf::Size for SampleEnum {
    #[allow(
        clippy::borrow_deref_ref,
        clippy::deref_addrof,
        clippy::semicolon_if_nothing_returned,
        clippy::too_many_lines,
    )]
    fn size(&self) -> usize {
        match self {
            Self::Named { field1, field2, field3 } => {
                ::mabo::buf::size_variant_id(1)
                    + ::mabo::buf::size_field(1, || { ::mabo::buf::size_u32(*field1) })
                    + ::mabo::buf::size_field(100, || { ::mabo::buf::size_u32(*field2) })
                    + ::mabo::buf::size_field(101, || { ::mabo::buf::size_u32(*field3) })
                    + ::mabo::buf::END_MARKER_SIZE
            }
            Self::Unit => ::mabo::buf::size_variant_id(50),
            Self::Unnamed(n0, n1, n2) => {
                ::mabo::buf::size_variant_id(51)
                    + ::mabo::buf::size_field(1, || { ::mabo::buf::size_u32(*n0) })
                    + ::mabo::buf::size_field(100, || { ::mabo::buf::size_u32(*n1) })
                    + ::mabo::buf::size_field(101, || { ::mabo::buf::size_u32(*n2) })
                    + ::mabo::buf::END_MARKER_SIZE
            }
        }
    }
}
") = true.
Proof. vm_cast_no_check (eq_refl true). Qed.

(** tests/inputs/schema_basic.mabo *)
Example rust_schema_basic : compiles_to (tx "/// Basic struct.
struct SampleStruct {
    a: u32 @1,
    b: bool @2,
}

/// Sample enum.
enum SampleEnum {
    One @1,
    Two(u32 @1, u64 @2) @2,
    Three {
        field1: u32 @1,
        field2: bool @2,
    } @3,
}
")
 (tx "#[allow(unused_imports)]
use ::mabo::buf::{Decode, Encode, Size};
/// Basic struct.
#[derive(Clone, Debug, PartialEq)]
#[allow(dead_code, clippy::module_name_repetitions, clippy::option_option)]
pub struct SampleStruct {
    pub a: u32,
    pub b: bool,
}
#[automatically_derived]
impl ::mabo::Encode for SampleStruct {
    #[allow(
        clippy::borrow_deref_ref,
        clippy::deref_addrof,
        clippy::explicit_auto_deref,
        clippy::needless_borrow,
        clippy::too_many_lines,
    )]
    fn encode(&self, w: &mut impl ::mabo::BufMut) {
        let Self { a, b } = self;
        ::mabo::buf::encode_field(
            w,
            ::mabo::FieldId::new(1, ::mabo::FieldEncoding::Varint),
            |w| {
                ::mabo::buf::encode_u32(w, *a);
            },
        );
        ::mabo::buf::encode_field(
            w,
            ::mabo::FieldId::new(2, ::mabo::FieldEncoding::Fixed1),
            |w| {
                ::mabo::buf::encode_bool(w, *b);
            },
        );
        ::mabo::buf::encode_u32(w, ::mabo::buf::END_MARKER);
    }
}
#[automatically_derived]
impl ::mabo::Decode for SampleStruct {
    #[allow(clippy::type_complexity, clippy::too_many_lines)]
    fn decode(r: &mut impl ::mabo::Buf) -> ::mabo::buf::Result<Self> {
        let mut a: Option<u32> = None;
        let mut b: Option<bool> = None;
        loop {
            let id = ::mabo::buf::decode_id(r)?;
            match id.value {
                ::mabo::buf::END_MARKER => break,
                1 => a = Some(::mabo::buf::decode_u32(r)?),
                2 => b = Some(::mabo::buf::decode_bool(r)?),
                _ => ::mabo::buf::decode_skip(r, id.encoding)?,
            }
        }
        Ok(Self {
            a: a
                .ok_or(::mabo::buf::Error::MissingField {
                    id: 1,
                    name: Some(""a""),
                })?,
            b: b
                .ok_or(::mabo::buf::Error::MissingField {
                    id: 2,
                    name: Some(""b""),
                })?,
        })
    }
}
#[automatically_derived]
impl ::mabo::buf::Size for SampleStruct {
    #[allow(
        clippy::borrow_deref_ref,
        clippy::deref_addrof,
        clippy::explicit_auto_deref,
        clippy::needless_borrow,
        clippy::too_many_lines,
    )]
    fn size(&self) -> usize {
        let Self { a, b } = self;
        ::mabo::buf::size_field(1, || { ::mabo::buf::size_u32(*a) })
            + ::mabo::buf::size_field(2, || { ::mabo::buf::size_bool(*b) })
            + ::mabo::buf::END_MARKER_SIZE
    }
}
/// Sample enum.
#[derive(Clone, Debug, PartialEq)]
#[allow(dead_code, clippy::module_name_repetitions, clippy::option_option)]
pub enum SampleEnum {
    One,
    Two(u32, u64),
    Three { field1: u32, field2: bool },
}
#[automatically_derived]
impl ::mabo::Encode for SampleEnum {
    #[allow(
        clippy::borrow_deref_ref,
        clippy::deref_addrof,
        clippy::semicolon_if_nothing_returned,
        clippy::too_many_lines,
    )]
    fn encode(&self, w: &mut impl ::mabo::BufMut) {
        match self {
            Self::One => {
                ::mabo::buf::encode_variant_id(w, ::mabo::VariantId::new(1));
            }
            Self::Two(n0, n1) => {
                ::mabo::buf::encode_variant_id(w, ::mabo::VariantId::new(2));
                ::mabo::buf::encode_field(
                    w,
                    ::mabo::FieldId::new(1, ::mabo::FieldEncoding::Varint),
                    |w| {
                        ::mabo::buf::encode_u32(w, *n0);
                    },
                );
                ::mabo::buf::encode_field(
                    w,
                    ::mabo::FieldId::new(2, ::mabo::FieldEncoding::Varint),
                    |w| {
                        ::mabo::buf::encode_u64(w, *n1);
                    },
                );
                ::mabo::buf::encode_u32(w, ::mabo::buf::END_MARKER);
            }
            Self::Three { field1, field2 } => {
                ::mabo::buf::encode_variant_id(w, ::mabo::VariantId::new(3));
                ::mabo::buf::encode_field(
                    w,
                    ::mabo::FieldId::new(1, ::mabo::FieldEncoding::Varint),
                    |w| {
                        ::mabo::buf::encode_u32(w, *field1);
                    },
                );
                ::mabo::buf::encode_field(
                    w,
                    ::mabo::FieldId::new(2, ::mabo::FieldEncoding::Fixed1),
                    |w| {
                        ::mabo::buf::encode_bool(w, *field2);
                    },
                );
                ::mabo::buf::encode_u32(w, ::mabo::buf::END_MARKER);
            }
        }
    }
}
#[automatically_derived]
impl ::mabo::Decode for SampleEnum {
    #[allow(clippy::too_many_lines)]
    fn decode(r: &mut impl ::mabo::Buf) -> ::mabo::buf::Result<Self> {
        match ::mabo::buf::decode_variant_id(r)?.value {
            1 => Ok(Self::One),
            2 => {
                let mut n0: Option<u32> = None;
                let mut n1: Option<u64> = None;
                loop {
                    let id = ::mabo::buf::decode_id(r)?;
                    match id.value {
                        ::mabo::buf::END_MARKER => break,
                        1 => n0 = Some(::mabo::buf::decode_u32(r)?),
                        2 => n1 = Some(::mabo::buf::decode_u64(r)?),
                        _ => ::mabo::buf::decode_skip(r, id.encoding)?,
                    }
                }
                Ok(
                    Self::Two(
                        n0
                            .ok_or(::mabo::buf::Error::MissingField {
                                id: 1,
                                name: None,
                            })?,
                        n1
                            .ok_or(::mabo::buf::Error::MissingField {
                                id: 2,
                                name: None,
                            })?,
                    ),
                )
            }
            3 => {
                let mut field1: Option<u32> = None;
                let mut field2: Option<bool> = None;
                loop {
                    let id = ::mabo::buf::decode_id(r)?;
                    match id.value {
                        ::mabo::buf::END_MARKER => break,
                        1 => field1 = Some(::mabo::buf::decode_u32(r)?),
                        2 => field2 = Some(::mabo::buf::decode_bool(r)?),
                        _ => ::mabo::buf::decode_skip(r, id.encoding)?,
                    }
                }
                Ok(Self::Three {
                    field1: field1
                        .ok_or(::mabo::buf::Error::MissingField {
                            id: 1,
                            name: Some(""field1""),
                        })?,
                    field2: field2
                        .ok_or(::mabo::buf::Error::MissingField {
                            id: 2,
                            name: Some(""field2""),
                        })?,
                })
            }
            id => Err(::mabo::buf::Error::UnknownVariant(id)),
        }
    }
}
#[automatically_derived]
impl ::mabo::buf::Size for SampleEnum {
    #[allow(
        clippy::borrow_deref_ref,
        clippy::deref_addrof,
        clippy::semicolon_if_nothing_returned,
        clippy::too_many_lines,
    )]
    fn size(&self) -> usize {
        match self {
            Self::One => ::mabo::buf::size_variant_id(1),
            Self::Two(n0, n1) => {
                ::mabo::buf::size_variant_id(2)
                    + ::mabo::buf::size_field(1, || { ::mabo::buf::size_u32(*n0) })
                    + ::mabo::buf::size_field(2, || { ::mabo::buf::size_u64(*n1) })
                    + ::mabo::buf::END_MARKER_SIZE
            }
            Self::Three { field1, field2 } => {
                ::mabo::buf::size_variant_id(3)
                    + ::mabo::buf::size_field(1, || { ::mabo::buf::size_u32(*field1) })
                    + ::mabo::buf::size_field(2, || { ::mabo::buf::size_bool(*field2) })
                    + ::mabo::buf::END_MARKER_SIZE
            }
        }
    }
}
") = true.
Proof. vm_cast_no_check (eq_refl true). Qed.

(** tests/inputs/struct_basic.mabo *)
Example rust_struct_basic : compiles_to (tx "/// Basic struct.
struct Sample {
    a: u32 @1,
    /// Second field
    b: bool @2,
}
")
 (tx "#[allow(unused_imports)]
use ::mabo::buf::{Decode, Encode, Size};
/// Basic struct.
#[derive(Clone, Debug, PartialEq)]
#[allow(dead_code, clippy::module_name_repetitions, clippy::option_option)]
pub struct Sample {
    pub a: u32,
    /// Second field
    pub b: bool,
}
#[automatically_derived]
impl ::mabo::Encode for Sample {
    #[allow(
        clippy::borrow_deref_ref,
        clippy::deref_addrof,
        clippy::explicit_auto_deref,
        clippy::needless_borrow,
        clippy::too_many_lines,
    )]
    fn encode(&self, w: &mut impl ::mabo::BufMut) {
        let Self { a, b } = self;
        ::mabo::buf::encode_field(
            w,
            ::mabo::FieldId::new(1, ::mabo::FieldEncoding::Varint),
            |w| {
                ::mabo::buf::encode_u32(w, *a);
            },
        );
        ::mabo::buf::encode_field(
            w,
            ::mabo::FieldId::new(2, ::mabo::FieldEncoding::Fixed1),
            |w| {
                ::mabo::buf::encode_bool(w, *b);
            },
        );
        ::mabo::buf::encode_u32(w, ::mabo::buf::END_MARKER);
    }
}
#[automatically_derived]
impl ::mabo::Decode for Sample {
    #[allow(clippy::type_complexity, clippy::too_many_lines)]
    fn decode(r: &mut impl ::mabo::Buf) -> ::mabo::buf::Result<Self> {
        let mut a: Option<u32> = None;
        let mut b: Option<bool> = None;
        loop {
            let id = ::mabo::buf::decode_id(r)?;
            match id.value {
                ::mabo::buf::END_MARKER => break,
                1 => a = Some(::mabo::buf::decode_u32(r)?),
                2 => b = Some(::mabo::buf::decode_bool(r)?),
                _ => ::mabo::buf::decode_skip(r, id.encoding)?,
            }
        }
        Ok(Self {
            a: a
                .ok_or(::mabo::buf::Error::MissingField {
                    id: 1,
                    name: Some(""a""),
                })?,
            b: b
                .ok_or(::mabo::buf::Error::MissingField {
                    id: 2,
                    name: Some(""b""),
                })?,
        })
    }
}
#[automatically_derived]
impl ::mabo::buf::Size for Sample {
    #[allow(
        clippy::borrow_deref_ref,
        clippy::deref_addrof,
        clippy::explicit_auto_deref,
        clippy::needless_borrow,
        clippy::too_many_lines,
    )]
    fn size(&self) -> usize {
        let Self { a, b } = self;
        ::mabo::buf::size_field(1, || { ::mabo::buf::size_u32(*a) })
            + ::mabo::buf::size_field(2, || { ::mabo::buf::size_bool(*b) })
            + ::mabo::buf::END_MARKER_SIZE
    }
}
") = true.
Proof. vm_cast_no_check (eq_refl true). Qed.

(** tests/inputs/struct_generics.mabo *)
Example rust_struct_generics : compiles_to (tx "/// Generic key-value pair.
struct KeyValue<K, V> {
    key: K @1,
    value: V @2,
}
")
 (tx "#[allow(unused_imports)]
use ::mabo::buf::{Decode, Encode, Size};
/// Generic key-value pair.
#[derive(Clone, Debug, PartialEq)]
#[allow(dead_code, clippy::module_name_repetitions, clippy::option_option)]
pub struct KeyValue<K, V> {
    pub key: K,
    pub value: V,
}
#[automatically_derived]
impl<K, V> ::mabo::Encode for KeyValue<K, V>
where
    K: ::mabo::buf::Encode + ::mabo::buf::Size,
    V: ::mabo::buf::Encode + ::mabo::buf::Size,
{
    #[allow(
        clippy::borrow_deref_ref,
        clippy::deref_addrof,
        clippy::explicit_auto_deref,
        clippy::needless_borrow,
        clippy::too_many_lines,
    )]
    fn encode(&self, w: &mut impl ::mabo::BufMut) {
        let Self { key, value } = self;
        ::mabo::buf::encode_field(
            w,
            ::mabo::FieldId::new(1, ::mabo::FieldEncoding::LengthPrefixed),
            |w| {
                key.encode(w);
            },
        );
        ::mabo::buf::encode_field(
            w,
            ::mabo::FieldId::new(2, ::mabo::FieldEncoding::LengthPrefixed),
            |w| {
                value.encode(w);
            },
        );
        ::mabo::buf::encode_u32(w, ::mabo::buf::END_MARKER);
    }
}
#[automatically_derived]
impl<K, V> ::mabo::Decode for KeyValue<K, V>
where
    K: ::std::fmt::Debug + ::mabo::buf::Decode,
    V: ::std::fmt::Debug + ::mabo::buf::Decode,
{
    #[allow(clippy::type_complexity, clippy::too_many_lines)]
    fn decode(r: &mut impl ::mabo::Buf) -> ::mabo::buf::Result<Self> {
        let mut key: Option<K> = None;
        let mut value: Option<V> = None;
        loop {
            let id = ::mabo::buf::decode_id(r)?;
            match id.value {
                ::mabo::buf::END_MARKER => break,
                1 => key = Some(K::decode(r)?),
                2 => value = Some(V::decode(r)?),
                _ => ::mabo::buf::decode_skip(r, id.encoding)?,
            }
        }
        Ok(Self {
            key: key
                .ok_or(::mabo::buf::Error::MissingField {
                    id: 1,
                    name: Some(""key""),
                })?,
            value: value
                .ok_or(::mabo::buf::Error::MissingField {
                    id: 2,
                    name: Some(""value""),
                })?,
        })
    }
}
#[automatically_derived]
impl<K, V> ::mabo::buf::Size for KeyValue<K, V>
where
    K: ::mabo::buf::Size,
    V: ::mabo::buf::Size,
{
    #[allow(
        clippy::borrow_deref_ref,
        clippy::deref_addrof,
        clippy::explicit_auto_deref,
        clippy::needless_borrow,
        clippy::too_many_lines,
    )]
    fn size(&self) -> usize {
        let Self { key, value } = self;
        ::mabo::buf::size_field(1, || { key.size() })
            + ::mabo::buf::size_field(2, || { value.size() })
            + ::mabo::buf::END_MARKER_SIZE
    }
}
") = true.
Proof. vm_cast_no_check (eq_refl true). Qed.

(** tests/inputs/struct_many_ws.mabo *)
Example rust_struct_many_ws : compiles_to (tx "
 /// Some comment
       struct      Sample<
            T
        >  {

      a:    u32    @1,
      b:    bool   @2,
      c:    T      @3,
    }
")
 (tx "#[allow(unused_imports)]
use ::mabo::buf::{Decode, Encode, Size};
/// Some comment
#[derive(Clone, Debug, PartialEq)]
#[allow(dead_code, clippy::module_name_repetitions, clippy::option_option)]
pub struct Sample<T> {
    pub a: u32,
    pub b: bool,
    pub c: T,
}
#[automatically_derived]
impl<T> ::mabo::Encode for Sample<T>
where
    T: ::mabo::buf::Encode + ::mabo::buf::Size,
{
    #[allow(
        clippy::borrow_deref_ref,
        clippy::deref_addrof,
        clippy::explicit_auto_deref,
        clippy::needless_borrow,
        clippy::too_many_lines,
    )]
    fn encode(&self, w: &mut impl ::mabo::BufMut) {
        let Self { a, b, c } = self;
        ::mabo::buf::encode_field(
            w,
            ::mabo::FieldId::new(1, ::mabo::FieldEncoding::Varint),
            |w| {
                ::mabo::buf::encode_u32(w, *a);
            },
        );
        ::mabo::buf::encode_field(
            w,
            ::mabo::FieldId::new(2, ::mabo::FieldEncoding::Fixed1),
            |w| {
                ::mabo::buf::encode_bool(w, *b);
            },
        );
        ::mabo::buf::encode_field(
            w,
            ::mabo::FieldId::new(3, ::mabo::FieldEncoding::LengthPrefixed),
            |w| {
                c.encode(w);
            },
        );
        ::mabo::buf::encode_u32(w, ::mabo::buf::END_MARKER);
    }
}
#[automatically_derived]
impl<T> ::mabo::Decode for Sample<T>
where
    T: ::std::fmt::Debug + ::mabo::buf::Decode,
{
    #[allow(clippy::type_complexity, clippy::too_many_lines)]
    fn decode(r: &mut impl ::mabo::Buf) -> ::mabo::buf::Result<Self> {
        let mut a: Option<u32> = None;
        let mut b: Option<bool> = None;
        let mut c: Option<T> = None;
        loop {
            let id = ::mabo::buf::decode_id(r)?;
            match id.value {
                ::mabo::buf::END_MARKER => break,
                1 => a = Some(::mabo::buf::decode_u32(r)?),
                2 => b = Some(::mabo::buf::decode_bool(r)?),
                3 => c = Some(T::decode(r)?),
                _ => ::mabo::buf::decode_skip(r, id.encoding)?,
            }
        }
        Ok(Self {
            a: a
                .ok_or(::mabo::buf::Error::MissingField {
                    id: 1,
                    name: Some(""a""),
                })?,
            b: b
                .ok_or(::mabo::buf::Error::MissingField {
                    id: 2,
                    name: Some(""b""),
                })?,
            c: c
                .ok_or(::mabo::buf::Error::MissingField {
                    id: 3,
                    name: Some(""c""),
                })?,
        })
    }
}
#[automatically_derived]
impl<T> ::mabo::buf::Size for Sample<T>
where
    T: ::mabo::buf::Size,
{
    #[allow(
        clippy::borrow_deref_ref,
        clippy::deref_addrof,
        clippy::explicit_auto_deref,
        clippy::needless_borrow,
        clippy::too_many_lines,
    )]
    fn size(&self) -> usize {
        let Self { a, b, c } = self;
        ::mabo::buf::size_field(1, || { ::mabo::buf::size_u32(*a) })
            + ::mabo::buf::size_field(2, || { ::mabo::buf::size_bool(*b) })
            + ::mabo::buf::size_field(3, || { c.size() }) + ::mabo::buf::END_MARKER_SIZE
    }
}
") = true.
Proof. vm_cast_no_check (eq_refl true). Qed.

(** tests/inputs/struct_min_ws.mabo *)
Example rust_struct_min_ws : compiles_to (tx "struct Sample<T>{a:u32@1,b:bool@2,c:T@3}
")
 (tx "#[allow(unused_imports)]
use ::mabo::buf::{Decode, Encode, Size};
#[derive(Clone, Debug, PartialEq)]
#[allow(dead_code, clippy::module_name_repetitions, clippy::option_option)]
pub struct Sample<T> {
    pub a: u32,
    pub b: bool,
    pub c: T,
}
#[automatically_derived]
impl<T> ::mabo::Encode for Sample<T>
where
    T: ::mabo::buf::Encode + ::mabo::buf::Size,
{
    #[allow(
        clippy::borrow_deref_ref,
        clippy::deref_addrof,
        clippy::explicit_auto_deref,
        clippy::needless_borrow,
        clippy::too_many_lines,
    )]
    fn encode(&self, w: &mut impl ::mabo::BufMut) {
        let Self { a, b, c } = self;
        ::mabo::buf::encode_field(
            w,
            ::mabo::FieldId::new(1, ::mabo::FieldEncoding::Varint),
            |w| {
                ::mabo::buf::encode_u32(w, *a);
            },
        );
        ::mabo::buf::encode_field(
            w,
            ::mabo::FieldId::new(2, ::mabo::FieldEncoding::Fixed1),
            |w| {
                ::mabo::buf::encode_bool(w, *b);
            },
        );
        ::mabo::buf::encode_field(
            w,
            ::mabo::FieldId::new(3, ::mabo::FieldEncoding::LengthPrefixed),
            |w| {
                c.encode(w);
            },
        );
        ::mabo::buf::encode_u32(w, ::mabo::buf::END_MARKER);
    }
}
#[automatically_derived]
impl<T> ::mabo::Decode for Sample<T>
where
    T: ::std::fmt::Debug + ::mabo::buf::Decode,
{
    #[allow(clippy::type_complexity, clippy::too_many_lines)]
    fn decode(r: &mut impl ::mabo::Buf) -> ::mabo::buf::Result<Self> {
        let mut a: Option<u32> = None;
        let mut b: Option<bool> = None;
        let mut c: Option<T> = None;
        loop {
            let id = ::mabo::buf::decode_id(r)?;
            match id.value {
                ::mabo::buf::END_MARKER => break,
                1 => a = Some(::mabo::buf::decode_u32(r)?),
                2 => b = Some(::mabo::buf::decode_bool(r)?),
                3 => c = Some(T::decode(r)?),
                _ => ::mabo::buf::decode_skip(r, id.encoding)?,
            }
        }
        Ok(Self {
            a: a
                .ok_or(::mabo::buf::Error::MissingField {
                    id: 1,
                    name: Some(""a""),
                })?,
            b: b
                .ok_or(::mabo::buf::Error::MissingField {
                    id: 2,
                    name: Some(""b""),
                })?,
            c: c
                .ok_or(::mabo::buf::Error::MissingField {
                    id: 3,
                    name: Some(""c""),
                })?,
        })
    }
}
#[automatically_derived]
impl<T> ::mabo::buf::Size for Sample<T>
where
    T: ::mabo::buf::Size,
{
    #[allow(
        clippy::borrow_deref_ref,
        clippy::deref_addrof,
        clippy::explicit_auto_deref,
        clippy::needless_borrow,
        clippy::too_many_lines,
    )]
    fn size(&self) -> usize {
        let Self { a, b, c } = self;
        ::mabo::buf::size_field(1, || { ::mabo::buf::size_u32(*a) })
            + ::mabo::buf::size_field(2, || { ::mabo::buf::size_bool(*b) })
            + ::mabo::buf::size_field(3, || { c.size() }) + ::mabo::buf::END_MARKER_SIZE
    }
}
") = true.
Proof. vm_cast_no_check (eq_refl true). Qed.

(** tests/inputs/struct_tuple.mabo *)
Example rust_struct_tuple : compiles_to (tx "/// Basic struct.
struct Sample(u32 @1, bool @2)
")
 (tx "#[allow(unused_imports)]
use ::mabo::buf::{Decode, Encode, Size};
/// Basic struct.
#[derive(Clone, Debug, PartialEq)]
#[allow(dead_code, clippy::module_name_repetitions, clippy::option_option)]
pub struct Sample(pub u32, pub bool);
#[automatically_derived]
impl ::mabo::Encode for Sample {
    #[allow(
        clippy::borrow_deref_ref,
        clippy::deref_addrof,
        clippy::explicit_auto_deref,
        clippy::needless_borrow,
        clippy::too_many_lines,
    )]
    fn encode(&self, w: &mut impl ::mabo::BufMut) {
        let Self(n0, n1) = self;
        ::mabo::buf::encode_field(
            w,
            ::mabo::FieldId::new(1, ::mabo::FieldEncoding::Varint),
            |w| {
                ::mabo::buf::encode_u32(w, *n0);
            },
        );
        ::mabo::buf::encode_field(
            w,
            ::mabo::FieldId::new(2, ::mabo::FieldEncoding::Fixed1),
            |w| {
                ::mabo::buf::encode_bool(w, *n1);
            },
        );
        ::mabo::buf::encode_u32(w, ::mabo::buf::END_MARKER);
    }
}
#[automatically_derived]
impl ::mabo::Decode for Sample {
    #[allow(clippy::type_complexity, clippy::too_many_lines)]
    fn decode(r: &mut impl ::mabo::Buf) -> ::mabo::buf::Result<Self> {
        let mut n0: Option<u32> = None;
        let mut n1: Option<bool> = None;
        loop {
            let id = ::mabo::buf::decode_id(r)?;
            match id.value {
                ::mabo::buf::END_MARKER => break,
                1 => n0 = Some(::mabo::buf::decode_u32(r)?),
                2 => n1 = Some(::mabo::buf::decode_bool(r)?),
                _ => ::mabo::buf::decode_skip(r, id.encoding)?,
            }
        }
        Ok(
            Self(
                n0
                    .ok_or(::mabo::buf::Error::MissingField {
                        id: 1,
                        name: None,
                    })?,
                n1
                    .ok_or(::mabo::buf::Error::MissingField {
                        id: 2,
                        name: None,
                    })?,
            ),
        )
    }
}
#[automatically_derived]
impl ::mabo::buf::Size for Sample {
    #[allow(
        clippy::borrow_deref_ref,
        clippy::deref_addrof,
        clippy::explicit_auto_deref,
        clippy::needless_borrow,
        clippy::too_many_lines,
    )]
    fn size(&self) -> usize {
        let Self(n0, n1) = self;
        ::mabo::buf::size_field(1, || { ::mabo::buf::size_u32(*n0) })
            + ::mabo::buf::size_field(2, || { ::mabo::buf::size_bool(*n1) })
            + ::mabo::buf::END_MARKER_SIZE
    }
}
") = true.
Proof. vm_cast_no_check (eq_refl true). Qed.

(** tests/inputs/types_basic.mabo *)
Example rust_types_basic : compiles_to (tx "struct Sample {
    f01: bool @1,
    f02: u8 @2,
    f03: u16 @3,
    f04: u32 @4,
    f05: u64 @5,
    f06: u128 @6,
    f07: i8 @7,
    f08: i16 @8,
    f09: i32 @9,
    f10: i64 @10,
    f11: i128 @11,
    f12: f32 @12,
    f13: f64 @13,
    f14: string @14,
    f15: &string @15,
    f16: bytes @16,
    f17: &bytes @17,
    f18: box<string> @18,
    f19: box<bytes> @19,
    f20: (u32, u32, u32) @20,
    f21: [u32; 12] @21,
}
")
 (tx "#[allow(unused_imports)]
use ::mabo::buf::{Decode, Encode, Size};
#[derive(Clone, Debug, PartialEq)]
#[allow(dead_code, clippy::module_name_repetitions, clippy::option_option)]
pub struct Sample {
    pub f01: bool,
    pub f02: u8,
    pub f03: u16,
    pub f04: u32,
    pub f05: u64,
    pub f06: u128,
    pub f07: i8,
    pub f08: i16,
    pub f09: i32,
    pub f10: i64,
    pub f11: i128,
    pub f12: f32,
    pub f13: f64,
    pub f14: String,
    pub f15: String,
    pub f16: Vec<u8>,
    pub f17: Vec<u8>,
    pub f18: Box<str>,
    pub f19: Box<[u8]>,
    pub f20: (u32, u32, u32),
    pub f21: [u32; 12],
}
#[automatically_derived]
impl ::mabo::Encode for Sample {
    #[allow(
        clippy::borrow_deref_ref,
        clippy::deref_addrof,
        clippy::explicit_auto_deref,
        clippy::needless_borrow,
        clippy::too_many_lines,
    )]
    fn encode(&self, w: &mut impl ::mabo::BufMut) {
        let Self {
            f01,
            f02,
            f03,
            f04,
            f05,
            f06,
            f07,
            f08,
            f09,
            f10,
            f11,
            f12,
            f13,
            f14,
            f15,
            f16,
            f17,
            f18,
            f19,
            f20,
            f21,
        } = self;
        ::mabo::buf::encode_field(
            w,
            ::mabo::FieldId::new(1, ::mabo::FieldEncoding::Fixed1),
            |w| {
                ::mabo::buf::encode_bool(w, *f01);
            },
        );
        ::mabo::buf::encode_field(
            w,
            ::mabo::FieldId::new(2, ::mabo::FieldEncoding::Fixed1),
            |w| {
                ::mabo::buf::encode_u8(w, *f02);
            },
        );
        ::mabo::buf::encode_field(
            w,
            ::mabo::FieldId::new(3, ::mabo::FieldEncoding::Varint),
            |w| {
                ::mabo::buf::encode_u16(w, *f03);
            },
        );
        ::mabo::buf::encode_field(
            w,
            ::mabo::FieldId::new(4, ::mabo::FieldEncoding::Varint),
            |w| {
                ::mabo::buf::encode_u32(w, *f04);
            },
        );
        ::mabo::buf::encode_field(
            w,
            ::mabo::FieldId::new(5, ::mabo::FieldEncoding::Varint),
            |w| {
                ::mabo::buf::encode_u64(w, *f05);
            },
        );
        ::mabo::buf::encode_field(
            w,
            ::mabo::FieldId::new(6, ::mabo::FieldEncoding::Varint),
            |w| {
                ::mabo::buf::encode_u128(w, *f06);
            },
        );
        ::mabo::buf::encode_field(
            w,
            ::mabo::FieldId::new(7, ::mabo::FieldEncoding::Fixed1),
            |w| {
                ::mabo::buf::encode_i8(w, *f07);
            },
        );
        ::mabo::buf::encode_field(
            w,
            ::mabo::FieldId::new(8, ::mabo::FieldEncoding::Varint),
            |w| {
                ::mabo::buf::encode_i16(w, *f08);
            },
        );
        ::mabo::buf::encode_field(
            w,
            ::mabo::FieldId::new(9, ::mabo::FieldEncoding::Varint),
            |w| {
                ::mabo::buf::encode_i32(w, *f09);
            },
        );
        ::mabo::buf::encode_field(
            w,
            ::mabo::FieldId::new(10, ::mabo::FieldEncoding::Varint),
            |w| {
                ::mabo::buf::encode_i64(w, *f10);
            },
        );
        ::mabo::buf::encode_field(
            w,
            ::mabo::FieldId::new(11, ::mabo::FieldEncoding::Varint),
            |w| {
                ::mabo::buf::encode_i128(w, *f11);
            },
        );
        ::mabo::buf::encode_field(
            w,
            ::mabo::FieldId::new(12, ::mabo::FieldEncoding::Fixed4),
            |w| {
                ::mabo::buf::encode_f32(w, *f12);
            },
        );
        ::mabo::buf::encode_field(
            w,
            ::mabo::FieldId::new(13, ::mabo::FieldEncoding::Fixed8),
            |w| {
                ::mabo::buf::encode_f64(w, *f13);
            },
        );
        ::mabo::buf::encode_field(
            w,
            ::mabo::FieldId::new(14, ::mabo::FieldEncoding::LengthPrefixed),
            |w| {
                ::mabo::buf::encode_string(w, f14);
            },
        );
        ::mabo::buf::encode_field(
            w,
            ::mabo::FieldId::new(15, ::mabo::FieldEncoding::LengthPrefixed),
            |w| {
                ::mabo::buf::encode_string(w, f15);
            },
        );
        ::mabo::buf::encode_field(
            w,
            ::mabo::FieldId::new(16, ::mabo::FieldEncoding::LengthPrefixed),
            |w| {
                ::mabo::buf::encode_bytes_std(w, f16);
            },
        );
        ::mabo::buf::encode_field(
            w,
            ::mabo::FieldId::new(17, ::mabo::FieldEncoding::LengthPrefixed),
            |w| {
                ::mabo::buf::encode_bytes_std(w, f17);
            },
        );
        ::mabo::buf::encode_field(
            w,
            ::mabo::FieldId::new(18, ::mabo::FieldEncoding::LengthPrefixed),
            |w| {
                ::mabo::buf::encode_string(w, f18);
            },
        );
        ::mabo::buf::encode_field(
            w,
            ::mabo::FieldId::new(19, ::mabo::FieldEncoding::LengthPrefixed),
            |w| {
                ::mabo::buf::encode_bytes_std(w, f19);
            },
        );
        ::mabo::buf::encode_field(
            w,
            ::mabo::FieldId::new(20, ::mabo::FieldEncoding::LengthPrefixed),
            |w| {
                ::mabo::buf::encode_tuple(
                    w,
                    || {
                        ::mabo::buf::size_u32(*&f20.0) + ::mabo::buf::size_u32(*&f20.1)
                            + ::mabo::buf::size_u32(*&f20.2)
                    },
                    |w| {
                        ::mabo::buf::encode_u32(w, *&f20.0);
                        ::mabo::buf::encode_u32(w, *&f20.1);
                        ::mabo::buf::encode_u32(w, *&f20.2);
                    },
                );
            },
        );
        ::mabo::buf::encode_field(
            w,
            ::mabo::FieldId::new(21, ::mabo::FieldEncoding::LengthPrefixed),
            |w| {
                ::mabo::buf::encode_array(
                    w,
                    f21,
                    |v| { ::mabo::buf::size_u32(*v) },
                    |w, v| {
                        ::mabo::buf::encode_u32(w, *v);
                    },
                );
            },
        );
        ::mabo::buf::encode_u32(w, ::mabo::buf::END_MARKER);
    }
}
#[automatically_derived]
impl ::mabo::Decode for Sample {
    #[allow(clippy::type_complexity, clippy::too_many_lines)]
    fn decode(r: &mut impl ::mabo::Buf) -> ::mabo::buf::Result<Self> {
        let mut f01: Option<bool> = None;
        let mut f02: Option<u8> = None;
        let mut f03: Option<u16> = None;
        let mut f04: Option<u32> = None;
        let mut f05: Option<u64> = None;
        let mut f06: Option<u128> = None;
        let mut f07: Option<i8> = None;
        let mut f08: Option<i16> = None;
        let mut f09: Option<i32> = None;
        let mut f10: Option<i64> = None;
        let mut f11: Option<i128> = None;
        let mut f12: Option<f32> = None;
        let mut f13: Option<f64> = None;
        let mut f14: Option<String> = None;
        let mut f15: Option<String> = None;
        let mut f16: Option<Vec<u8>> = None;
        let mut f17: Option<Vec<u8>> = None;
        let mut f18: Option<Box<str>> = None;
        let mut f19: Option<Box<[u8]>> = None;
        let mut f20: Option<(u32, u32, u32)> = None;
        let mut f21: Option<[u32; 12]> = None;
        loop {
            let id = ::mabo::buf::decode_id(r)?;
            match id.value {
                ::mabo::buf::END_MARKER => break,
                1 => f01 = Some(::mabo::buf::decode_bool(r)?),
                2 => f02 = Some(::mabo::buf::decode_u8(r)?),
                3 => f03 = Some(::mabo::buf::decode_u16(r)?),
                4 => f04 = Some(::mabo::buf::decode_u32(r)?),
                5 => f05 = Some(::mabo::buf::decode_u64(r)?),
                6 => f06 = Some(::mabo::buf::decode_u128(r)?),
                7 => f07 = Some(::mabo::buf::decode_i8(r)?),
                8 => f08 = Some(::mabo::buf::decode_i16(r)?),
                9 => f09 = Some(::mabo::buf::decode_i32(r)?),
                10 => f10 = Some(::mabo::buf::decode_i64(r)?),
                11 => f11 = Some(::mabo::buf::decode_i128(r)?),
                12 => f12 = Some(::mabo::buf::decode_f32(r)?),
                13 => f13 = Some(::mabo::buf::decode_f64(r)?),
                14 => f14 = Some(::mabo::buf::decode_string(r)?),
                15 => f15 = Some(::mabo::buf::decode_string(r)?),
                16 => f16 = Some(::mabo::buf::decode_bytes_std(r)?),
                17 => f17 = Some(::mabo::buf::decode_bytes_std(r)?),
                18 => f18 = Some(Box::<str>::decode(r)?),
                19 => f19 = Some(Box::<[u8]>::decode(r)?),
                20 => {
                    f20 = Some(
                        {
                            ::mabo::buf::decode_u64(r)?;
                            Ok::<
                                _,
                                ::mabo::buf::Error,
                            >((
                                ::mabo::buf::decode_u32(r)?,
                                ::mabo::buf::decode_u32(r)?,
                                ::mabo::buf::decode_u32(r)?,
                            ))
                        }?,
                    );
                }
                21 => {
                    f21 = Some(
                        ::mabo::buf::decode_array(r, |r| { ::mabo::buf::decode_u32(r) })?,
                    );
                }
                _ => ::mabo::buf::decode_skip(r, id.encoding)?,
            }
        }
        Ok(Self {
            f01: f01
                .ok_or(::mabo::buf::Error::MissingField {
                    id: 1,
                    name: Some(""f01""),
                })?,
            f02: f02
                .ok_or(::mabo::buf::Error::MissingField {
                    id: 2,
                    name: Some(""f02""),
                })?,
            f03: f03
                .ok_or(::mabo::buf::Error::MissingField {
                    id: 3,
                    name: Some(""f03""),
                })?,
            f04: f04
                .ok_or(::mabo::buf::Error::MissingField {
                    id: 4,
                    name: Some(""f04""),
                })?,
            f05: f05
                .ok_or(::mabo::buf::Error::MissingField {
                    id: 5,
                    name: Some(""f05""),
                })?,
            f06: f06
                .ok_or(::mabo::buf::Error::MissingField {
                    id: 6,
                    name: Some(""f06""),
                })?,
            f07: f07
                .ok_or(::mabo::buf::Error::MissingField {
                    id: 7,
                    name: Some(""f07""),
                })?,
            f08: f08
                .ok_or(::mabo::buf::Error::MissingField {
                    id: 8,
                    name: Some(""f08""),
                })?,
            f09: f09
                .ok_or(::mabo::buf::Error::MissingField {
                    id: 9,
                    name: Some(""f09""),
                })?,
            f10: f10
                .ok_or(::mabo::buf::Error::MissingField {
                    id: 10,
                    name: Some(""f10""),
                })?,
            f11: f11
                .ok_or(::mabo::buf::Error::MissingField {
                    id: 11,
                    name: Some(""f11""),
                })?,
            f12: f12
                .ok_or(::mabo::buf::Error::MissingField {
                    id: 12,
                    name: Some(""f12""),
                })?,
            f13: f13
                .ok_or(::mabo::buf::Error::MissingField {
                    id: 13,
                    name: Some(""f13""),
                })?,
            f14: f14
                .ok_or(::mabo::buf::Error::MissingField {
                    id: 14,
                    name: Some(""f14""),
                })?,
            f15: f15
                .ok_or(::mabo::buf::Error::MissingField {
                    id: 15,
                    name: Some(""f15""),
                })?,
            f16: f16
                .ok_or(::mabo::buf::Error::MissingField {
                    id: 16,
                    name: Some(""f16""),
                })?,
            f17: f17
                .ok_or(::mabo::buf::Error::MissingField {
                    id: 17,
                    name: Some(""f17""),
                })?,
            f18: f18
                .ok_or(::mabo::buf::Error::MissingField {
                    id: 18,
                    name: Some(""f18""),
                })?,
            f19: f19
                .ok_or(::mabo::buf::Error::MissingField {
                    id: 19,
                    name: Some(""f19""),
                })?,
            f20: f20
                .ok_or(::mabo::buf::Error::MissingField {
                    id: 20,
                    name: Some(""f20""),
                })?,
            f21: f21
                .ok_or(::mabo::buf::Error::MissingField {
                    id: 21,
                    name: Some(""f21""),
                })?,
        })
    }
}
#[automatically_derived]
impl ::mabo::buf::Size for Sample {
    #[allow(
        clippy::borrow_deref_ref,
        clippy::deref_addrof,
        clippy::explicit_auto_deref,
        clippy::needless_borrow,
        clippy::too_many_lines,
    )]
    fn size(&self) -> usize {
        let Self {
            f01,
            f02,
            f03,
            f04,
            f05,
            f06,
            f07,
            f08,
            f09,
            f10,
            f11,
            f12,
            f13,
            f14,
            f15,
            f16,
            f17,
            f18,
            f19,
            f20,
            f21,
        } = self;
        ::mabo::buf::size_field(1, || { ::mabo::buf::size_bool(*f01) })
            + ::mabo::buf::size_field(2, || { ::mabo::buf::size_u8(*f02) })
            + ::mabo::buf::size_field(3, || { ::mabo::buf::size_u16(*f03) })
            + ::mabo::buf::size_field(4, || { ::mabo::buf::size_u32(*f04) })
            + ::mabo::buf::size_field(5, || { ::mabo::buf::size_u64(*f05) })
            + ::mabo::buf::size_field(6, || { ::mabo::buf::size_u128(*f06) })
            + ::mabo::buf::size_field(7, || { ::mabo::buf::size_i8(*f07) })
            + ::mabo::buf::size_field(8, || { ::mabo::buf::size_i16(*f08) })
            + ::mabo::buf::size_field(9, || { ::mabo::buf::size_i32(*f09) })
            + ::mabo::buf::size_field(10, || { ::mabo::buf::size_i64(*f10) })
            + ::mabo::buf::size_field(11, || { ::mabo::buf::size_i128(*f11) })
            + ::mabo::buf::size_field(12, || { ::mabo::buf::size_f32(*f12) })
            + ::mabo::buf::size_field(13, || { ::mabo::buf::size_f64(*f13) })
            + ::mabo::buf::size_field(14, || { ::mabo::buf::size_string(f14) })
            + ::mabo::buf::size_field(15, || { ::mabo::buf::size_string(f15) })
            + ::mabo::buf::size_field(16, || { ::mabo::buf::size_bytes_std(f16) })
            + ::mabo::buf::size_field(17, || { ::mabo::buf::size_bytes_std(f17) })
            + ::mabo::buf::size_field(18, || { ::mabo::buf::size_string(f18) })
            + ::mabo::buf::size_field(19, || { ::mabo::buf::size_bytes_std(f19) })
            + ::mabo::buf::size_field(
                20,
                || {
                    ::mabo::buf::size_u32(*&f20.0) + ::mabo::buf::size_u32(*&f20.1)
                        + ::mabo::buf::size_u32(*&f20.2)
                },
            )
            + ::mabo::buf::size_field(
                21,
                || { ::mabo::buf::size_array(f21, |v| { ::mabo::buf::size_u32(*v) }) },
            ) + ::mabo::buf::END_MARKER_SIZE
    }
}
") = true.
Proof. vm_cast_no_check (eq_refl true). Qed.

(** tests/inputs/types_generic.mabo *)
Example rust_types_generic : compiles_to (tx "struct Sample {
    f1: vec<u32> @1,
    f2: hash_map<u32, string> @2,
    f3: hash_set<u32> @3,
    f4: option<u32> @4,
    f5: non_zero<u32> @5,
}

struct SampleUnnamed(
    vec<u32> @1,
    hash_map<u32, string> @2,
    hash_set<u32> @3,
    option<u32> @4,
    non_zero<u32> @5,
)
")
 (tx "#[allow(unused_imports)]
use ::mabo::buf::{Decode, Encode, Size};
#[derive(Clone, Debug, PartialEq)]
#[allow(dead_code, clippy::module_name_repetitions, clippy::option_option)]
pub struct Sample {
    pub f1: Vec<u32>,
    pub f2: ::std::collections::HashMap<u32, String>,
    pub f3: ::std::collections::HashSet<u32>,
    pub f4: Option<u32>,
    pub f5: ::std::num::NonZeroU32,
}
#[automatically_derived]
impl ::mabo::Encode for Sample {
    #[allow(
        clippy::borrow_deref_ref,
        clippy::deref_addrof,
        clippy::explicit_auto_deref,
        clippy::needless_borrow,
        clippy::too_many_lines,
    )]
    fn encode(&self, w: &mut impl ::mabo::BufMut) {
        let Self { f1, f2, f3, f4, f5 } = self;
        ::mabo::buf::encode_field(
            w,
            ::mabo::FieldId::new(1, ::mabo::FieldEncoding::LengthPrefixed),
            |w| {
                ::mabo::buf::encode_vec(
                    w,
                    f1,
                    |v| { ::mabo::buf::size_u32(*v) },
                    |w, v| {
                        ::mabo::buf::encode_u32(w, *v);
                    },
                );
            },
        );
        ::mabo::buf::encode_field(
            w,
            ::mabo::FieldId::new(2, ::mabo::FieldEncoding::LengthPrefixed),
            |w| {
                ::mabo::buf::encode_hash_map(
                    w,
                    f2,
                    |k| { ::mabo::buf::size_u32(*k) },
                    |v| { ::mabo::buf::size_string(v) },
                    |w, k| {
                        ::mabo::buf::encode_u32(w, *k);
                    },
                    |w, v| {
                        ::mabo::buf::encode_string(w, v);
                    },
                );
            },
        );
        ::mabo::buf::encode_field(
            w,
            ::mabo::FieldId::new(3, ::mabo::FieldEncoding::LengthPrefixed),
            |w| {
                ::mabo::buf::encode_hash_set(
                    w,
                    f3,
                    |v| { ::mabo::buf::size_u32(*v) },
                    |w, v| {
                        ::mabo::buf::encode_u32(w, *v);
                    },
                );
            },
        );
        ::mabo::buf::encode_field_option(
            w,
            ::mabo::FieldId::new(4, ::mabo::FieldEncoding::Varint),
            f4,
            |w, v| {
                ::mabo::buf::encode_u32(w, *v);
            },
        );
        ::mabo::buf::encode_field(
            w,
            ::mabo::FieldId::new(5, ::mabo::FieldEncoding::Varint),
            |w| {
                ::mabo::buf::encode_u32(w, f5.get());
            },
        );
        ::mabo::buf::encode_u32(w, ::mabo::buf::END_MARKER);
    }
}
#[automatically_derived]
impl ::mabo::Decode for Sample {
    #[allow(clippy::type_complexity, clippy::too_many_lines)]
    fn decode(r: &mut impl ::mabo::Buf) -> ::mabo::buf::Result<Self> {
        let mut f1: Option<Vec<u32>> = None;
        let mut f2: Option<::std::collections::HashMap<u32, String>> = None;
        let mut f3: Option<::std::collections::HashSet<u32>> = None;
        let mut f4: Option<u32> = None;
        let mut f5: Option<::std::num::NonZeroU32> = None;
        loop {
            let id = ::mabo::buf::decode_id(r)?;
            match id.value {
                ::mabo::buf::END_MARKER => break,
                1 => {
                    f1 = Some(
                        ::mabo::buf::decode_vec(r, |r| { ::mabo::buf::decode_u32(r) })?,
                    );
                }
                2 => {
                    f2 = Some(
                        ::mabo::buf::decode_hash_map(
                            r,
                            |r| { ::mabo::buf::decode_u32(r) },
                            |r| { ::mabo::buf::decode_string(r) },
                        )?,
                    );
                }
                3 => {
                    f3 = Some(
                        ::mabo::buf::decode_hash_set(
                            r,
                            |r| { ::mabo::buf::decode_u32(r) },
                        )?,
                    );
                }
                4 => f4 = Some(::mabo::buf::decode_u32(r)?),
                5 => f5 = Some(::mabo::buf::decode_non_zero_u32(r)?),
                _ => ::mabo::buf::decode_skip(r, id.encoding)?,
            }
        }
        Ok(Self {
            f1: f1
                .ok_or(::mabo::buf::Error::MissingField {
                    id: 1,
                    name: Some(""f1""),
                })?,
            f2: f2
                .ok_or(::mabo::buf::Error::MissingField {
                    id: 2,
                    name: Some(""f2""),
                })?,
            f3: f3
                .ok_or(::mabo::buf::Error::MissingField {
                    id: 3,
                    name: Some(""f3""),
                })?,
            f4,
            f5: f5
                .ok_or(::mabo::buf::Error::MissingField {
                    id: 5,
                    name: Some(""f5""),
                })?,
        })
    }
}
#[automatically_derived]
impl ::mabo::buf::Size for Sample {
    #[allow(
        clippy::borrow_deref_ref,
        clippy::deref_addrof,
        clippy::explicit_auto_deref,
        clippy::needless_borrow,
        clippy::too_many_lines,
    )]
    fn size(&self) -> usize {
        let Self { f1, f2, f3, f4, f5 } = self;
        ::mabo::buf::size_field(
            1,
            || { ::mabo::buf::size_vec(f1, |v| { ::mabo::buf::size_u32(*v) }) },
        )
            + ::mabo::buf::size_field(
                2,
                || {
                    ::mabo::buf::size_hash_map(
                        f2,
                        |k| { ::mabo::buf::size_u32(*k) },
                        |v| { ::mabo::buf::size_string(v) },
                    )
                },
            )
            + ::mabo::buf::size_field(
                3,
                || { ::mabo::buf::size_hash_set(f3, |v| { ::mabo::buf::size_u32(*v) }) },
            )
            + ::mabo::buf::size_field_option(
                4,
                f4.as_ref(),
                |v| { ::mabo::buf::size_u32(*v) },
            ) + ::mabo::buf::size_field(5, || { ::mabo::buf::size_u32(f5.get()) })
            + ::mabo::buf::END_MARKER_SIZE
    }
}
#[derive(Clone, Debug, PartialEq)]
#[allow(dead_code, clippy::module_name_repetitions, clippy::option_option)]
pub struct SampleUnnamed(
    pub Vec<u32>,
    pub ::std::collections::HashMap<u32, String>,
    pub ::std::collections::HashSet<u32>,
    pub Option<u32>,
    pub ::std::num::NonZeroU32,
);
#[automatically_derived]
impl ::mabo::Encode for SampleUnnamed {
    #[allow(
        clippy::borrow_deref_ref,
        clippy::deref_addrof,
        clippy::explicit_auto_deref,
        clippy::needless_borrow,
        clippy::too_many_lines,
    )]
    fn encode(&self, w: &mut impl ::mabo::BufMut) {
        let Self(n0, n1, n2, n3, n4) = self;
        ::mabo::buf::encode_field(
            w,
            ::mabo::FieldId::new(1, ::mabo::FieldEncoding::LengthPrefixed),
            |w| {
                ::mabo::buf::encode_vec(
                    w,
                    n0,
                    |v| { ::mabo::buf::size_u32(*v) },
                    |w, v| {
                        ::mabo::buf::encode_u32(w, *v);
                    },
                );
            },
        );
        ::mabo::buf::encode_field(
            w,
            ::mabo::FieldId::new(2, ::mabo::FieldEncoding::LengthPrefixed),
            |w| {
                ::mabo::buf::encode_hash_map(
                    w,
                    n1,
                    |k| { ::mabo::buf::size_u32(*k) },
                    |v| { ::mabo::buf::size_string(v) },
                    |w, k| {
                        ::mabo::buf::encode_u32(w, *k);
                    },
                    |w, v| {
                        ::mabo::buf::encode_string(w, v);
                    },
                );
            },
        );
        ::mabo::buf::encode_field(
            w,
            ::mabo::FieldId::new(3, ::mabo::FieldEncoding::LengthPrefixed),
            |w| {
                ::mabo::buf::encode_hash_set(
                    w,
                    n2,
                    |v| { ::mabo::buf::size_u32(*v) },
                    |w, v| {
                        ::mabo::buf::encode_u32(w, *v);
                    },
                );
            },
        );
        ::mabo::buf::encode_field_option(
            w,
            ::mabo::FieldId::new(4, ::mabo::FieldEncoding::Varint),
            n3,
            |w, v| {
                ::mabo::buf::encode_u32(w, *v);
            },
        );
        ::mabo::buf::encode_field(
            w,
            ::mabo::FieldId::new(5, ::mabo::FieldEncoding::Varint),
            |w| {
                ::mabo::buf::encode_u32(w, n4.get());
            },
        );
        ::mabo::buf::encode_u32(w, ::mabo::buf::END_MARKER);
    }
}
#[automatically_derived]
impl ::mabo::Decode for SampleUnnamed {
    #[allow(clippy::type_complexity, clippy::too_many_lines)]
    fn decode(r: &mut impl ::mabo::Buf) -> ::mabo::buf::Result<Self> {
        let mut n0: Option<Vec<u32>> = None;
        let mut n1: Option<::std::collections::HashMap<u32, String>> = None;
        let mut n2: Option<::std::collections::HashSet<u32>> = None;
        let mut n3: Option<u32> = None;
        let mut n4: Option<::std::num::NonZeroU32> = None;
        loop {
            let id = ::mabo::buf::decode_id(r)?;
            match id.value {
                ::mabo::buf::END_MARKER => break,
                1 => {
                    n0 = Some(
                        ::mabo::buf::decode_vec(r, |r| { ::mabo::buf::decode_u32(r) })?,
                    );
                }
                2 => {
                    n1 = Some(
                        ::mabo::buf::decode_hash_map(
                            r,
                            |r| { ::mabo::buf::decode_u32(r) },
                            |r| { ::mabo::buf::decode_string(r) },
                        )?,
                    );
                }
                3 => {
                    n2 = Some(
                        ::mabo::buf::decode_hash_set(
                            r,
                            |r| { ::mabo::buf::decode_u32(r) },
                        )?,
                    );
                }
                4 => n3 = Some(::mabo::buf::decode_u32(r)?),
                5 => n4 = Some(::mabo::buf::decode_non_zero_u32(r)?),
                _ => ::mabo::buf::decode_skip(r, id.encoding)?,
            }
        }
        Ok(
            Self(
                n0
                    .ok_or(::mabo::buf::Error::MissingField {
                        id: 1,
                        name: None,
                    })?,
                n1
                    .ok_or(::mabo::buf::Error::MissingField {
                        id: 2,
                        name: None,
                    })?,
                n2
                    .ok_or(::mabo::buf::Error::MissingField {
                        id: 3,
                        name: None,
                    })?,
                n3,
                n4
                    .ok_or(::mabo::buf::Error::MissingField {
                        id: 5,
                        name: None,
                    })?,
            ),
        )
    }
}
#[automatically_derived]
impl ::mabo::buf::Size for SampleUnnamed {
    #[allow(
        clippy::borrow_deref_ref,
        clippy::deref_addrof,
        clippy::explicit_auto_deref,
        clippy::needless_borrow,
        clippy::too_many_lines,
    )]
    fn size(&self) -> usize {
        let Self(n0, n1, n2, n3, n4) = self;
        ::mabo::buf::size_field(
            1,
            || { ::mabo::buf::size_vec(n0, |v| { ::mabo::buf::size_u32(*v) }) },
        )
            + ::mabo::buf::size_field(
                2,
                || {
                    ::mabo::buf::size_hash_map(
                        n1,
                        |k| { ::mabo::buf::size_u32(*k) },
                        |v| { ::mabo::buf::size_string(v) },
                    )
                },
            )
            + ::mabo::buf::size_field(
                3,
                || { ::mabo::buf::size_hash_set(n2, |v| { ::mabo::buf::size_u32(*v) }) },
            )
            + ::mabo::buf::size_field_option(
                4,
                n3.as_ref(),
                |v| { ::mabo::buf::size_u32(*v) },
            ) + ::mabo::buf::size_field(5, || { ::mabo::buf::size_u32(n4.get()) })
            + ::mabo::buf::END_MARKER_SIZE
    }
}
") = true.
Proof. vm_cast_no_check (eq_refl true). Qed.

(** tests/inputs/types_nested.mabo *)
Example rust_types_nested : compiles_to (tx "struct Sample {
    value: vec<option<non_zero<hash_map<i64, box<string>>>>> @1,
}
")
 (tx "#[allow(unused_imports)]
use ::mabo::buf::{Decode, Encode, Size};
#[derive(Clone, Debug, PartialEq)]
#[allow(dead_code, clippy::module_name_repetitions, clippy::option_option)]
pub struct Sample {
    pub value: Vec<Option<::mabo::NonZeroHashMap<i64, Box<str>>>>,
}
#[automatically_derived]
impl ::mabo::Encode for Sample {
    #[allow(
        clippy::borrow_deref_ref,
        clippy::deref_addrof,
        clippy::explicit_auto_deref,
        clippy::needless_borrow,
        clippy::too_many_lines,
    )]
    fn encode(&self, w: &mut impl ::mabo::BufMut) {
        let Self { value } = self;
        ::mabo::buf::encode_field(
            w,
            ::mabo::FieldId::new(1, ::mabo::FieldEncoding::LengthPrefixed),
            |w| {
                ::mabo::buf::encode_vec(
                    w,
                    value,
                    |v| {
                        ::mabo::buf::size_option(
                            v.as_ref(),
                            |v| {
                                ::mabo::buf::size_hash_map(
                                    v.get(),
                                    |k| { ::mabo::buf::size_i64(*k) },
                                    |v| { ::mabo::buf::size_string(v) },
                                )
                            },
                        )
                    },
                    |w, v| {
                        ::mabo::buf::encode_option(
                            w,
                            v,
                            |w, v| {
                                ::mabo::buf::encode_hash_map(
                                    w,
                                    v.get(),
                                    |k| { ::mabo::buf::size_i64(*k) },
                                    |v| { ::mabo::buf::size_string(v) },
                                    |w, k| {
                                        ::mabo::buf::encode_i64(w, *k);
                                    },
                                    |w, v| {
                                        ::mabo::buf::encode_string(w, v);
                                    },
                                );
                            },
                        );
                    },
                );
            },
        );
        ::mabo::buf::encode_u32(w, ::mabo::buf::END_MARKER);
    }
}
#[automatically_derived]
impl ::mabo::Decode for Sample {
    #[allow(clippy::type_complexity, clippy::too_many_lines)]
    fn decode(r: &mut impl ::mabo::Buf) -> ::mabo::buf::Result<Self> {
        let mut value: Option<Vec<Option<::mabo::NonZeroHashMap<i64, Box<str>>>>> = None;
        loop {
            let id = ::mabo::buf::decode_id(r)?;
            match id.value {
                ::mabo::buf::END_MARKER => break,
                1 => {
                    value = Some(
                        ::mabo::buf::decode_vec(
                            r,
                            |r| {
                                ::mabo::buf::decode_option(
                                    r,
                                    |r| {
                                        ::mabo::buf::decode_non_zero_hash_map(
                                            r,
                                            |r| { ::mabo::buf::decode_i64(r) },
                                            |r| { Box::<str>::decode(r) },
                                        )
                                    },
                                )
                            },
                        )?,
                    );
                }
                _ => ::mabo::buf::decode_skip(r, id.encoding)?,
            }
        }
        Ok(Self {
            value: value
                .ok_or(::mabo::buf::Error::MissingField {
                    id: 1,
                    name: Some(""value""),
                })?,
        })
    }
}
#[automatically_derived]
impl ::mabo::buf::Size for Sample {
    #[allow(
        clippy::borrow_deref_ref,
        clippy::deref_addrof,
        clippy::explicit_auto_deref,
        clippy::needless_borrow,
        clippy::too_many_lines,
    )]
    fn size(&self) -> usize {
        let Self { value } = self;
        ::mabo::buf::size_field(
            1,
            || {
                ::mabo::buf::size_vec(
                    value,
                    |v| {
                        ::mabo::buf::size_option(
                            v.as_ref(),
                            |v| {
                                ::mabo::buf::size_hash_map(
                                    v.get(),
                                    |k| { ::mabo::buf::size_i64(*k) },
                                    |v| { ::mabo::buf::size_string(v) },
                                )
                            },
                        )
                    },
                )
            },
        ) + ::mabo::buf::END_MARKER_SIZE
    }
}
") = true.
Proof. vm_cast_no_check (eq_refl true). Qed.

(** tests/inputs/types_non_zero.mabo *)
Example rust_types_non_zero : compiles_to (tx "struct Sample {
    f01: non_zero<u8> @1,
    f02: non_zero<u16> @2,
    f03: non_zero<u32> @3,
    f04: non_zero<u64> @4,
    f05: non_zero<u128> @5,
    f06: non_zero<i8> @6,
    f07: non_zero<i16> @7,
    f08: non_zero<i32> @8,
    f09: non_zero<i64> @9,
    f10: non_zero<i128> @10,
    f11: non_zero<string> @11,
    f12: non_zero<bytes> @12,
    f13: non_zero<vec<string>> @13,
    f14: non_zero<hash_map<string, bytes>> @14,
    f15: non_zero<hash_set<string>> @15,
}
")
 (tx "#[allow(unused_imports)]
use ::mabo::buf::{Decode, Encode, Size};
#[derive(Clone, Debug, PartialEq)]
#[allow(dead_code, clippy::module_name_repetitions, clippy::option_option)]
pub struct Sample {
    pub f01: ::std::num::NonZeroU8,
    pub f02: ::std::num::NonZeroU16,
    pub f03: ::std::num::NonZeroU32,
    pub f04: ::std::num::NonZeroU64,
    pub f05: ::std::num::NonZeroU128,
    pub f06: ::std::num::NonZeroI8,
    pub f07: ::std::num::NonZeroI16,
    pub f08: ::std::num::NonZeroI32,
    pub f09: ::std::num::NonZeroI64,
    pub f10: ::std::num::NonZeroI128,
    pub f11: ::mabo::NonZeroString,
    pub f12: ::mabo::NonZeroBytes,
    pub f13: ::mabo::NonZeroVec<String>,
    pub f14: ::mabo::NonZeroHashMap<String, Vec<u8>>,
    pub f15: ::mabo::NonZeroHashSet<String>,
}
#[automatically_derived]
impl ::mabo::Encode for Sample {
    #[allow(
        clippy::borrow_deref_ref,
        clippy::deref_addrof,
        clippy::explicit_auto_deref,
        clippy::needless_borrow,
        clippy::too_many_lines,
    )]
    fn encode(&self, w: &mut impl ::mabo::BufMut) {
        let Self {
            f01,
            f02,
            f03,
            f04,
            f05,
            f06,
            f07,
            f08,
            f09,
            f10,
            f11,
            f12,
            f13,
            f14,
            f15,
        } = self;
        ::mabo::buf::encode_field(
            w,
            ::mabo::FieldId::new(1, ::mabo::FieldEncoding::Fixed1),
            |w| {
                ::mabo::buf::encode_u8(w, f01.get());
            },
        );
        ::mabo::buf::encode_field(
            w,
            ::mabo::FieldId::new(2, ::mabo::FieldEncoding::Varint),
            |w| {
                ::mabo::buf::encode_u16(w, f02.get());
            },
        );
        ::mabo::buf::encode_field(
            w,
            ::mabo::FieldId::new(3, ::mabo::FieldEncoding::Varint),
            |w| {
                ::mabo::buf::encode_u32(w, f03.get());
            },
        );
        ::mabo::buf::encode_field(
            w,
            ::mabo::FieldId::new(4, ::mabo::FieldEncoding::Varint),
            |w| {
                ::mabo::buf::encode_u64(w, f04.get());
            },
        );
        ::mabo::buf::encode_field(
            w,
            ::mabo::FieldId::new(5, ::mabo::FieldEncoding::Varint),
            |w| {
                ::mabo::buf::encode_u128(w, f05.get());
            },
        );
        ::mabo::buf::encode_field(
            w,
            ::mabo::FieldId::new(6, ::mabo::FieldEncoding::Fixed1),
            |w| {
                ::mabo::buf::encode_i8(w, f06.get());
            },
        );
        ::mabo::buf::encode_field(
            w,
            ::mabo::FieldId::new(7, ::mabo::FieldEncoding::Varint),
            |w| {
                ::mabo::buf::encode_i16(w, f07.get());
            },
        );
        ::mabo::buf::encode_field(
            w,
            ::mabo::FieldId::new(8, ::mabo::FieldEncoding::Varint),
            |w| {
                ::mabo::buf::encode_i32(w, f08.get());
            },
        );
        ::mabo::buf::encode_field(
            w,
            ::mabo::FieldId::new(9, ::mabo::FieldEncoding::Varint),
            |w| {
                ::mabo::buf::encode_i64(w, f09.get());
            },
        );
        ::mabo::buf::encode_field(
            w,
            ::mabo::FieldId::new(10, ::mabo::FieldEncoding::Varint),
            |w| {
                ::mabo::buf::encode_i128(w, f10.get());
            },
        );
        ::mabo::buf::encode_field(
            w,
            ::mabo::FieldId::new(11, ::mabo::FieldEncoding::LengthPrefixed),
            |w| {
                ::mabo::buf::encode_string(w, f11.get());
            },
        );
        ::mabo::buf::encode_field(
            w,
            ::mabo::FieldId::new(12, ::mabo::FieldEncoding::LengthPrefixed),
            |w| {
                ::mabo::buf::encode_bytes_std(w, f12.get());
            },
        );
        ::mabo::buf::encode_field(
            w,
            ::mabo::FieldId::new(13, ::mabo::FieldEncoding::LengthPrefixed),
            |w| {
                ::mabo::buf::encode_vec(
                    w,
                    f13.get(),
                    |v| { ::mabo::buf::size_string(v) },
                    |w, v| {
                        ::mabo::buf::encode_string(w, v);
                    },
                );
            },
        );
        ::mabo::buf::encode_field(
            w,
            ::mabo::FieldId::new(14, ::mabo::FieldEncoding::LengthPrefixed),
            |w| {
                ::mabo::buf::encode_hash_map(
                    w,
                    f14.get(),
                    |k| { ::mabo::buf::size_string(k) },
                    |v| { ::mabo::buf::size_bytes_std(v) },
                    |w, k| {
                        ::mabo::buf::encode_string(w, k);
                    },
                    |w, v| {
                        ::mabo::buf::encode_bytes_std(w, v);
                    },
                );
            },
        );
        ::mabo::buf::encode_field(
            w,
            ::mabo::FieldId::new(15, ::mabo::FieldEncoding::LengthPrefixed),
            |w| {
                ::mabo::buf::encode_hash_set(
                    w,
                    f15.get(),
                    |v| { ::mabo::buf::size_string(v) },
                    |w, v| {
                        ::mabo::buf::encode_string(w, v);
                    },
                );
            },
        );
        ::mabo::buf::encode_u32(w, ::mabo::buf::END_MARKER);
    }
}
#[automatically_derived]
impl ::mabo::Decode for Sample {
    #[allow(clippy::type_complexity, clippy::too_many_lines)]
    fn decode(r: &mut impl ::mabo::Buf) -> ::mabo::buf::Result<Self> {
        let mut f01: Option<::std::num::NonZeroU8> = None;
        let mut f02: Option<::std::num::NonZeroU16> = None;
        let mut f03: Option<::std::num::NonZeroU32> = None;
        let mut f04: Option<::std::num::NonZeroU64> = None;
        let mut f05: Option<::std::num::NonZeroU128> = None;
        let mut f06: Option<::std::num::NonZeroI8> = None;
        let mut f07: Option<::std::num::NonZeroI16> = None;
        let mut f08: Option<::std::num::NonZeroI32> = None;
        let mut f09: Option<::std::num::NonZeroI64> = None;
        let mut f10: Option<::std::num::NonZeroI128> = None;
        let mut f11: Option<::mabo::NonZeroString> = None;
        let mut f12: Option<::mabo::NonZeroBytes> = None;
        let mut f13: Option<::mabo::NonZeroVec<String>> = None;
        let mut f14: Option<::mabo::NonZeroHashMap<String, Vec<u8>>> = None;
        let mut f15: Option<::mabo::NonZeroHashSet<String>> = None;
        loop {
            let id = ::mabo::buf::decode_id(r)?;
            match id.value {
                ::mabo::buf::END_MARKER => break,
                1 => f01 = Some(::mabo::buf::decode_non_zero_u8(r)?),
                2 => f02 = Some(::mabo::buf::decode_non_zero_u16(r)?),
                3 => f03 = Some(::mabo::buf::decode_non_zero_u32(r)?),
                4 => f04 = Some(::mabo::buf::decode_non_zero_u64(r)?),
                5 => f05 = Some(::mabo::buf::decode_non_zero_u128(r)?),
                6 => f06 = Some(::mabo::buf::decode_non_zero_i8(r)?),
                7 => f07 = Some(::mabo::buf::decode_non_zero_i16(r)?),
                8 => f08 = Some(::mabo::buf::decode_non_zero_i32(r)?),
                9 => f09 = Some(::mabo::buf::decode_non_zero_i64(r)?),
                10 => f10 = Some(::mabo::buf::decode_non_zero_i128(r)?),
                11 => f11 = Some(::mabo::buf::decode_non_zero_string(r)?),
                12 => f12 = Some(::mabo::buf::decode_non_zero_bytes_std(r)?),
                13 => {
                    f13 = Some(
                        ::mabo::buf::decode_non_zero_vec(
                            r,
                            |r| { ::mabo::buf::decode_string(r) },
                        )?,
                    );
                }
                14 => {
                    f14 = Some(
                        ::mabo::buf::decode_non_zero_hash_map(
                            r,
                            |r| { ::mabo::buf::decode_string(r) },
                            |r| { ::mabo::buf::decode_bytes_std(r) },
                        )?,
                    );
                }
                15 => {
                    f15 = Some(
                        ::mabo::buf::decode_non_zero_hash_set(
                            r,
                            |r| { ::mabo::buf::decode_string(r) },
                        )?,
                    );
                }
                _ => ::mabo::buf::decode_skip(r, id.encoding)?,
            }
        }
        Ok(Self {
            f01: f01
                .ok_or(::mabo::buf::Error::MissingField {
                    id: 1,
                    name: Some(""f01""),
                })?,
            f02: f02
                .ok_or(::mabo::buf::Error::MissingField {
                    id: 2,
                    name: Some(""f02""),
                })?,
            f03: f03
                .ok_or(::mabo::buf::Error::MissingField {
                    id: 3,
                    name: Some(""f03""),
                })?,
            f04: f04
                .ok_or(::mabo::buf::Error::MissingField {
                    id: 4,
                    name: Some(""f04""),
                })?,
            f05: f05
                .ok_or(::mabo::buf::Error::MissingField {
                    id: 5,
                    name: Some(""f05""),
                })?,
            f06: f06
                .ok_or(::mabo::buf::Error::MissingField {
                    id: 6,
                    name: Some(""f06""),
                })?,
            f07: f07
                .ok_or(::mabo::buf::Error::MissingField {
                    id: 7,
                    name: Some(""f07""),
                })?,
            f08: f08
                .ok_or(::mabo::buf::Error::MissingField {
                    id: 8,
                    name: Some(""f08""),
                })?,
            f09: f09
                .ok_or(::mabo::buf::Error::MissingField {
                    id: 9,
                    name: Some(""f09""),
                })?,
            f10: f10
                .ok_or(::mabo::buf::Error::MissingField {
                    id: 10,
                    name: Some(""f10""),
                })?,
            f11: f11
                .ok_or(::mabo::buf::Error::MissingField {
                    id: 11,
                    name: Some(""f11""),
                })?,
            f12: f12
                .ok_or(::mabo::buf::Error::MissingField {
                    id: 12,
                    name: Some(""f12""),
                })?,
            f13: f13
                .ok_or(::mabo::buf::Error::MissingField {
                    id: 13,
                    name: Some(""f13""),
                })?,
            f14: f14
                .ok_or(::mabo::buf::Error::MissingField {
                    id: 14,
                    name: Some(""f14""),
                })?,
            f15: f15
                .ok_or(::mabo::buf::Error::MissingField {
                    id: 15,
                    name: Some(""f15""),
                })?,
        })
    }
}
#[automatically_derived]
impl ::mabo::buf::Size for Sample {
    #[allow(
        clippy::borrow_deref_ref,
        clippy::deref_addrof,
        clippy::explicit_auto_deref,
        clippy::needless_borrow,
        clippy::too_many_lines,
    )]
    fn size(&self) -> usize {
        let Self {
            f01,
            f02,
            f03,
            f04,
            f05,
            f06,
            f07,
            f08,
            f09,
            f10,
            f11,
            f12,
            f13,
            f14,
            f15,
        } = self;
        ::mabo::buf::size_field(1, || { ::mabo::buf::size_u8(f01.get()) })
            + ::mabo::buf::size_field(2, || { ::mabo::buf::size_u16(f02.get()) })
            + ::mabo::buf::size_field(3, || { ::mabo::buf::size_u32(f03.get()) })
            + ::mabo::buf::size_field(4, || { ::mabo::buf::size_u64(f04.get()) })
            + ::mabo::buf::size_field(5, || { ::mabo::buf::size_u128(f05.get()) })
            + ::mabo::buf::size_field(6, || { ::mabo::buf::size_i8(f06.get()) })
            + ::mabo::buf::size_field(7, || { ::mabo::buf::size_i16(f07.get()) })
            + ::mabo::buf::size_field(8, || { ::mabo::buf::size_i32(f08.get()) })
            + ::mabo::buf::size_field(9, || { ::mabo::buf::size_i64(f09.get()) })
            + ::mabo::buf::size_field(10, || { ::mabo::buf::size_i128(f10.get()) })
            + ::mabo::buf::size_field(11, || { ::mabo::buf::size_string(f11.get()) })
            + ::mabo::buf::size_field(12, || { ::mabo::buf::size_bytes_std(f12.get()) })
            + ::mabo::buf::size_field(
                13,
                || {
                    ::mabo::buf::size_vec(f13.get(), |v| { ::mabo::buf::size_string(v) })
                },
            )
            + ::mabo::buf::size_field(
                14,
                || {
                    ::mabo::buf::size_hash_map(
                        f14.get(),
                        |k| { ::mabo::buf::size_string(k) },
                        |v| { ::mabo::buf::size_bytes_std(v) },
                    )
                },
            )
            + ::mabo::buf::size_field(
                15,
                || {
                    ::mabo::buf::size_hash_set(
                        f15.get(),
                        |v| { ::mabo::buf::size_string(v) },
                    )
                },
            ) + ::mabo::buf::END_MARKER_SIZE
    }
}
") = true.
Proof. vm_cast_no_check (eq_refl true). Qed.

(** tests/inputs/types_ref.mabo *)
Example rust_types_ref : compiles_to (tx "struct Sample {
    basic: Test123 @1,
    with_generics: KeyValue<u32, bool> @2,
}

enum Test123 {
    Value @1,
}

struct KeyValue<K, V> {
    key: K @1,
    value: V @2,
}
")
 (tx "#[allow(unused_imports)]
use ::mabo::buf::{Decode, Encode, Size};
#[derive(Clone, Debug, PartialEq)]
#[allow(dead_code, clippy::module_name_repetitions, clippy::option_option)]
pub struct Sample {
    pub basic: Test123,
    pub with_generics: KeyValue<u32, bool>,
}
#[automatically_derived]
impl ::mabo::Encode for Sample {
    #[allow(
        clippy::borrow_deref_ref,
        clippy::deref_addrof,
        clippy::explicit_auto_deref,
        clippy::needless_borrow,
        clippy::too_many_lines,
    )]
    fn encode(&self, w: &mut impl ::mabo::BufMut) {
        let Self { basic, with_generics } = self;
        ::mabo::buf::encode_field(
            w,
            ::mabo::FieldId::new(1, ::mabo::FieldEncoding::LengthPrefixed),
            |w| {
                basic.encode(w);
            },
        );
        ::mabo::buf::encode_field(
            w,
            ::mabo::FieldId::new(2, ::mabo::FieldEncoding::LengthPrefixed),
            |w| {
                with_generics.encode(w);
            },
        );
        ::mabo::buf::encode_u32(w, ::mabo::buf::END_MARKER);
    }
}
#[automatically_derived]
impl ::mabo::Decode for Sample {
    #[allow(clippy::type_complexity, clippy::too_many_lines)]
    fn decode(r: &mut impl ::mabo::Buf) -> ::mabo::buf::Result<Self> {
        let mut basic: Option<Test123> = None;
        let mut with_generics: Option<KeyValue<u32, bool>> = None;
        loop {
            let id = ::mabo::buf::decode_id(r)?;
            match id.value {
                ::mabo::buf::END_MARKER => break,
                1 => basic = Some(Test123::decode(r)?),
                2 => with_generics = Some(KeyValue::<u32, bool>::decode(r)?),
                _ => ::mabo::buf::decode_skip(r, id.encoding)?,
            }
        }
        Ok(Self {
            basic: basic
                .ok_or(::mabo::buf::Error::MissingField {
                    id: 1,
                    name: Some(""basic""),
                })?,
            with_generics: with_generics
                .ok_or(::mabo::buf::Error::MissingField {
                    id: 2,
                    name: Some(""with_generics""),
                })?,
        })
    }
}
#[automatically_derived]
impl ::mabo::buf::Size for Sample {
    #[allow(
        clippy::borrow_deref_ref,
        clippy::deref_addrof,
        clippy::explicit_auto_deref,
        clippy::needless_borrow,
        clippy::too_many_lines,
    )]
    fn size(&self) -> usize {
        let Self { basic, with_generics } = self;
        ::mabo::buf::size_field(1, || { basic.size() })
            + ::mabo::buf::size_field(2, || { with_generics.size() })
            + ::mabo::buf::END_MARKER_SIZE
    }
}
#[derive(Clone, Debug, PartialEq)]
#[allow(dead_code, clippy::module_name_repetitions, clippy::option_option)]
pub enum Test123 {
    Value,
}
#[automatically_derived]
impl ::mabo::Encode for Test123 {
    #[allow(
        clippy::borrow_deref_ref,
        clippy::deref_addrof,
        clippy::semicolon_if_nothing_returned,
        clippy::too_many_lines,
    )]
    fn encode(&self, w: &mut impl ::mabo::BufMut) {
        match self {
            Self::Value => {
                ::mabo::buf::encode_variant_id(w, ::mabo::VariantId::new(1));
            }
        }
    }
}
#[automatically_derived]
impl ::mabo::Decode for Test123 {
    #[allow(clippy::too_many_lines)]
    fn decode(r: &mut impl ::mabo::Buf) -> ::mabo::buf::Result<Self> {
        match ::mabo::buf::decode_variant_id(r)?.value {
            1 => Ok(Self::Value),
            id => Err(::mabo::buf::Error::UnknownVariant(id)),
        }
    }
}
#[automatically_derived]
impl ::mabo::buf::Size for Test123 {
    #[allow(
        clippy::borrow_deref_ref,
        clippy::deref_addrof,
        clippy::semicolon_if_nothing_returned,
        clippy::too_many_lines,
    )]
    fn size(&self) -> usize {
        match self {
            Self::Value => ::mabo::buf::size_variant_id(1),
        }
    }
}
#[derive(Clone, Debug, PartialEq)]
#[allow(dead_code, clippy::module_name_repetitions, clippy::option_option)]
pub struct KeyValue<K, V> {
    pub key: K,
    pub value: V,
}
#[automatically_derived]
impl<K, V> ::mabo::Encode for KeyValue<K, V>
where
    K: ::mabo::buf::Encode + ::mabo::buf::Size,
    V: ::mabo::buf::Encode + ::mabo::buf::Size,
{
    #[allow(
        clippy::borrow_deref_ref,
        clippy::deref_addrof,
        clippy::explicit_auto_deref,
        clippy::needless_borrow,
        clippy::too_many_lines,
    )]
    fn encode(&self, w: &mut impl ::mabo::BufMut) {
        let Self { key, value } = self;
        ::mabo::buf::encode_field(
            w,
            ::mabo::FieldId::new(1, ::mabo::FieldEncoding::LengthPrefixed),
            |w| {
                key.encode(w);
            },
        );
        ::mabo::buf::encode_field(
            w,
            ::mabo::FieldId::new(2, ::mabo::FieldEncoding::LengthPrefixed),
            |w| {
                value.encode(w);
            },
        );
        ::mabo::buf::encode_u32(w, ::mabo::buf::END_MARKER);
    }
}
#[automatically_derived]
impl<K, V> ::mabo::Decode for KeyValue<K, V>
where
    K: ::std::fmt::Debug + ::mabo::buf::Decode,
    V: ::std::fmt::Debug + ::mabo::buf::Decode,
{
    #[allow(clippy::type_complexity, clippy::too_many_lines)]
    fn decode(r: &mut impl ::mabo::Buf) -> ::mabo::buf::Result<Self> {
        let mut key: Option<K> = None;
        let mut value: Option<V> = None;
        loop {
            let id = ::mabo::buf::decode_id(r)?;
            match id.value {
                ::mabo::buf::END_MARKER => break,
                1 => key = Some(K::decode(r)?),
                2 => value = Some(V::decode(r)?),
                _ => ::mabo::buf::decode_skip(r, id.encoding)?,
            }
        }
        Ok(Self {
            key: key
                .ok_or(::mabo::buf::Error::MissingField {
                    id: 1,
                    name: Some(""key""),
                })?,
            value: value
                .ok_or(::mabo::buf::Error::MissingField {
                    id: 2,
                    name: Some(""value""),
                })?,
        })
    }
}
#[automatically_derived]
impl<K, V> ::mabo::buf::Size for KeyValue<K, V>
where
    K: ::mabo::buf::Size,
    V: ::mabo::buf::Size,
{
    #[allow(
        clippy::borrow_deref_ref,
        clippy::deref_addrof,
        clippy::explicit_auto_deref,
        clippy::needless_borrow,
        clippy::too_many_lines,
    )]
    fn size(&self) -> usize {
        let Self { key, value } = self;
        ::mabo::buf::size_field(1, || { key.size() })
            + ::mabo::buf::size_field(2, || { value.size() })
            + ::mabo::buf::END_MARKER_SIZE
    }
}
") = true.
Proof. vm_cast_no_check (eq_refl true). Qed.

(** tests/inputs_extra/alias.mabo *)
Example rust_extra_alias : compiles_to (tx "/// Hello world!
type Sample = String;
")
 (tx "#[allow(unused_imports)]
use ::mabo::buf::{Decode, Encode, Size};
/// Hello world!
#[allow(dead_code, clippy::module_name_repetitions, clippy::option_option)]
pub type Sample = String;
") = true.
Proof. vm_cast_no_check (eq_refl true). Qed.

(** tests/inputs_extra/const.mabo *)
Example rust_extra_const : compiles_to (tx "/// A bool.
const BOOL: bool = true;
/// An integer.
const INT: u32 = 100;
/// A float.
const FLOAT: f64 = 5.0;
/// A string.
const STRING: string = ""hello"";
/// Some bytes.
const BYTES: bytes = [1, 2, 3];
")
 (tx "#[allow(unused_imports)]
use ::mabo::buf::{Decode, Encode, Size};
/// A bool.
#[allow(dead_code)]
pub const BOOL: bool = true;
/// An integer.
#[allow(dead_code)]
pub const INT: u32 = 100;
/// A float.
#[allow(dead_code)]
pub const FLOAT: f64 = 5.0;
/// A string.
#[allow(dead_code)]
pub const STRING: &str = ""hello"";
/// Some bytes.
#[allow(dead_code)]
pub const BYTES: &[u8] = b""\x01\x02\x03"";
") = true.
Proof. vm_cast_no_check (eq_refl true). Qed.

(** tests/inputs_extra/enum.mabo *)
Example rust_extra_enum : compiles_to (tx "/// Hello world!
enum Sample {
    Variant1 @1,
    Variant2(u32 @1, u8 @2) @2,
    Variant3 {
        field1: string @1,
        field2: vec<bool> @2,
    } @3,
}
")
 (tx "#[allow(unused_imports)]
use ::mabo::buf::{Decode, Encode, Size};
/// Hello world!
#[derive(Clone, Debug, PartialEq)]
#[allow(dead_code, clippy::module_name_repetitions, clippy::option_option)]
pub enum Sample {
    Variant1,
    Variant2(u32, u8),
    Variant3 { field1: String, field2: Vec<bool> },
}
#[automatically_derived]
impl ::mabo::Encode for Sample {
    #[allow(
        clippy::borrow_deref_ref,
        clippy::deref_addrof,
        clippy::semicolon_if_nothing_returned,
        clippy::too_many_lines,
    )]
    fn encode(&self, w: &mut impl ::mabo::BufMut) {
        match self {
            Self::Variant1 => {
                ::mabo::buf::encode_variant_id(w, ::mabo::VariantId::new(1));
            }
            Self::Variant2(n0, n1) => {
                ::mabo::buf::encode_variant_id(w, ::mabo::VariantId::new(2));
                ::mabo::buf::encode_field(
                    w,
                    ::mabo::FieldId::new(1, ::mabo::FieldEncoding::Varint),
                    |w| {
                        ::mabo::buf::encode_u32(w, *n0);
                    },
                );
                ::mabo::buf::encode_field(
                    w,
                    ::mabo::FieldId::new(2, ::mabo::FieldEncoding::Fixed1),
                    |w| {
                        ::mabo::buf::encode_u8(w, *n1);
                    },
                );
                ::mabo::buf::encode_u32(w, ::mabo::buf::END_MARKER);
            }
            Self::Variant3 { field1, field2 } => {
                ::mabo::buf::encode_variant_id(w, ::mabo::VariantId::new(3));
                ::mabo::buf::encode_field(
                    w,
                    ::mabo::FieldId::new(1, ::mabo::FieldEncoding::LengthPrefixed),
                    |w| {
                        ::mabo::buf::encode_string(w, field1);
                    },
                );
                ::mabo::buf::encode_field(
                    w,
                    ::mabo::FieldId::new(2, ::mabo::FieldEncoding::LengthPrefixed),
                    |w| {
                        ::mabo::buf::encode_vec(
                            w,
                            field2,
                            |v| { ::mabo::buf::size_bool(*v) },
                            |w, v| {
                                ::mabo::buf::encode_bool(w, *v);
                            },
                        );
                    },
                );
                ::mabo::buf::encode_u32(w, ::mabo::buf::END_MARKER);
            }
        }
    }
}
#[automatically_derived]
impl ::mabo::Decode for Sample {
    #[allow(clippy::too_many_lines)]
    fn decode(r: &mut impl ::mabo::Buf) -> ::mabo::buf::Result<Self> {
        match ::mabo::buf::decode_variant_id(r)?.value {
            1 => Ok(Self::Variant1),
            2 => {
                let mut n0: Option<u32> = None;
                let mut n1: Option<u8> = None;
                loop {
                    let id = ::mabo::buf::decode_id(r)?;
                    match id.value {
                        ::mabo::buf::END_MARKER => break,
                        1 => n0 = Some(::mabo::buf::decode_u32(r)?),
                        2 => n1 = Some(::mabo::buf::decode_u8(r)?),
                        _ => ::mabo::buf::decode_skip(r, id.encoding)?,
                    }
                }
                Ok(
                    Self::Variant2(
                        n0
                            .ok_or(::mabo::buf::Error::MissingField {
                                id: 1,
                                name: None,
                            })?,
                        n1
                            .ok_or(::mabo::buf::Error::MissingField {
                                id: 2,
                                name: None,
                            })?,
                    ),
                )
            }
            3 => {
                let mut field1: Option<String> = None;
                let mut field2: Option<Vec<bool>> = None;
                loop {
                    let id = ::mabo::buf::decode_id(r)?;
                    match id.value {
                        ::mabo::buf::END_MARKER => break,
                        1 => field1 = Some(::mabo::buf::decode_string(r)?),
                        2 => {
                            field2 = Some(
                                ::mabo::buf::decode_vec(
                                    r,
                                    |r| { ::mabo::buf::decode_bool(r) },
                                )?,
                            );
                        }
                        _ => ::mabo::buf::decode_skip(r, id.encoding)?,
                    }
                }
                Ok(Self::Variant3 {
                    field1: field1
                        .ok_or(::mabo::buf::Error::MissingField {
                            id: 1,
                            name: Some(""field1""),
                        })?,
                    field2: field2
                        .ok_or(::mabo::buf::Error::MissingField {
                            id: 2,
                            name: Some(""field2""),
                        })?,
                })
            }
            id => Err(::mabo::buf::Error::UnknownVariant(id)),
        }
    }
}
#[automatically_derived]
impl ::mabo::buf::Size for Sample {
    #[allow(
        clippy::borrow_deref_ref,
        clippy::deref_addrof,
        clippy::semicolon_if_nothing_returned,
        clippy::too_many_lines,
    )]
    fn size(&self) -> usize {
        match self {
            Self::Variant1 => ::mabo::buf::size_variant_id(1),
            Self::Variant2(n0, n1) => {
                ::mabo::buf::size_variant_id(2)
                    + ::mabo::buf::size_field(1, || { ::mabo::buf::size_u32(*n0) })
                    + ::mabo::buf::size_field(2, || { ::mabo::buf::size_u8(*n1) })
                    + ::mabo::buf::END_MARKER_SIZE
            }
            Self::Variant3 { field1, field2 } => {
                ::mabo::buf::size_variant_id(3)
                    + ::mabo::buf::size_field(1, || { ::mabo::buf::size_string(field1) })
                    + ::mabo::buf::size_field(
                        2,
                        || {
                            ::mabo::buf::size_vec(
                                field2,
                                |v| { ::mabo::buf::size_bool(*v) },
                            )
                        },
                    ) + ::mabo::buf::END_MARKER_SIZE
            }
        }
    }
}
") = true.
Proof. vm_cast_no_check (eq_refl true). Qed.

(** tests/inputs_extra/import.mabo *)
Example rust_extra_import : compiles_to (tx "use other::module;
use other::module::Type;
")
 (tx "#[allow(unused_imports)]
use ::mabo::buf::{Decode, Encode, Size};
#[allow(unused_imports)]
use super::other::module;
#[allow(unused_imports)]
use super::other::module::Type;
") = true.
Proof. vm_cast_no_check (eq_refl true). Qed.

(** tests/inputs_extra/module.mabo *)
Example rust_extra_module : compiles_to (tx "/// Hello world!
mod sample {}
")
 (tx "#[allow(unused_imports)]
use ::mabo::buf::{Decode, Encode, Size};
/// Hello world!
pub mod sample {
    #[allow(unused_imports)]
    use ::mabo::buf::{Decode, Encode, Size};
}
") = true.
Proof. vm_cast_no_check (eq_refl true). Qed.

(** tests/inputs_extra/struct.mabo *)
Example rust_extra_struct : compiles_to (tx "/// Hello world!
struct Sample {
    field1: u32 @1,
    field2: bytes @2,
    field3: (bool, [i16; 4]) @3,
}
")
 (tx "#[allow(unused_imports)]
use ::mabo::buf::{Decode, Encode, Size};
/// Hello world!
#[derive(Clone, Debug, PartialEq)]
#[allow(dead_code, clippy::module_name_repetitions, clippy::option_option)]
pub struct Sample {
    pub field1: u32,
    pub field2: Vec<u8>,
    pub field3: (bool, [i16; 4]),
}
#[automatically_derived]
impl ::mabo::Encode for Sample {
    #[allow(
        clippy::borrow_deref_ref,
        clippy::deref_addrof,
        clippy::explicit_auto_deref,
        clippy::needless_borrow,
        clippy::too_many_lines,
    )]
    fn encode(&self, w: &mut impl ::mabo::BufMut) {
        let Self { field1, field2, field3 } = self;
        ::mabo::buf::encode_field(
            w,
            ::mabo::FieldId::new(1, ::mabo::FieldEncoding::Varint),
            |w| {
                ::mabo::buf::encode_u32(w, *field1);
            },
        );
        ::mabo::buf::encode_field(
            w,
            ::mabo::FieldId::new(2, ::mabo::FieldEncoding::LengthPrefixed),
            |w| {
                ::mabo::buf::encode_bytes_std(w, field2);
            },
        );
        ::mabo::buf::encode_field(
            w,
            ::mabo::FieldId::new(3, ::mabo::FieldEncoding::LengthPrefixed),
            |w| {
                ::mabo::buf::encode_tuple(
                    w,
                    || {
                        ::mabo::buf::size_bool(*&field3.0)
                            + ::mabo::buf::size_array(
                                &field3.1,
                                |v| { ::mabo::buf::size_i16(*v) },
                            )
                    },
                    |w| {
                        ::mabo::buf::encode_bool(w, *&field3.0);
                        ::mabo::buf::encode_array(
                            w,
                            &field3.1,
                            |v| { ::mabo::buf::size_i16(*v) },
                            |w, v| {
                                ::mabo::buf::encode_i16(w, *v);
                            },
                        );
                    },
                );
            },
        );
        ::mabo::buf::encode_u32(w, ::mabo::buf::END_MARKER);
    }
}
#[automatically_derived]
impl ::mabo::Decode for Sample {
    #[allow(clippy::type_complexity, clippy::too_many_lines)]
    fn decode(r: &mut impl ::mabo::Buf) -> ::mabo::buf::Result<Self> {
        let mut field1: Option<u32> = None;
        let mut field2: Option<Vec<u8>> = None;
        let mut field3: Option<(bool, [i16; 4])> = None;
        loop {
            let id = ::mabo::buf::decode_id(r)?;
            match id.value {
                ::mabo::buf::END_MARKER => break,
                1 => field1 = Some(::mabo::buf::decode_u32(r)?),
                2 => field2 = Some(::mabo::buf::decode_bytes_std(r)?),
                3 => {
                    field3 = Some(
                        {
                            ::mabo::buf::decode_u64(r)?;
                            Ok::<
                                _,
                                ::mabo::buf::Error,
                            >((
                                ::mabo::buf::decode_bool(r)?,
                                ::mabo::buf::decode_array(
                                    r,
                                    |r| { ::mabo::buf::decode_i16(r) },
                                )?,
                            ))
                        }?,
                    );
                }
                _ => ::mabo::buf::decode_skip(r, id.encoding)?,
            }
        }
        Ok(Self {
            field1: field1
                .ok_or(::mabo::buf::Error::MissingField {
                    id: 1,
                    name: Some(""field1""),
                })?,
            field2: field2
                .ok_or(::mabo::buf::Error::MissingField {
                    id: 2,
                    name: Some(""field2""),
                })?,
            field3: field3
                .ok_or(::mabo::buf::Error::MissingField {
                    id: 3,
                    name: Some(""field3""),
                })?,
        })
    }
}
#[automatically_derived]
impl ::mabo::buf::Size for Sample {
    #[allow(
        clippy::borrow_deref_ref,
        clippy::deref_addrof,
        clippy::explicit_auto_deref,
        clippy::needless_borrow,
        clippy::too_many_lines,
    )]
    fn size(&self) -> usize {
        let Self { field1, field2, field3 } = self;
        ::mabo::buf::size_field(1, || { ::mabo::buf::size_u32(*field1) })
            + ::mabo::buf::size_field(2, || { ::mabo::buf::size_bytes_std(field2) })
            + ::mabo::buf::size_field(
                3,
                || {
                    ::mabo::buf::size_bool(*&field3.0)
                        + ::mabo::buf::size_array(
                            &field3.1,
                            |v| { ::mabo::buf::size_i16(*v) },
                        )
                },
            ) + ::mabo::buf::END_MARKER_SIZE
    }
}
") = true.
Proof. vm_cast_no_check (eq_refl true). Qed.
