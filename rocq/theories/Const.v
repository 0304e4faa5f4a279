(** Constants of a schema and the Rust items generated for them (crates/mabo-build/src/definition.rs). *)
From Verif Require Import Base Syntax Parser Compiler.
Require Coq.Strings.String.
Import Coq.Strings.String.StringSyntax.
Local Open Scope N_scope.

Section Const.
Context {F : Type}.
(** [f64::is_finite]. *)
Variable finite : F -> bool.

(** A Rust literal token as proc_macro2 builds it: [true]/[false], an unsuffixed integer or float, a string, a byte string. *)
Inductive rtok := RBool (b : bool) | RInt (z : Z) | RFloat (f : F) | RStr (s : str) | RByteStr (b : list N).

(** definition.rs L378-386 [compile_literal]; [Literal::f64_unsuffixed] asserts that the number is finite. *)
Definition compile_literal (v : lit F) : option rtok :=
  match v with
  | LBool b => Some (RBool b)
  | LInt z => Some (RInt z)
  | LFloat f => if finite f then Some (RFloat f) else None
  | LString s => Some (RStr s)
  | LBytes b => Some (RByteStr b)
  end.

(** definition.rs L355-376 [compile_const_data_type]: the type's text, or a panic. *)
Definition compile_const_data_type (t : sty) : option str :=
  match t with
  | SPrim PrBool => Some (tx "bool")
  | SPrim PrU8 => Some (tx "u8")
  | SPrim PrU16 => Some (tx "u16")
  | SPrim PrU32 => Some (tx "u32")
  | SPrim PrU64 => Some (tx "u64")
  | SPrim PrU128 => Some (tx "u128")
  | SPrim PrI8 => Some (tx "i8")
  | SPrim PrI16 => Some (tx "i16")
  | SPrim PrI32 => Some (tx "i32")
  | SPrim PrI64 => Some (tx "i64")
  | SPrim PrI128 => Some (tx "i128")
  | SPrim PrF32 => Some (tx "f32")
  | SPrim PrF64 => Some (tx "f64")
  | SPrim (PrString | PrStringRef) => Some (tx "&str")
  | SPrim (PrBytes | PrBytesRef) => Some (tx "&[u8]")
  | _ => None
  end.

(** definition.rs L173-193 [compile_const]: [pub const name: ty = value;]. *)
Record ritem := RItem { ri_name : str; ri_ty : str; ri_value : rtok }.
Definition compile_const (n : str) (t : sty) (v : lit F) : option ritem :=
  match compile_const_data_type t with
  | None => None
  | Some ty => match compile_literal v with None => None | Some k => Some (RItem n ty k) end
  end.

(** * The Rust side: which literal is a constant of which type.

    Integers outside the range of their type are rejected (the lint [overflowing_literals] denies them), as are floats that
    are infinite in their type; [f32_finite] says which numbers are not infinite when rounded to 32 bits. *)
Variable f32_finite : F -> bool.
Definition in_range (lo hi z : Z) : Prop := (lo <= z < hi)%Z.
Inductive rust_accepts : str -> rtok -> Prop :=
| ra_bool b : rust_accepts (tx "bool") (RBool b)
| ra_u8 z : in_range 0 (2 ^ 8) z -> rust_accepts (tx "u8") (RInt z)
| ra_u16 z : in_range 0 (2 ^ 16) z -> rust_accepts (tx "u16") (RInt z)
| ra_u32 z : in_range 0 (2 ^ 32) z -> rust_accepts (tx "u32") (RInt z)
| ra_u64 z : in_range 0 (2 ^ 64) z -> rust_accepts (tx "u64") (RInt z)
| ra_u128 z : in_range 0 (2 ^ 128) z -> rust_accepts (tx "u128") (RInt z)
| ra_i8 z : in_range (- 2 ^ 7) (2 ^ 7) z -> rust_accepts (tx "i8") (RInt z)
| ra_i16 z : in_range (- 2 ^ 15) (2 ^ 15) z -> rust_accepts (tx "i16") (RInt z)
| ra_i32 z : in_range (- 2 ^ 31) (2 ^ 31) z -> rust_accepts (tx "i32") (RInt z)
| ra_i64 z : in_range (- 2 ^ 63) (2 ^ 63) z -> rust_accepts (tx "i64") (RInt z)
| ra_i128 z : in_range (- 2 ^ 127) (2 ^ 127) z -> rust_accepts (tx "i128") (RInt z)
| ra_f32 f : f32_finite f = true -> rust_accepts (tx "f32") (RFloat f)
| ra_f64 f : finite f = true -> rust_accepts (tx "f64") (RFloat f)
| ra_str s : rust_accepts (tx "&str") (RStr s)
| ra_bytes b : rust_accepts (tx "&[u8]") (RByteStr b).

(** * The schema side: the literal written is a value of the type written (book/src/reference/schema). *)
Definition int_bounds (p : prim) : option (Z * Z) :=
  match p with
  | PrU8 => Some (0, 2 ^ 8) | PrU16 => Some (0, 2 ^ 16) | PrU32 => Some (0, 2 ^ 32) | PrU64 => Some (0, 2 ^ 64)
  | PrU128 => Some (0, 2 ^ 128)
  | PrI8 => Some (- 2 ^ 7, 2 ^ 7) | PrI16 => Some (- 2 ^ 15, 2 ^ 15) | PrI32 => Some (- 2 ^ 31, 2 ^ 31)
  | PrI64 => Some (- 2 ^ 63, 2 ^ 63) | PrI128 => Some (- 2 ^ 127, 2 ^ 127)
  | _ => None
  end%Z.
Definition is_value (p : prim) (v : lit F) : Prop :=
  match v with
  | LBool _ => p = PrBool
  | LInt z => exists lo hi, int_bounds p = Some (lo, hi) /\ (lo <= z < hi)%Z
  | LFloat f => finite f = true /\ (p = PrF64 \/ p = PrF32 /\ f32_finite f = true)
  | LString _ => p = PrString \/ p = PrStringRef
  | LBytes _ => p = PrBytes \/ p = PrBytesRef
  end.
End Const.
Arguments rtok F : clear implicits.
Arguments ritem F : clear implicits.
