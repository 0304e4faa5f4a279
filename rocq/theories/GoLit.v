(** The values of Go's literals: The Go Programming Language Specification, "Integer literals", "Floating-point literals", "Rune literals" (the
    escapes), "String literals", "Source code representation" (NUL is not allowed; the compiler rejects a byte order mark inside of a file).
    This is a specification; nothing of the repository is modelled here.

    Simplifications: underscores between digits, exponents, raw strings, the bases 2, 8 and 16 and sums of constants are left out: none is written by
    the generator.  A constant takes the value of its literal; that its declared type has that value is a matter of its own. *)
From Verif Require Import Base Syntax Parser Utf8 RustLit.
Require Coq.Strings.String.
Import Coq.Strings.String.StringSyntax.
Local Open Scope N_scope.

(** The letter behind the backslash: a, b, f, n, r, t, v, a backslash, a quote. *)
Definition go_escape (c : N) : option N :=
  if c =? 97 then Some 7 else if c =? 98 then Some 8 else if c =? 102 then Some 12 else if c =? 110 then Some 10 else if c =? 114 then Some 13
  else if c =? 116 then Some 9 else if c =? 118 then Some 11 else if c =? 92 then Some 92 else if c =? 34 then Some 34 else None.
Definition octal (c : N) : Prop := 48 <= c <= 55.
(** A character that stands for itself between the quotes. *)
Definition go_raw (c : N) : Prop := unicode_scalar c /\ c <> 0 /\ c <> 10 /\ c <> 34 /\ c <> 92 /\ c <> 65279.
(** The text between the quotes of a string literal, and the bytes of the string it denotes: a Go string is a sequence of bytes; a character stands for
    its UTF-8 encoding, an escape of two hexadecimal or three octal digits for one byte. *)
Inductive go_string : str -> list N -> Prop :=
| gs_end : go_string [] []
| gs_char c t b : go_raw c -> go_string t b -> go_string (c :: t) (utf8_of c ++ b)
| gs_simple c v t b : go_escape c = Some v -> go_string t b -> go_string (92 :: c :: t) (v :: b)
| gs_octal x y z t b : octal x -> octal y -> octal z -> 64 * (x - 48) + 8 * (y - 48) + (z - 48) < 256 -> go_string t b ->
    go_string (92 :: x :: y :: z :: t) (64 * (x - 48) + 8 * (y - 48) + (z - 48) :: b)
| gs_byte l v t b : length l = 2%nat -> hexes 0 l v -> go_string t b -> go_string (92 :: 120 :: l ++ t) (v :: b)
| gs_short l v t b : length l = 4%nat -> hexes 0 l v -> unicode_scalar v -> go_string t b -> go_string (92 :: 117 :: l ++ t) (utf8_of v ++ b)
| gs_long l v t b : length l = 8%nat -> hexes 0 l v -> unicode_scalar v -> go_string t b -> go_string (92 :: 85 :: l ++ t) (utf8_of v ++ b).

(** A decimal integer: no zero in front, or it would be octal. *)
Definition go_decimal (s : str) : Prop := all_digits s /\ (s = [48] \/ forall t, s <> 48 :: t).
(** A decimal number, possibly with a point. *)
Definition go_number (s : str) : Prop := go_decimal s \/ exists a b, all_digits a /\ all_digits b /\ s = a ++ 46 :: b.
(** It is zero. *)
Definition zero_number (s : str) : Prop := Forall (fun c => c = 48 \/ c = 46) s.
(** A list of elements: values with commas in between. *)
Inductive go_elements : str -> list N -> Prop :=
| ge_one s n : go_decimal s -> decimals 0 s n -> n < 256 -> go_elements s [n]
| ge_more s n t l : go_decimal s -> decimals 0 s n -> n < 256 -> go_elements t l -> go_elements (s ++ tx ", " ++ t) (n :: l).

(** The value of a constant expression that is a literal.  [parse_f64] is the conversion of text to floating point numbers.  Go's constants are exact
    numbers: there is no negative zero among them. *)
Inductive go_value {F} (parse_f64 : str -> option F) : str -> lit F -> Prop :=
| gv_true : go_value parse_f64 (tx "true") (LBool true)
| gv_false : go_value parse_f64 (tx "false") (LBool false)
| gv_int s n : go_decimal s -> decimals 0 s n -> go_value parse_f64 s (LInt (Z.of_N n))
| gv_negative s n : go_decimal s -> decimals 0 s n -> go_value parse_f64 (45 :: s) (LInt (- Z.of_N n))
| gv_float s f : go_number s -> parse_f64 s = Some f -> go_value parse_f64 s (LFloat f)
| gv_negative_float s f : go_number s -> ~ zero_number s -> parse_f64 (45 :: s) = Some f -> go_value parse_f64 (45 :: s) (LFloat f)
| gv_negative_zero s f : go_number s -> zero_number s -> parse_f64 s = Some f -> go_value parse_f64 (45 :: s) (LFloat f)
| gv_string t s : go_string t (concat (map utf8_of s)) -> Forall unicode_scalar s -> go_value parse_f64 (34 :: t ++ [34]) (LString s)
| gv_bytes t b : go_elements t b -> go_value parse_f64 (tx "[]byte{" ++ t ++ tx "}") (LBytes b).
