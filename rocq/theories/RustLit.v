(** The values of Rust's literals: The Rust Reference, "Tokens" (character escapes, string literals, byte string literals, integer and floating
    point literals).  This is a specification; nothing of the repository is modelled here.

    Simplifications: underscores between digits are left out, as are suffixes, exponents, raw strings and the bases 2, 8 and 16, none of
    which the generator writes. *)
From Verif Require Import Base Syntax Parser Compiler RustFile.
Require Coq.Strings.String.
Import Coq.Strings.String.StringSyntax.
Local Open Scope N_scope.

(** A hexadecimal digit, and a number written in them. *)
Definition hex (c : N) : option N :=
  if (48 <=? c) && (c <=? 57) then Some (c - 48)
  else if (65 <=? c) && (c <=? 70) then Some (c - 55)
  else if (97 <=? c) && (c <=? 102) then Some (c - 87)
  else None.
Inductive hexes : N -> str -> N -> Prop :=
| hexes_nil n : hexes n [] n
| hexes_cons n c d t m : hex c = Some d -> hexes (16 * n + d) t m -> hexes n (c :: t) m.
(** The letter behind the backslash: n, r, t, a backslash, 0, an apostrophe, a quote. *)
Definition simple_escape (c : N) : option N :=
  if c =? 110 then Some 10 else if c =? 114 then Some 13 else if c =? 116 then Some 9 else if c =? 92 then Some 92
  else if c =? 48 then Some 0 else if c =? 39 then Some 39 else if c =? 34 then Some 34 else None.
(** Space, tab, line feed, carriage return: what a backslash at the end of a line skips. *)
Definition blank (c : N) : Prop := c = 32 \/ c = 9 \/ c = 10 \/ c = 13.
Definition not_blank (t : str) : Prop := match t with c :: _ => ~ blank c | [] => True end.

(** The text between the quotes of a string literal, and the string it denotes. *)
Inductive string_body : str -> str -> Prop :=
| sb_end : string_body [] []
| sb_char c t s : c <> 34 -> c <> 92 -> c <> 13 -> string_body t s -> string_body (c :: t) (c :: s)
| sb_simple c v t s : simple_escape c = Some v -> string_body t s -> string_body (92 :: c :: t) (v :: s)
| sb_ascii a b x y t s : hex a = Some x -> x < 8 -> hex b = Some y -> string_body t s -> string_body (92 :: 120 :: a :: b :: t) (16 * x + y :: s)
| sb_unicode l v t s : hexes 0 l v -> l <> [] -> (length l <= 6)%nat -> v < 55296 \/ 57344 <= v < 1114112 -> string_body t s ->
    string_body (92 :: 117 :: 123 :: l ++ 125 :: t) (v :: s)
| sb_continue l t s : Forall blank l -> not_blank t -> string_body t s -> string_body (92 :: 10 :: l ++ t) s.
(** The same of a byte string literal. *)
Inductive byte_body : str -> list N -> Prop :=
| bb_end : byte_body [] []
| bb_char c t s : c < 128 -> c <> 34 -> c <> 92 -> c <> 13 -> byte_body t s -> byte_body (c :: t) (c :: s)
| bb_simple c v t s : simple_escape c = Some v -> byte_body t s -> byte_body (92 :: c :: t) (v :: s)
| bb_byte a b x y t s : hex a = Some x -> hex b = Some y -> byte_body t s -> byte_body (92 :: 120 :: a :: b :: t) (16 * x + y :: s)
| bb_continue l t s : Forall blank l -> not_blank t -> byte_body t s -> byte_body (92 :: 10 :: l ++ t) s.

(** A number in decimal digits. *)
Inductive decimals : N -> str -> N -> Prop :=
| decimals_nil n : decimals n [] n
| decimals_cons n c t m : 48 <= c <= 57 -> decimals (10 * n + (c - 48)) t m -> decimals n (c :: t) m.
Definition all_digits (s : str) : Prop := s <> [] /\ Forall (fun c => 48 <= c <= 57) s.

(** The value of a literal expression.  [parse_f64] is the conversion of text to floating point numbers (rustc's and the parser's); the minus sign
    is part of its text. *)
Inductive rust_value {F} (parse_f64 : str -> option F) : list rt -> lit F -> Prop :=
| rv_true : rust_value parse_f64 [W (tx "true")] (LBool true)
| rv_false : rust_value parse_f64 [W (tx "false")] (LBool false)
| rv_int l n : l <> [] -> decimals 0 l n -> rust_value parse_f64 [Q l] (LInt (Z.of_N n))
| rv_negative l n : l <> [] -> decimals 0 l n -> rust_value parse_f64 [P [45]; Q l] (LInt (- Z.of_N n))
| rv_float a b f : all_digits a -> all_digits b -> parse_f64 (a ++ 46 :: b) = Some f -> rust_value parse_f64 [Q (a ++ 46 :: b)] (LFloat f)
| rv_negative_float a b f : all_digits a -> all_digits b -> parse_f64 (45 :: a ++ 46 :: b) = Some f ->
    rust_value parse_f64 [P [45]; Q (a ++ 46 :: b)] (LFloat f)
| rv_string t s : string_body t s -> rust_value parse_f64 [Q (34 :: t ++ [34])] (LString s)
| rv_bytes t b : byte_body t b -> rust_value parse_f64 [Q (98 :: 34 :: t ++ [34])] (LBytes b).

(** Doc comments: one attribute [#[doc = ".."]] for every line; rustdoc joins the lines. *)
Inductive doc_lines : list rt -> list str -> Prop :=
| dl_nil : doc_lines [] []
| dl_cons t l ts ls : string_body t l -> doc_lines ts ls ->
    doc_lines (P [35] :: G Brk [W (tx "doc"); P [61]; Q (34 :: t ++ [34])] :: ts) (l :: ls).
