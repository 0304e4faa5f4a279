(** Specification vocabulary for the schema parser and printer: what the schema language's
    documentation (book/src/reference and the help texts of the parser's errors) says about
    names, ids, comments and types; independent of the parsing functions. *)
From Verif Require Import Base Syntax.
Require Coq.Strings.String.
Import Coq.Strings.String.StringSyntax.
Local Open Scope N_scope.

(** ASCII classes. *)
Definition lower (c : N) : Prop := 97 <= c <= 122.
Definition upper (c : N) : Prop := 65 <= c <= 90.
Definition digit (c : N) : Prop := 48 <= c <= 57.
Definition underscore (c : N) : Prop := c = 95.

(** A text: Unicode scalar values. *)
Definition scalar (c : N) : Prop := c < 55296 \/ 57344 <= c < 1114112.
Definition text (s : str) : Prop := Forall scalar s.

(** A name: one character of the first class followed by any number of the second. *)
Definition named (first more : N -> Prop) (s : str) : Prop :=
  exists c r, s = c :: r /\ first c /\ Forall more r.
(** Structs, enums, variants, aliases, type parameters: A-Z, then A-Z, a-z, 0-9. *)
Definition TypeName : str -> Prop := named upper (fun c => upper c \/ lower c \/ digit c).
(** Fields, modules, import segments, attributes: a-z, then a-z, 0-9, _. *)
Definition LowerName : str -> Prop := named lower (fun c => lower c \/ digit c \/ underscore c).
(** Constants: A-Z, then A-Z, 0-9, _. *)
Definition ConstName : str -> Prop := named upper (fun c => upper c \/ digit c \/ underscore c).
(** References to types: as type names, with underscores. *)
Definition RefName : str -> Prop :=
  named upper (fun c => upper c \/ lower c \/ digit c \/ underscore c).

(** The words of the built-in types. *)
Definition w (s : String.string) : str := map Ascii.N_of_ascii (String.list_ascii_of_string s).
Arguments w s%string_scope.
Definition basic_words : list str :=
  [w "bool"; w "u8"; w "u16"; w "u32"; w "u64"; w "u128"; w "i8"; w "i16"; w "i32"; w "i64"; w "i128";
   w "f32"; w "f64"; w "string"; w "bytes"].
Definition generic_words : list str := [w "vec"; w "hash_map"; w "hash_set"; w "option"; w "non_zero"].
(** A path segment which the parser takes for a built-in type: a basic type's word, alone or
    followed by an underscore; a generic type's word, alone or followed by a digit. *)
Definition Shadowed (s : str) : Prop :=
  exists word r, s = word ++ r /\
    (   (In word basic_words /\ (r = [] \/ exists c r', r = c :: r' /\ underscore c))
     \/ (In word generic_words /\ (r = [] \/ exists c r', r = c :: r' /\ digit c))).

(** Names within a type are proper and sizes are 32-bit. *)
Fixpoint TypeOk (t : pty) : Prop :=
  match t with
  | PPrim _ => True
  | PVec t | PHashSet t | POption t | PNonZero t => TypeOk t
  | PHashMap k v => TypeOk k /\ TypeOk v
  | PTuple (Punct l x _) => fold_right (fun t P => TypeOk t /\ P) True l /\ TypeOk x
  | PArray t n => TypeOk t /\ n < 2 ^ 32
  | PExternal path name gs =>
      Forall LowerName path /\ RefName name /\
      match gs with
      | Some (Punct l x _) => fold_right (fun t P => TypeOk t /\ P) True l /\ TypeOk x
      | None => True
      end
  end.
(** No type reference within the type starts with a shadowed path segment. *)
Fixpoint NoShadow (t : pty) : Prop :=
  match t with
  | PPrim _ => True
  | PVec t | PHashSet t | POption t | PNonZero t | PArray t _ => NoShadow t
  | PHashMap k v => NoShadow k /\ NoShadow v
  | PTuple (Punct l x _) => fold_right (fun t P => NoShadow t /\ P) True l /\ NoShadow x
  | PExternal path name gs =>
      match path with s :: _ => ~ Shadowed s | [] => True end /\
      match gs with
      | Some (Punct l x _) => fold_right (fun t P => NoShadow t /\ P) True l /\ NoShadow x
      | None => True
      end
  end.

(** Decimal numbers without leading zeros and their values. *)
Inductive Digits : str -> N -> Prop :=
| Digits_nil : Digits [] 0
| Digits_snoc d v c : Digits d v -> digit c -> Digits (d ++ [c]) (10 * v + (c - 48)).
Definition Decimal (d : str) (v : N) : Prop :=
  Digits d v /\ d <> [] /\ (d = w "0" \/ match d with c :: _ => c <> 48 | [] => True end).

Definition IdOk (i : option N) : Prop := match i with Some n => n < 2 ^ 32 | None => True end.
(** A comment line: no line break, and leading blanks removed. *)
Definition LineOk (l : str) : Prop :=
  ~ In 10 l /\ match l with c :: _ => c <> 32 /\ c <> 9 | [] => True end.
Definition NFieldOk (f : nfield) : Prop :=
  Forall LineOk (nf_comment f) /\ LowerName (nf_name f) /\ TypeOk (nf_ty f) /\ NoShadow (nf_ty f) /\ IdOk (nf_id f).
Definition UFieldOk (f : ufield) : Prop := TypeOk (uf_ty f) /\ NoShadow (uf_ty f) /\ IdOk (uf_id f).
Definition FieldsOk (fs : pfields) : Prop :=
  match fs with
  | FNamed p => Forall NFieldOk (p_values p)
  | FUnnamed p => Forall UFieldOk (p_values p)
  | FUnit => True
  end.
Definition VariantOk (v : pvariant) : Prop :=
  Forall LineOk (pv_comment v) /\ TypeName (pv_name v) /\ FieldsOk (pv_fields v) /\ IdOk (pv_id v).
Definition GenericsOk (g : option generics) : Prop :=
  match g with Some p => Forall TypeName (p_values p) | None => True end.

Section Lit.
Context {F : Type}.
(** What a literal can be at all. *)
Definition LitOk (l : lit F) : Prop :=
  match l with
  | LBool _ | LFloat _ => True
  | LInt z => (- 2 ^ 127 <= z < 2 ^ 127)%Z
  | LString s => text s
  | LBytes l => l <> [] /\ Forall (fun b => b < 256) l
  end.
Fixpoint AttrOk (a : attr F) : Prop :=
  match a with
  | Attr n v => LowerName n /\
      match v with
      | AUnit => True
      | ASingle l => LitOk l
      | AMulti l => l <> [] /\ fold_right (fun a P => AttrOk a /\ P) True l
      end
  end.
Fixpoint DefOk (d : pdef F) : Prop :=
  match d with
  | PModule c n ds => Forall LineOk c /\ LowerName n /\ fold_right (fun d P => DefOk d /\ P) True ds
  | PStruct c a n g fs => Forall LineOk c /\ Forall AttrOk a /\ TypeName n /\ GenericsOk g /\ FieldsOk fs
  | PEnum c a n g vs =>
      Forall LineOk c /\ Forall AttrOk a /\ TypeName n /\ GenericsOk g /\ Forall VariantOk (p_values vs)
  | PAlias c n g t => Forall LineOk c /\ TypeName n /\ GenericsOk g /\ TypeOk t /\ NoShadow t
  | PConst c n t v => Forall LineOk c /\ ConstName n /\ TypeOk t /\ NoShadow t /\ LitOk v
  | PImport l e => l <> [] /\ Forall LowerName l /\ match e with Some n => TypeName n | None => True end
  end.
Definition SchemaOk (s : pschema F) : Prop := Forall LineOk (ps_comment s) /\ Forall DefOk (ps_defs s).

(** The literals of a schema. *)
Fixpoint attr_lits (a : attr F) : list (lit F) :=
  match a with
  | Attr _ AUnit => []
  | Attr _ (ASingle l) => [l]
  | Attr _ (AMulti l) => flat_map attr_lits l
  end.
Fixpoint def_lits (d : pdef F) : list (lit F) :=
  match d with
  | PModule _ _ ds => flat_map def_lits ds
  | PStruct _ a _ _ _ | PEnum _ a _ _ _ => flat_map attr_lits a
  | PConst _ _ _ v => [v]
  | PAlias _ _ _ _ | PImport _ _ => []
  end.
Definition schema_lits (s : pschema F) : list (lit F) := flat_map def_lits (ps_defs s).

(** A decimal number with a fractional part: [-]digits.digits. *)
Definition DecimalPoint (s : str) : Prop :=
  exists sign a b, s = sign ++ a ++ [46] ++ b /\ (sign = [] \/ sign = [45]) /\
    a <> [] /\ Forall digit a /\ b <> [] /\ Forall digit b.
(** Literals whose printed form can be read back: floats that print with a fractional part,
    strings without NUL. *)
Definition Reprintable (fmt_f64 : F -> str) (parse_f64 : str -> option F) (l : lit F) : Prop :=
  match l with
  | LFloat f => DecimalPoint (fmt_f64 f) /\ parse_f64 (fmt_f64 f) = Some f
  | LString s => ~ In 0 s
  | _ => True
  end.
End Lit.

(** White space between the parts of a schema. *)
Definition White (s : str) : Prop := Forall (fun c => c = 32 \/ c = 9 \/ c = 13 \/ c = 10) s.
