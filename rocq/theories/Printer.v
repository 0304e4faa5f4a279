(** The schema printer: the [Print]/[Display] implementations of crates/mabo-parser/src/lib.rs
    and punctuated.rs, as used by `mabo fmt` (crates/mabo-cli/src/main.rs). *)
From Verif Require Import Base Syntax Parser.
Require Coq.Strings.String.
Import Coq.Strings.String.StringSyntax.
Local Open Scope N_scope.

(** lib.rs L42-65 [Print::indent]: four spaces per level. *)
Fixpoint indent (level : nat) : str :=
  match level with O => [] | S l => tx "    " ++ indent l end.

(** punctuated.rs L66-94 [surround]; [pr] prints an element (at the level it is given by the
    caller, [level + 1]). *)
Definition pr_surround {A} (open close : N) (pr : A -> str) (level : nat) (newline : bool)
    (p : punct A) : str :=
  [open] ++ (if newline then [10] else []) ++
  concat (map (fun v => pr v ++ [44] ++ (if newline then [10] else [32])) (p_init p)) ++
  pr (p_last p) ++ (if p_trail p then [44] else []) ++
  (if newline then [10] else []) ++ indent level ++ [close].

(** lib.rs L978-1010: the types without parameters. *)
Definition pr_prim (p : prim) : str :=
  match p with
  | PrBool => tx "bool"
  | PrU8 => tx "u8" | PrU16 => tx "u16" | PrU32 => tx "u32" | PrU64 => tx "u64" | PrU128 => tx "u128"
  | PrI8 => tx "i8" | PrI16 => tx "i16" | PrI32 => tx "i32" | PrI64 => tx "i64" | PrI128 => tx "i128"
  | PrF32 => tx "f32" | PrF64 => tx "f64"
  | PrString => tx "string" | PrStringRef => tx "&string"
  | PrBytes => tx "bytes" | PrBytesRef => tx "&bytes"
  | PrBoxString => tx "box<string>" | PrBoxBytes => tx "box<bytes>"
  end.
(** lib.rs L978-1010 [Display for DataType], L1038-1056 [Display for ExternalType].  The inner
    [concat (map ..)] is [pr_surround .. 0 false], written out for Coq's termination check. *)
Fixpoint pr_type (t : pty) : str :=
  match t with
  | PPrim p => pr_prim p
  | PVec t => tx "vec<" ++ pr_type t ++ tx ">"
  | PHashMap k v => tx "hash_map<" ++ pr_type k ++ tx ", " ++ pr_type v ++ tx ">"
  | PHashSet t => tx "hash_set<" ++ pr_type t ++ tx ">"
  | POption t => tx "option<" ++ pr_type t ++ tx ">"
  | PNonZero t => tx "non_zero<" ++ pr_type t ++ tx ">"
  | PTuple (Punct l x b) =>
      [40] ++ concat (map (fun v => pr_type v ++ [44] ++ [32]) l) ++
      pr_type x ++ (if b then [44] else []) ++ [41]
  | PArray t n => tx "[" ++ pr_type t ++ tx "; " ++ dec_str n ++ tx "]"
  | PExternal path name gs =>
      concat (map (fun s => s ++ tx "::") path) ++ name ++
      match gs with
      | Some (Punct l x b) =>
          [60] ++ concat (map (fun v => pr_type v ++ [44] ++ [32]) l) ++
          pr_type x ++ (if b then [44] else []) ++ [62]
      | None => []
      end
  end.

(** lib.rs L698-709, L733-737: comments. *)
Definition pr_comment (level : nat) (c : comment) : str :=
  concat (map (fun l => indent level ++ tx "/// " ++ l ++ [10]) c).

(** lib.rs L1103-1108: ids, preceded by a space. *)
Definition pr_id (i : option N) : str :=
  match i with Some n => tx " @" ++ dec_str n | None => [] end.

(** lib.rs L609-630 [NamedField], L669-680 [UnnamedField], L565-575 [Fields]. *)
Definition pr_nfield (level : nat) (f : nfield) : str :=
  pr_comment level (nf_comment f) ++ indent level ++ nf_name f ++ tx ": " ++ pr_type (nf_ty f) ++ pr_id (nf_id f).
Definition pr_ufield (f : ufield) : str := pr_type (uf_ty f) ++ pr_id (uf_id f).
Definition pr_fields (level : nat) (fs : pfields) : str :=
  match fs with
  | FNamed l => [32] ++ pr_surround 123 125 (pr_nfield (S level)) level true l
  | FUnnamed l => pr_surround 40 41 pr_ufield 0 false l
  | FUnit => []
  end.

(** lib.rs L1072-1076 [Generics]. *)
Definition pr_generics (g : option generics) : str :=
  match g with Some p => pr_surround 60 62 (fun s => s) 0 false p | None => [] end.

(** lib.rs L448-468 [Variant]. *)
Definition pr_variant (level : nat) (v : pvariant) : str :=
  pr_comment level (pv_comment v) ++ indent level ++ pv_name v ++ pr_fields level (pv_fields v) ++ pr_id (pv_id v).

(** * Literals *)
Section Lit.
Context {F : Type}.
(** [Display for f64]. *)
Variable fmt_f64 : F -> str.
(** Which characters [Debug for str] writes as [\u{..}] (the Unicode tables behind
    [char::escape_debug]: not printable, or a grapheme extension). *)
Variable esc_u : N -> bool.

(** Hexadecimal digits of [n], lower case, without leading zeros. *)
Definition hex_char (d : N) : N := if d <? 10 then 48 + d else 87 + d.
Fixpoint hex_aux (fuel : nat) (n : N) (acc : str) : str :=
  match fuel with
  | O => acc
  | S f => let acc' := hex_char (n mod 16) :: acc in
           if n <? 16 then acc' else hex_aux f (n / 16) acc'
  end.
Definition hex_str (n : N) : str := hex_aux (S (N.to_nat (N.log2 n))) n [].
(** [char::escape_debug] as used by [Debug for str] (quotes escaped, apostrophes not). *)
Definition esc_char (c : N) : str :=
  if c =? 0 then tx "\0"
  else if c =? 9 then tx "\t"
  else if c =? 13 then tx "\r"
  else if c =? 10 then tx "\n"
  else if c =? 92 then tx "\\"
  else if c =? 34 then [92; 34]
  else if esc_u c then tx "\u{" ++ hex_str c ++ tx "}"
  else [c].
Definition pr_string (s : str) : str := [34] ++ concat (map esc_char s) ++ [34].
(** [Display for i128]. *)
Definition pr_int (z : Z) : str :=
  if (z <? 0)%Z then 45 :: dec_str (Z.abs_N z) else dec_str (Z.abs_N z).
(** Elements separated by comma and space. *)
Fixpoint join (sep : str) (l : list str) : str :=
  match l with
  | [] => []
  | [x] => x
  | x :: l' => x ++ sep ++ join sep l'
  end.
(** lib.rs L1264-1274 [Display for LiteralValue]; [Debug for Vec<u8>]. *)
Definition pr_literal (l : lit F) : str :=
  match l with
  | LBool b => if b then tx "true" else tx "false"
  | LInt z => pr_int z
  | LFloat f => fmt_f64 f
  | LString s => pr_string s
  | LBytes l => tx "[" ++ join (tx ", ") (map dec_str l) ++ tx "]"
  end.

(** lib.rs L1321-1339 [concat]: nothing at all for an empty list. *)
Definition pr_concat (open close : N) (l : list str) : str :=
  match l with [] => [] | _ => [open] ++ join (tx ", ") l ++ [close] end.
(** lib.rs L795-803 [Attribute], L821-829 [AttributeValue]. *)
Fixpoint pr_attr (a : attr F) : str :=
  match a with
  | Attr n v => n ++ match v with
                     | AUnit => []
                     | ASingle l => tx " = " ++ pr_literal l
                     | AMulti l => pr_concat 40 41 (map pr_attr l)
                     end
  end.
(** lib.rs L765-779 [Attributes]. *)
Definition pr_attributes (level : nat) (l : list (attr F)) : str :=
  match l with [] => [] | _ => indent level ++ [35] ++ pr_concat 91 93 (map pr_attr l) ++ [10] end.

(** lib.rs L273-296 [Module], L336-358 [Struct], L400-425 [Enum], L509-530 [TypeAlias],
    L1192-1212 [Const], L1292-1319 [Import]; keywords: token.rs L32-37. *)
Fixpoint pr_def (level : nat) (d : pdef F) : str :=
  match d with
  | PModule c n ds =>
      pr_comment level c ++ indent level ++ tx "mod" ++ tx " " ++ n ++ tx " {" ++ [10] ++
      join [10] (map (pr_def (S level)) ds) ++ indent level ++ tx "}" ++ [10]
  | PStruct c a n g fs =>
      pr_comment level c ++ pr_attributes level a ++ indent level ++ tx "struct" ++ tx " " ++ n ++
      pr_generics g ++ pr_fields level fs ++ [10]
  | PEnum c a n g vs =>
      pr_comment level c ++ pr_attributes level a ++ indent level ++ tx "enum" ++ tx " " ++ n ++
      pr_generics g ++ tx " " ++ pr_surround 123 125 (pr_variant (S level)) level true vs ++ [10]
  | PAlias c n g t =>
      pr_comment level c ++ indent level ++ tx "type" ++ tx " " ++ n ++ pr_generics g ++
      tx " = " ++ pr_type t ++ tx ";"
  | PConst c n t v =>
      pr_comment level c ++ indent level ++ tx "const" ++ tx " " ++ n ++ tx ": " ++ pr_type t ++
      tx " = " ++ pr_literal v ++ tx ";"
  | PImport s e =>
      indent level ++ tx "use" ++ tx " " ++ join (tx "::") s ++
      match e with Some n => tx "::" ++ n | None => [] end ++ tx ";"
  end.

(** lib.rs L175-186 [Display for Schema]; crates/mabo-cli/src/main.rs [format] writes it. *)
Definition pr_schema (s : pschema F) : str :=
  match ps_comment s with [] => [] | c => pr_comment 0 c ++ [10] end ++
  concat (map (fun d => pr_def 0 d ++ [10]) (ps_defs s)).

(** crates/mabo-cli/src/main.rs L58-77 [format], for one file: its new content.  A file that
    does not parse is reported and left alone.  Simplification: the parser is a parameter, file
    access cannot fail. *)
Definition format_file (parse_f64 : str -> option F) (i : str) : str :=
  match schema_parse parse_f64 i with Some s => pr_schema s | None => i end.
End Lit.
