(** Specification: the schema language as a grammar.  Each relation says which texts write which part of a schema; nothing here
    refers to the parser.  It is written from the examples of the manual (book/src/reference/schema) and, where these leave
    open where blanks may stand, from what the parser documents about itself. *)
From Verif Require Import Base Syntax ParserSpec.
Require Coq.Strings.String.
Import Coq.Strings.String.StringSyntax.
Local Open Scope N_scope.

(** Spaces and tabs; [White] of ParserSpec.v also allows line breaks. *)
Definition Blank (s : str) : Prop := Forall (fun c => c = 32 \/ c = 9) s.

(** * Lists *)
Section Lists.
Context {A : Type} (elem : str -> A -> Prop).
(** One or more elements with commas between them; a comma may be preceded by white space and follow the last element. *)
Inductive wlist : str -> punct A -> Prop :=
| wl_one s a : elem s a -> wlist s (Punct [] a false)
| wl_trailing s a b : elem s a -> White b -> wlist (s ++ b ++ w ",") (Punct [] a true)
| wl_more s a b rest l x t : elem s a -> White b -> wlist rest (Punct l x t) -> wlist (s ++ b ++ w "," ++ rest) (Punct (a :: l) x t).
(** The list between an opening and a closing character. *)
Inductive wenclosed (open close : str) : str -> punct A -> Prop :=
| wenclosed_intro body b p : wlist body p -> White b -> wenclosed open close (open ++ body ++ b ++ close) p.
(** The element behind white space. *)
Inductive behind : str -> A -> Prop := behind_intro b s a : White b -> elem s a -> behind (b ++ s) a.
(** Zero or more elements, one directly behind the other. *)
Inductive wmany : str -> list A -> Prop :=
| wm_nil : wmany [] []
| wm_cons s a rest l : elem s a -> wmany rest l -> wmany (s ++ rest) (a :: l).
(** One or more elements with commas between them, without a comma behind the last one. *)
Inductive wseparated : str -> list A -> Prop :=
| ws_one s a : elem s a -> wseparated s [a]
| ws_more s a b rest l : elem s a -> White b -> wseparated rest l -> wseparated (s ++ b ++ w "," ++ rest) (a :: l).
(** Something that may be missing. *)
Inductive wopt : str -> option A -> Prop :=
| wo_none : wopt [] None
| wo_some s a : elem s a -> wopt s (Some a).
End Lists.

(** * Types *)
Definition prim_word (p : prim) : str :=
  match p with
  | PrBool => w "bool"
  | PrU8 => w "u8" | PrU16 => w "u16" | PrU32 => w "u32" | PrU64 => w "u64" | PrU128 => w "u128"
  | PrI8 => w "i8" | PrI16 => w "i16" | PrI32 => w "i32" | PrI64 => w "i64" | PrI128 => w "i128"
  | PrF32 => w "f32" | PrF64 => w "f64"
  | PrString => w "string" | PrStringRef => w "&string" | PrBytes => w "bytes" | PrBytesRef => w "&bytes"
  | PrBoxString => w "box<string>" | PrBoxBytes => w "box<bytes>"
  end.
Definition path_text (path : list str) : str := concat (map (fun s => s ++ w "::") path).
(** No white space is allowed behind the opening angle of a built-in container. *)
Inductive wtype : str -> pty -> Prop :=
| wt_prim p : wtype (prim_word p) (PPrim p)
| wt_vec s t b : wtype s t -> White b -> wtype (w "vec<" ++ s ++ b ++ w ">") (PVec t)
| wt_hash_set s t b : wtype s t -> White b -> wtype (w "hash_set<" ++ s ++ b ++ w ">") (PHashSet t)
| wt_option s t b : wtype s t -> White b -> wtype (w "option<" ++ s ++ b ++ w ">") (POption t)
| wt_non_zero s t b : wtype s t -> White b -> wtype (w "non_zero<" ++ s ++ b ++ w ">") (PNonZero t)
| wt_hash_map s k b1 b2 s' v b : wtype s k -> Blank b1 -> Blank b2 -> wtype s' v -> White b ->
    wtype (w "hash_map<" ++ s ++ b1 ++ w "," ++ b2 ++ s' ++ b ++ w ">") (PHashMap k v)
| wt_tuple s p : wenclosed (behind wtype) (w "(") (w ")") s p -> wtype s (PTuple p)
| wt_array b1 s t b2 b3 d n b4 : White b1 -> wtype s t -> White b2 -> White b3 -> Decimal d n -> n < 2 ^ 32 -> White b4 ->
    wtype (w "[" ++ b1 ++ s ++ b2 ++ w ";" ++ b3 ++ d ++ b4 ++ w "]") (PArray t n)
| wt_reference path name s gs :
    Forall LowerName path -> match path with x :: _ => ~ Shadowed x | [] => True end -> RefName name ->
    wopt (wenclosed (behind wtype) (w "<") (w ">")) s gs ->
    wtype (path_text path ++ name ++ s) (PExternal path name gs).

(** * Fields and variants *)
Inductive wid : str -> N -> Prop := wid_intro b d n : Blank b -> Decimal d n -> n < 2 ^ 32 -> wid (b ++ w "@" ++ d) n.
(** A comment line: three slashes, blanks, the line, a line break. *)
Inductive wline : str -> str -> Prop := wline_intro b1 b2 l : Blank b1 -> Blank b2 -> LineOk l -> wline (b1 ++ w "///" ++ b2 ++ l ++ [10]) l.
Definition wcomment : str -> comment -> Prop := wmany wline.
Inductive wnfield : str -> nfield -> Prop :=
| wnfield_intro b1 sc c b2 n b3 b4 st t si i :
    White b1 -> wcomment sc c -> Blank b2 -> LowerName n -> Blank b3 -> Blank b4 -> wtype st t -> wopt wid si i ->
    wnfield (b1 ++ sc ++ b2 ++ n ++ b3 ++ w ":" ++ b4 ++ st ++ si) (NField c n t i).
Inductive wufield : str -> ufield -> Prop :=
| wufield_intro b st t si i : White b -> wtype st t -> wopt wid si i -> wufield (b ++ st ++ si) (UField t i).
Inductive wfields : str -> pfields -> Prop :=
| wf_named s p : wenclosed wnfield (w "{") (w "}") s p -> wfields s (FNamed p)
| wf_unnamed s p : wenclosed wufield (w "(") (w ")") s p -> wfields s (FUnnamed p)
| wf_unit : wfields [] FUnit.
Inductive wvariant : str -> pvariant -> Prop :=
| wvariant_intro b1 sc c b2 n b3 sf fs si i :
    White b1 -> wcomment sc c -> Blank b2 -> TypeName n -> Blank b3 -> wfields sf fs -> wopt wid si i ->
    wvariant (b1 ++ sc ++ b2 ++ n ++ b3 ++ sf ++ si) (PVariant c n fs i).
Inductive wname : str -> str -> Prop := wname_intro n : TypeName n -> wname n n.
Definition wgenerics : str -> option generics -> Prop := wopt (wenclosed (behind wname) (w "<") (w ">")).

(** * Literals *)
Section Lit.
Context {F : Type}.
(** The value of a decimal floating point text. *)
Variable parse_f64 : str -> option F.

Inductive wsign : str -> bool -> Prop := wsign_none : wsign [] false | wsign_plus : wsign (w "+") false | wsign_minus : wsign (w "-") true.
Inductive wexponent : str -> Prop :=
| we_none : wexponent []
| we_some e s neg d : e = w "e" \/ e = w "E" -> wsign s neg -> Forall digit d -> d <> [] -> wexponent (e ++ s ++ d).
Definition hexdigit (c v : N) : Prop :=
  (digit c /\ v = c - 48) \/ (97 <= c <= 102 /\ v = c - 87) \/ (65 <= c <= 70 /\ v = c - 55).
Inductive Hex : str -> N -> Prop :=
| Hex_nil : Hex [] 0
| Hex_snoc h v c x : Hex h v -> hexdigit c x -> Hex (h ++ [c]) (16 * v + x).
(** One escaped character, behind the backslash.  The escape for NUL is a NUL. *)
Inductive wescape : str -> N -> Prop :=
| wx_n : wescape (w "n") 10 | wx_r : wescape (w "r") 13 | wx_t : wescape (w "t") 9 | wx_b : wescape (w "b") 8 | wx_f : wescape (w "f") 12
| wx_backslash : wescape (w "\") 92 | wx_nul : wescape [0] 0 | wx_slash : wescape (w "/") 47 | wx_quote : wescape [34] 34
| wx_unicode h v : Hex h v -> (1 <= length h <= 6)%nat -> scalar v -> wescape (w "u{" ++ h ++ w "}") v.
(** The inside of a string literal: a backslash followed by white space stands for nothing, together with all of that white space. *)
Inductive wchars : str -> str -> Prop :=
| wc_nil : wchars [] []
| wc_plain c s v : c <> 34 -> c <> 92 -> wchars s v -> wchars (c :: s) (c :: v)
| wc_escape e c s v : wescape e c -> wchars s v -> wchars (w "\" ++ e ++ s) (c :: v)
| wc_gap b s v : White b -> b <> [] -> match s with c :: _ => ~ White [c] | [] => True end -> wchars s v -> wchars (w "\" ++ b ++ s) v.
Inductive wbyte : str -> N -> Prop := wbyte_intro d n : Decimal d n -> n < 256 -> wbyte d n.
Inductive wlit : str -> lit F -> Prop :=
| wl_true : wlit (w "true") (LBool true)
| wl_false : wlit (w "false") (LBool false)
| wl_int s (neg : bool) d v (z : Z) : wsign s neg -> Digits d v -> d <> [] -> z = (if neg then - Z.of_N v else Z.of_N v)%Z ->
    (- 2 ^ 127 <= z < 2 ^ 127)%Z -> wlit (s ++ d) (LInt z)
| wl_float s neg a b e f : wsign s neg -> Forall digit a -> a <> [] -> Forall digit b -> b <> [] -> wexponent e ->
    parse_f64 (s ++ a ++ w "." ++ b ++ e) = Some f -> wlit (s ++ a ++ w "." ++ b ++ e) (LFloat f)
| wl_string s v : wchars s v -> wlit ([34] ++ s ++ [34]) (LString v)
| wl_bytes s l x t : wenclosed (behind wbyte) (w "[") (w "]") s (Punct l x t) -> wlit s (LBytes (l ++ [x])).

(** * Attributes *)
Inductive wcomma : str -> Prop := wcomma_none : wcomma [] | wcomma_some : wcomma (w ",").
Inductive wattr : str -> attr F -> Prop :=
| wa_unit n : LowerName n -> wattr n (Attr n AUnit)
| wa_single n b1 b2 s v : LowerName n -> Blank b1 -> Blank b2 -> wlit s v -> wattr (n ++ b1 ++ w "=" ++ b2 ++ s) (Attr n (ASingle v))
| wa_multi n s l comma b : LowerName n -> wseparated (behind wattr) s l -> wcomma comma -> White b ->
    wattr (n ++ w "(" ++ s ++ comma ++ b ++ w ")") (Attr n (AMulti l)).
(** An attribute line. *)
Inductive wattr_line : str -> list (attr F) -> Prop :=
| wattr_line_intro s l comma b : wseparated (behind wattr) s l -> wcomma comma -> White b ->
    wattr_line (w "#[" ++ s ++ comma ++ b ++ w "]" ++ [10]) l.
Inductive wattrs : str -> list (attr F) -> Prop := wattrs_intro s l : wmany wattr_line s l -> wattrs s (concat l).

(** * Definitions *)
(** What stands before a definition: a comment and attributes. *)
Inductive whead : str -> comment -> list (attr F) -> Prop :=
| whead_intro b1 sc c b2 sa a b3 : White b1 -> wcomment sc c -> White b2 -> wattrs sa a -> Blank b3 -> whead (b1 ++ sc ++ b2 ++ sa ++ b3) c a.
(** A keyword and the blanks behind it. *)
Inductive wkeyword (k : str) : str -> Prop := wkeyword_intro b : Blank b -> b <> [] -> wkeyword k (k ++ b).
(** A struct without fields ends where something other than blanks follows; directly behind the name this must not be a letter or digit. *)
Definition unit_ends (g : option generics) (after : str) : Prop :=
  exists b x r, after = b ++ x :: r /\ Blank b /\ ~ Blank [x] /\ (g = None -> b = [] -> ~ (lower x \/ upper x \/ digit x)).
(** A path segment and the ones behind it. *)
Definition segments_text (segs : list str) : str := match segs with [] => [] | s :: segs' => s ++ concat (map (fun s => w "::" ++ s) segs') end.
(** [wdef s d after]: [s] writes the definition [d] when [after] follows. *)
Inductive wdef : str -> pdef F -> str -> Prop :=
| wd_struct sh c a k n sg g b sf fs after :
    whead sh c a -> wkeyword (w "struct") k -> TypeName n -> wgenerics sg g -> Blank b -> wfields sf fs -> fs <> FUnit ->
    wdef (sh ++ k ++ n ++ sg ++ b ++ sf) (PStruct c a n g fs) after
| wd_unit_struct sh c a k n sg g after :
    whead sh c a -> wkeyword (w "struct") k -> TypeName n -> wgenerics sg g -> unit_ends g after ->
    wdef (sh ++ k ++ n ++ sg) (PStruct c a n g FUnit) after
| wd_enum sh c a k n sg g b sv vs after :
    whead sh c a -> wkeyword (w "enum") k -> TypeName n -> wgenerics sg g -> Blank b -> wenclosed wvariant (w "{") (w "}") sv vs ->
    wdef (sh ++ k ++ n ++ sg ++ b ++ sv) (PEnum c a n g vs) after
| wd_alias sh c a k n sg g b1 b2 st t b3 after :
    whead sh c a -> wkeyword (w "type") k -> TypeName n -> wgenerics sg g -> Blank b1 -> Blank b2 -> wtype st t -> Blank b3 ->
    wdef (sh ++ k ++ n ++ sg ++ b1 ++ w "=" ++ b2 ++ st ++ b3 ++ w ";") (PAlias c n g t) after
| wd_const sh c a k n b1 st t b2 b3 sv v after :
    whead sh c a -> wkeyword (w "const") k -> ConstName n -> Blank b1 -> wtype st t -> Blank b2 -> Blank b3 -> wlit sv v ->
    wdef (sh ++ k ++ n ++ w ":" ++ b1 ++ st ++ b2 ++ w "=" ++ b3 ++ sv ++ w ";") (PConst c n t v) after
| wd_import sh c a k segs el se after :
    whead sh c a -> wkeyword (w "use") k -> segs <> [] -> Forall LowerName segs ->
    (el = None /\ se = [] \/ exists n, el = Some n /\ TypeName n /\ se = w "::" ++ n) ->
    wdef (sh ++ k ++ segments_text segs ++ se ++ w ";") (PImport segs el) after
| wd_module sh c a k n b1 sd ds b2 after :
    whead sh c a -> wkeyword (w "mod") k -> LowerName n -> Blank b1 -> wdefs sd ds (b2 ++ w "}") -> White b2 ->
    wdef (sh ++ k ++ n ++ b1 ++ w "{" ++ sd ++ b2 ++ w "}") (PModule c n ds) after
with wdefs : str -> list (pdef F) -> str -> Prop :=
| wds_nil after : wdefs [] [] after
| wds_cons s d rest ds after : wdef s d (rest ++ after) -> wdefs rest ds after -> wdefs (s ++ rest) (d :: ds) after.

(** A comment at the beginning of the text with an empty line behind it is the comment of the schema. *)
Inductive wopening : str -> comment -> Prop := wopening_intro b s c : White b -> wcomment s c -> c <> [] -> wopening (b ++ s ++ [10]) c.
Inductive wschema : str -> pschema F -> Prop :=
| ws_commented so c sd ds b : wopening so c -> wdefs sd ds b -> White b -> wschema (so ++ sd ++ b) (PSchema c ds)
| ws_plain sd ds b : wdefs sd ds b -> White b -> (forall so c rest, wopening so c -> sd ++ b <> so ++ rest) -> wschema (sd ++ b) (PSchema [] ds).
End Lit.
