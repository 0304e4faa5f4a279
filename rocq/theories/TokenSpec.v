(** Specification of the semantic tokens of a document: which words of the text are highlighted, in which order, and how. *)
From Verif Require Import Base Syntax Parser Printer Lsp LspSpec LspVisit.
Require Coq.Strings.String.
Import Coq.Strings.String.StringSyntax.
Local Open Scope N_scope.

(** A word of the text.  Either it is to be highlighted, with a type and modifiers, or not; and what it must be. *)
Inductive item :=
| Item (k : tkind) (m : list tmod) (P : str -> Prop)
| Silent (P : str -> Prop).
Definition hush (w : item) : item := match w with Item _ _ P => Silent P | w => w end.
Definition word (k : tkind) (s : str) : item := Item k [] (eq s).
Definition declared (k : tkind) (s : str) : item := Item k [TmDeclaration] (eq s).

(** A comment line: three slashes, blanks, the line. *)
Definition comment_text (line t : str) : Prop := exists b, forallb is_space b = true /\ t = tx "///" ++ b ++ line.
Definition comment_items (c : comment) : list item := map (fun l => Item TkComment [TmDocumentation] (comment_text l)) c.
Definition comma_item : item := word TkComma (tx ",").
Definition punct_items {A} (f : A -> list item) (p : punct A) : list item :=
  let 'Punct l x t := p in flat_map (fun a => f a ++ [comma_item]) l ++ f x ++ (if t then [comma_item] else []).
(** An id: [@] and a decimal number. *)
Definition id_items (i : option N) : list item := match i with Some n => [word TkIdentifier (64 :: dec_str n)] | None => [] end.
(** Blanks and line breaks. *)
Definition blank (g : str) : Prop := forallb is_mspace g = true.
Definition between (k : tkind) (o : str) (l : list item) (c : str) : list item := word k o :: l ++ [word k c].

(** The words of a type. *)
Fixpoint type_items (t : pty) : list item :=
  match t with
  | PPrim p => [word TkBuiltinType (pr_prim p)]
  | PVec t => word TkBuiltinType (tx "vec") :: between TkAngle (tx "<") (type_items t) (tx ">")
  | PHashSet t => word TkBuiltinType (tx "hash_set") :: between TkAngle (tx "<") (type_items t) (tx ">")
  | POption t => word TkBuiltinType (tx "option") :: between TkAngle (tx "<") (type_items t) (tx ">")
  | PNonZero t => word TkBuiltinType (tx "non_zero") :: between TkAngle (tx "<") (type_items t) (tx ">")
  | PHashMap k v => word TkBuiltinType (tx "hash_map") :: between TkAngle (tx "<") (type_items k ++ comma_item :: type_items v) (tx ">")
  | PTuple (Punct l x b) =>
      between TkParenthesis (tx "(") (flat_map (fun a => type_items a ++ [comma_item]) l ++ type_items x ++ (if b then [comma_item] else [])) (tx ")")
  | PArray t n => between TkBracket (tx "[") (type_items t ++ [word TkSemicolon (tx ";"); Silent (eq (dec_str n))]) (tx "]")
  | PExternal path n gs =>
      flat_map (fun s => [word TkNamespace s; word TkDoubleColon (tx "::")]) path ++ word TkType n ::
      match gs with
      | Some (Punct l x b) =>
          between TkAngle (tx "<") (flat_map (fun a => type_items a ++ [comma_item]) l ++ type_items x ++ (if b then [comma_item] else [])) (tx ">")
      | None => []
      end
  end.
(** The angles around type parameters are not highlighted. *)
Definition generics_items (g : option generics) : list item :=
  match g with
  | Some p => Silent (eq (tx "<")) :: punct_items (fun n => [declared TkTypeParameter n]) p ++ [Silent (eq (tx ">"))]
  | None => []
  end.
Definition nfield_items (f : nfield) : list item :=
  comment_items (nf_comment f) ++ declared TkProperty (nf_name f) :: word TkColon (tx ":") :: type_items (nf_ty f) ++ id_items (nf_id f).
Definition ufield_items (f : ufield) : list item := type_items (uf_ty f) ++ id_items (uf_id f).
Definition fields_items (fs : pfields) : list item :=
  match fs with
  | FNamed l => between TkBrace (tx "{") (punct_items nfield_items l) (tx "}")
  | FUnnamed l => between TkParenthesis (tx "(") (punct_items ufield_items l) (tx ")")
  | FUnit => []
  end.
Definition variant_items (v : pvariant) : list item :=
  comment_items (pv_comment v) ++ declared TkEnumMember (pv_name v) :: fields_items (pv_fields v) ++ id_items (pv_id v).

Section Lit.
Context {F : Type}.
Variable parse_f64 : str -> option F.
(** A text that the literal is read from. *)
Definition lit_text (v : lit F) (t : str) : Prop := exists r, parse_literal parse_f64 (t ++ r) = POk v r.
(** Booleans and numbers are highlighted, strings and bytes are not. *)
Definition lit_items (v : lit F) : list item :=
  match v with
  | LBool true => [word TkBoolean (tx "true")]
  | LBool false => [word TkBoolean (tx "false")]
  | LInt _ | LFloat _ => [Item TkNumber [] (lit_text v)]
  | LString _ | LBytes _ => [Silent (lit_text v)]
  end.
(** Attributes, possibly none. *)
Definition attr_text (a : list (attr F)) (t : str) : Prop := exists r, attributes parse_f64 (t ++ r) = POk a r.
(** What stands before a definition: its comment and its attributes.  A comment before an import is not highlighted, and
    attributes of definitions that have none are dropped. *)
Definition def_head (d : pdef F) : list item :=
  match d with
  | PStruct c a _ _ _ | PEnum c a _ _ _ => comment_items c ++ [Silent (attr_text a)]
  | PModule c _ _ | PAlias c _ _ _ | PConst c _ _ _ => comment_items c ++ [Silent (fun t => exists a, attr_text a t)]
  | PImport _ _ => [Silent (fun t => exists c r, comments (t ++ r) = POk c r); Silent (fun t => exists a, attr_text a t)]
  end.
(** The words of a definition. *)
Fixpoint def_items (d : pdef F) : list item :=
  def_head d ++
  match d with
  | PModule _ n ds => word TkKeyword (tx "mod") :: declared TkNamespace n :: between TkBrace (tx "{") (flat_map def_items ds) (tx "}")
  | PStruct _ _ n g fs => word TkKeyword (tx "struct") :: declared TkStruct n :: generics_items g ++ fields_items fs
  | PEnum _ _ n g vs =>
      word TkKeyword (tx "enum") :: declared TkEnum n :: generics_items g ++ between TkBrace (tx "{") (punct_items variant_items vs) (tx "}")
  | PAlias _ n g t =>
      word TkKeyword (tx "type") :: declared TkTypeAlias n :: generics_items g ++
      word TkEqual (tx "=") :: type_items t ++ [word TkSemicolon (tx ";")]
  | PConst _ n t v =>
      word TkKeyword (tx "const") :: Item TkVariable [TmDeclaration; TmStatic; TmConstant] (eq n) ::
      word TkColon (tx ":") :: type_items t ++ word TkEqual (tx "=") :: lit_items v ++ [word TkSemicolon (tx ";")]
  | PImport segs el =>
      word TkKeyword (tx "use") ::
      match segs with
      | s :: segs' => word TkNamespace s :: flat_map (fun s => [Silent (eq (tx "::")); word TkNamespace s]) segs'
      | [] => []
      end ++ match el with Some n => [word TkDoubleColon (tx "::"); word TkType n] | None => [] end ++ [Silent (eq (tx ";"))]
  end.
(** The comment of the schema itself is not highlighted. *)
Definition schema_items (s : pschema F) : list item := map hush (comment_items (ps_comment s)) ++ flat_map def_items (ps_defs s).
End Lit.

(** [highlighted before rest ws ts]: in the text [before ++ rest], [rest] is made of the words [ws] with nothing but blanks and
    line breaks around them; none of those to be highlighted is empty or has a line break in it, and [ts] are tokens at
    their places, with the types and modifiers wanted. *)
Inductive highlighted (enc : option wenc) : str -> str -> list item -> list token -> Prop :=
| hl_nil before rest : blank rest -> highlighted enc before rest [] []
| hl_silent before gap t rest (P : str -> Prop) ws ts :
    blank gap -> P t ->
    highlighted enc (before ++ gap ++ t) rest ws ts ->
    highlighted enc before (gap ++ t ++ rest) (Silent P :: ws) ts
| hl_word before gap t rest k m (P : str -> Prop) ws ts :
    blank gap -> P t -> t <> [] -> ~ In nl t ->
    highlighted enc (before ++ gap ++ t) rest ws ts ->
    highlighted enc before (gap ++ t ++ rest) (Item k m P :: ws)
      (Token (end_of enc (before ++ gap)) (end_of enc (before ++ gap ++ t)) (token_type_pos k) (token_modifier_bitset m) :: ts).
