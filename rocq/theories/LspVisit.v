(** What the language server answers for a parsed document: crates/mabo-lsp/src/handlers/semantic_tokens.rs,
    document_symbols.rs and hover.rs, over the located syntax tree of SpanParser.v. *)
From Verif Require Import Base Syntax Parser Compiler Meta Lsp SpanParser.
Local Open Scope N_scope.

(** index.rs L29-56 [Index::get_range]: first the lines and columns of both ends, then their wide forms. *)
Definition get_range (ix : index) (l : loc) : lres (Lsp.pos * Lsp.pos) :=
  lbind (line_col (ix_index ix) (fst l mod 2 ^ 32)) (fun s =>
  lbind (line_col (ix_index ix) (snd l mod 2 ^ 32)) (fun e =>
  match ix_encoding ix with
  | Some enc => lbind (of_opt (to_wide enc (ix_index ix) s)) (fun s' =>
                lbind (of_opt (to_wide enc (ix_index ix) e)) (fun e' => LOk (s', e')))
  | None => LOk (s, e)
  end)).

(** * semantic_tokens.rs *)

(** L37-72: the token types, in the order of the list announced to the editor. *)
Inductive tkind :=
| TkNamespace | TkType | TkEnum | TkStruct | TkTypeParameter | TkVariable | TkProperty | TkEnumMember | TkKeyword | TkComment | TkNumber
| TkBoolean | TkBuiltinType | TkIdentifier | TkTypeAlias
| TkComma | TkColon | TkSemicolon | TkPound | TkDoubleColon | TkEqual
| TkBrace | TkBracket | TkParenthesis | TkAngle.
Definition token_types : list tkind :=
  [TkNamespace; TkType; TkEnum; TkStruct; TkTypeParameter; TkVariable; TkProperty; TkEnumMember; TkKeyword; TkComment; TkNumber;
   TkBoolean; TkBuiltinType; TkIdentifier; TkTypeAlias;
   TkComma; TkColon; TkSemicolon; TkPound; TkDoubleColon; TkEqual;
   TkBrace; TkBracket; TkParenthesis; TkAngle].
(** L98-108: the modifiers. *)
Inductive tmod := TmDeclaration | TmStatic | TmDocumentation | TmConstant.
Definition token_modifiers : list tmod := [TmDeclaration; TmStatic; TmDocumentation; TmConstant].
Definition tkind_eq_dec (a b : tkind) : {a = b} + {a <> b}. Proof. decide equality. Defined.
Definition tmod_eq_dec (a b : tmod) : {a = b} + {a <> b}. Proof. decide equality. Defined.
(** L112-120 [token_type_pos]: [position]; every type is in the list. *)
Fixpoint kind_pos (k : tkind) (l : list tkind) : N :=
  match l with
  | x :: l' => if tkind_eq_dec x k then 0 else 1 + kind_pos k l'
  | [] => 0
  end.
Definition token_type_pos (k : tkind) : N := kind_pos k token_types.
(** L122-128 [token_modifier_bitset]. *)
Definition token_modifier_bitset (ms : list tmod) : N :=
  modifier_bitset (map (fun m => if in_dec tmod_eq_dec m ms then true else false) token_modifiers).

(** A call of [add_span]: location, type and modifiers. *)
Record tspan := TSpan { ts_loc : loc; ts_kind : tkind; ts_mods : list tmod }.
Definition tk (l : loc) (k : tkind) : tspan := TSpan l k [].
Definition decl (n : lname) (k : tkind) : tspan := TSpan (ln_loc n) k [TmDeclaration].
(** An element list with commas. *)
Definition commad {A} (f : A -> list tspan) (e : A * option loc) : list tspan :=
  f (fst e) ++ match snd e with Some c => [tk c TkComma] | None => [] end.
Definition punct_toks {A} (f : A -> list tspan) (p : lpunct A) : list tspan :=
  let 'Punct l x _ := p in flat_map (commad f) l ++ commad f x.

(** L204-210 [visit_comment]. *)
Definition comment_toks (c : lcomment) : list tspan := map (fun l => TSpan (ln_loc l) TkComment [TmDocumentation]) c.
(** L315-321 [visit_id]. *)
Definition id_toks (i : option lid) : list tspan := match i with Some (_, l) => [tk l TkIdentifier] | None => [] end.
(** L352-436 [visit_type]. *)
Fixpoint type_toks (t : lty) : list tspan :=
  match t with
  | LTPrim s _ => [tk s TkBuiltinType]
  | LTOne _ _ kw o c t => tk kw TkBuiltinType :: tk o TkAngle :: type_toks t ++ [tk c TkAngle]
  | LTMap _ kw o c k m v => tk kw TkBuiltinType :: tk o TkAngle :: type_toks k ++ tk m TkComma :: type_toks v ++ [tk c TkAngle]
  | LTTuple _ o c (Punct l x _) =>
      tk o TkParenthesis :: (flat_map (commad type_toks) l ++ commad type_toks x) ++ [tk c TkParenthesis]
  | LTArray _ o c t m _ => tk o TkBracket :: type_toks t ++ [tk m TkSemicolon; tk c TkBracket]
  | LTExt _ path n gs =>
      flat_map (fun e => [tk (ln_loc (fst e)) TkNamespace; tk (snd e) TkDoubleColon]) path ++ tk (ln_loc n) TkType ::
      match gs with
      | Some ((o, c), Punct l x _) => tk o TkAngle :: (flat_map (commad type_toks) l ++ commad type_toks x) ++ [tk c TkAngle]
      | None => []
      end
  end.
(** L438-451 [visit_literal]. *)
Definition lit_toks {F} (v : lit F) (l : loc) : list tspan :=
  match v with
  | LBool _ => [tk l TkBoolean]
  | LInt _ | LFloat _ => [tk l TkNumber]
  | LString _ | LBytes _ => []
  end.
(** L453-464 [visit_generics]. *)
Definition generics_toks (g : option lgenerics) : list tspan :=
  match g with Some p => punct_toks (fun n => [decl n TkTypeParameter]) p | None => [] end.
(** L301-308 [visit_named_field], L310-313 [visit_unnamed_field], L273-299 [visit_fields], L264-271 [visit_variant]. *)
Definition nfield_toks (f : lnfield) : list tspan :=
  comment_toks (lnf_comment f) ++ decl (lnf_name f) TkProperty :: tk (lnf_colon f) TkColon :: type_toks (lnf_ty f) ++ id_toks (lnf_id f).
Definition ufield_toks (f : lufield) : list tspan := type_toks (luf_ty f) ++ id_toks (luf_id f).
Definition fields_toks (fs : lfields) : list tspan :=
  match fs with
  | LFNamed o c l => tk o TkBrace :: punct_toks nfield_toks l ++ [tk c TkBrace]
  | LFUnnamed o c l => tk o TkParenthesis :: punct_toks ufield_toks l ++ [tk c TkParenthesis]
  | LFUnit => []
  end.
Definition variant_toks (v : lvariant) : list tspan :=
  comment_toks (lv_comment v) ++ decl (lv_name v) TkEnumMember :: fields_toks (lv_fields v) ++ id_toks (lv_id v).
(** L212-262 [visit_definition], [visit_module], [visit_struct], [visit_enum], L323-350 [visit_alias], [visit_const],
    L466-478 [visit_import]. *)
Fixpoint def_toks {F} (d : ldef F) : list tspan :=
  match d with
  | LModule c kw n o e ds =>
      comment_toks c ++ tk kw TkKeyword :: decl n TkNamespace :: tk o TkBrace :: flat_map def_toks ds ++ [tk e TkBrace]
  | LStruct c _ kw n g fs => comment_toks c ++ tk kw TkKeyword :: decl n TkStruct :: generics_toks g ++ fields_toks fs
  | LEnum c _ kw n g o e vs =>
      comment_toks c ++ tk kw TkKeyword :: decl n TkEnum :: generics_toks g ++ tk o TkBrace :: punct_toks variant_toks vs ++ [tk e TkBrace]
  | LAlias c kw n g e t m =>
      comment_toks c ++ tk kw TkKeyword :: decl n TkTypeAlias :: generics_toks g ++ tk e TkEqual :: type_toks t ++ [tk m TkSemicolon]
  | LConst c kw n k t e v vl m =>
      comment_toks c ++ tk kw TkKeyword :: TSpan (ln_loc n) TkVariable [TmDeclaration; TmStatic; TmConstant] :: tk k TkColon ::
      type_toks t ++ tk e TkEqual :: lit_toks v vl ++ [tk m TkSemicolon]
  | LImport kw segs el _ =>
      tk kw TkKeyword :: map (fun s => tk (ln_loc s) TkNamespace) segs ++
      match el with Some (d, n) => [tk d TkDoubleColon; tk (ln_loc n) TkType] | None => [] end
  end.
(** L196-202 [visit_schema]: the locations visited. *)
Definition schema_toks {F} (s : lschema F) : list tspan := flat_map def_toks (ls_defs s).

(** L172-194 [add_span] in turn, given the start of the previous token. *)
Fixpoint emit_spans (chk : bool) (ix : index) (delta : Lsp.pos) (l : list tspan) : lres (list sem_token) :=
  match l with
  | [] => LOk []
  | t :: l' =>
      lbind (get_range ix (ts_loc t)) (fun r =>
      lbind (add_span chk delta (Token (fst r) (snd r) (token_type_pos (ts_kind t)) (token_modifier_bitset (ts_mods t)))) (fun x =>
      lbind (emit_spans chk ix (fst r) l') (fun xs => LOk (x :: xs))))
  end.
(** mod.rs L295-319 [semantic_tokens_full] for a document that parses. *)
Definition semantic_tokens {F} (chk : bool) (ix : index) (s : lschema F) : lres (list sem_token) :=
  emit_spans chk ix (Pos 0 0) (schema_toks s).

(** * document_symbols.rs *)
Inductive skind_ := SkModule | SkStruct | SkEnum | SkEnumMember | SkProperty | SkVariable | SkConstant | SkFile.
(** [DocumentSymbol], given the type of ranges; [selection_range] is [range]. *)
Inductive symbol (R : Type) := Symbol (name : str) (kind : skind_) (range : R) (children : list (symbol R)).
Arguments Symbol {R} name kind range children.
(** The visitors with the locations not yet converted.  L84-100 [visit_named_field], [visit_unnamed_field],
    L69-82 [visit_fields]. *)
Definition nfield_sym (f : lnfield) : symbol loc := Symbol (ln_text (lnf_name f)) SkProperty (ln_loc (lnf_name f)) [].
Definition ufield_sym (e : nat * lufield) : symbol loc := Symbol (dec_str (N.of_nat (fst e))) SkProperty (luf_loc (snd e)) [].
Definition fields_sym (fs : lfields) : list (symbol loc) :=
  match fs with
  | LFNamed _ _ l => map (fun e => nfield_sym (fst e)) (p_values l)
  | LFUnnamed _ _ l => map ufield_sym (combine (seq 0 (p_len l)) (map fst (p_values l)))
  | LFUnit => []
  end.
(** L60-67 [visit_variant]. *)
Definition variant_sym (v : lvariant) : symbol loc := Symbol (ln_text (lv_name v)) SkEnumMember (ln_loc (lv_name v)) (fields_sym (lv_fields v)).
(** L122-150 [visit_import]: the segments and the element joined; from the first to the last of them.  Indexing an
    empty list of segments would panic; the parser yields none. *)
Definition import_sym (segs : list lname) (el : option (loc * lname)) : symbol loc :=
  match segs with
  | [] => Symbol [] SkFile (0, 0) []
  | s :: segs' =>
      let rest := segs' ++ match el with Some (_, n) => [n] | None => [] end in
      Symbol (ln_text s ++ concat (map (fun n => [58; 58] ++ ln_text n) rest)) SkFile
             (fst (ln_loc s), fold_left (fun _ n => snd (ln_loc n)) rest (snd (ln_loc s))) []
  end.
(** L20-58, L102-120. *)
Fixpoint def_sym {F} (d : ldef F) : symbol loc :=
  match d with
  | LModule _ _ n _ _ ds => Symbol (ln_text n) SkModule (ln_loc n) (map def_sym ds)
  | LStruct _ _ _ n _ fs => Symbol (ln_text n) SkStruct (ln_loc n) (fields_sym fs)
  | LEnum _ _ _ n _ _ _ vs => Symbol (ln_text n) SkEnum (ln_loc n) (map (fun e => variant_sym (fst e)) (p_values vs))
  | LAlias _ _ n _ _ _ _ => Symbol (ln_text n) SkVariable (ln_loc n) []
  | LConst _ _ n _ _ _ _ _ _ => Symbol (ln_text n) SkConstant (ln_loc n) []
  | LImport _ segs el _ => import_sym segs el
  end.
(** [collect::<Result<_>>]. *)
Section Collect.
Context {A B : Type} (f : A -> lres B).
Fixpoint collect (l : list A) : lres (list B) :=
  match l with
  | [] => LOk []
  | a :: l' => lbind (f a) (fun b => lbind (collect l') (fun bs => LOk (b :: bs)))
  end.
End Collect.
(** L152-172 [create_symbol]; the range of a symbol is converted before its children are visited. *)
Fixpoint place (ix : index) (s : symbol loc) : lres (symbol (Lsp.pos * Lsp.pos)) :=
  let 'Symbol n k l cs := s in
  lbind (get_range ix l) (fun r =>
  lbind (collect (place ix) cs) (fun cs' => LOk (Symbol n k r cs'))).
(** L12-17 [visit_schema]. *)
Definition document_symbols {F} (ix : index) (s : lschema F) : lres (list (symbol (Lsp.pos * Lsp.pos))) :=
  collect (place ix) (map def_sym (ls_defs s)).

(** * hover.rs *)

(** config.rs L12-15 [Hover]. *)
Record hover_cfg := HoverCfg { show_next_id : bool; show_wire_size : bool }.
(** The text: the comment (L195-201 [fold_comment] puts a newline behind each line) and the data shown behind it.
    Simplification: how a next id and a wire size are printed is not modelled. *)
Inductive hover_info :=
| HNone
| HNextId (id : option N)   (** [None]: computing the id panics *)
| HWireSize (s : option wsize).
Record hover_text := HoverText { ht_comment : comment; ht_info : hover_info }.

(** [Range::contains]. *)
Definition contains (l : loc) (p : N) : bool := (fst l <=? p) && (p <? snd l).
(** [Iterator::find_map]. *)
Section FindMap.
Context {A B : Type} (f : A -> option B).
Fixpoint find_map (l : list A) : option B :=
  match l with
  | [] => None
  | a :: l' => match f a with Some b => Some b | None => find_map l' end
  end.
End FindMap.
Section Hover.
Context {F : Type}.
Variable cfg : hover_cfg.
Variable chk : bool.

(** mabo-meta [next_field_id] of the simplified fields; [simplify_schema] succeeded, otherwise the request is not
    answered (mod.rs L254-261). *)
Definition fields_next (fs : lfields) : hover_info :=
  if show_next_id cfg then
    match simplify_fields chk (er_fields fs) with
    | Some s => match next_field_id chk s with Some i => HNextId i | None => HNone end
    | None => HNone
    end
  else HNone.
Definition variants_next (vs : lpunct lvariant) : hover_info :=
  if show_next_id cfg then
    match simplify_variants chk 1 (p_values (p_map (fun e => er_variant (fst e)) vs)) with
    | Some l => HNextId (next_variant_id chk l)
    | None => HNone
    end
  else HNone.
(** L154-184 [visit_fields], [visit_named_field]. *)
Definition fields_hover (fs : lfields) (p : N) : option (hover_text * loc) :=
  match fs with
  | LFNamed _ _ l =>
      find_map (fun e => let f := fst e in
        if contains (ln_loc (lnf_name f)) p
        then Some (HoverText (er_comment (lnf_comment f))
                             (if show_wire_size cfg then HWireSize (wire_size (simplify_type (er_ty (lnf_ty f)))) else HNone),
                   ln_loc (lnf_name f))
        else None) (p_values l)
  | _ => None
  end.
(** L127-152 [visit_variant]. *)
Definition variant_hover (v : lvariant) (p : N) : option (hover_text * loc) :=
  if contains (ln_loc (lv_name v)) p
  then Some (HoverText (er_comment (lv_comment v)) (fields_next (lv_fields v)), ln_loc (lv_name v))
  else fields_hover (lv_fields v) p.
(** L32-125, L186-193. *)
Fixpoint def_hover (d : ldef F) (p : N) : option (hover_text * loc) :=
  match d with
  | LModule c _ n _ _ ds =>
      if contains (ln_loc n) p then Some (HoverText (er_comment c) HNone, ln_loc n)
      else find_map (fun d => def_hover d p) ds
  | LStruct c _ _ n _ fs =>
      if contains (ln_loc n) p then Some (HoverText (er_comment c) (fields_next fs), ln_loc n) else fields_hover fs p
  | LEnum c _ _ n _ _ _ vs =>
      if contains (ln_loc n) p then Some (HoverText (er_comment c) (variants_next vs), ln_loc n)
      else find_map (fun e => variant_hover (fst e) p) (p_values vs)
  | LAlias c _ n _ _ _ _ => if contains (ln_loc n) p then Some (HoverText (er_comment c) HNone, ln_loc n) else None
  | LConst c _ n _ _ _ _ _ _ => if contains (ln_loc n) p then Some (HoverText (er_comment c) HNone, ln_loc n) else None
  | LImport _ _ _ _ => None
  end.
(** L14-29 [visit_schema]. *)
Definition hover (ix : index) (s : lschema F) (p : Lsp.pos) : lres (option (hover_text * (Lsp.pos * Lsp.pos))) :=
  lbind (get_offset chk ix p) (fun o =>
  match find_map (fun d => def_hover d o) (ls_defs s) with
  | Some (t, l) => lbind (get_range ix l) (fun r => LOk (Some (t, r)))
  | None => LOk None
  end).
End Hover.
