(** Specification of the outline of a document (document symbols) and of hovering. *)
From Verif Require Import Base Syntax Parser Printer Compiler Meta Lsp LspSpec SpanParser LspVisit NameSpec.
Local Open Scope N_scope.

(** What the range of an entry of the outline covers: the name of the entry, an unnamed field, a path. *)
Inductive covers := CName | CField (f : ufield) | CPath.
Definition nfield_outline (f : nfield) : symbol covers := Symbol (nf_name f) SkProperty CName [].
Definition fields_outline (fs : pfields) : list (symbol covers) :=
  match fs with
  | FNamed l => map nfield_outline (p_values l)
  | FUnnamed l => map (fun '(k, f) => Symbol (dec_str (N.of_nat k)) SkProperty (CField f) []) (combine (seq 0 (length (p_values l))) (p_values l))
  | FUnit => []
  end.
Definition variant_outline (v : pvariant) : symbol covers := Symbol (pv_name v) SkEnumMember CName (fields_outline (pv_fields v)).
(** Segments and element of an import, joined by [::]. *)
Definition joined (segs : list str) (el : option str) : str :=
  match segs ++ match el with Some n => [n] | None => [] end with
  | s :: l => s ++ concat (map (fun n => [58; 58] ++ n) l)
  | [] => []
  end.
Fixpoint def_outline {F} (d : pdef F) : symbol covers :=
  match d with
  | PModule _ n ds => Symbol n SkModule CName (map def_outline ds)
  | PStruct _ _ n _ fs => Symbol n SkStruct CName (fields_outline fs)
  | PEnum _ _ n _ vs => Symbol n SkEnum CName (map variant_outline (p_values vs))
  | PAlias _ n _ _ => Symbol n SkVariable CName []
  | PConst _ n _ _ => Symbol n SkConstant CName []
  | PImport segs el => Symbol (joined segs el) SkFile CPath []
  end.

Section Src.
Variables (enc : option wenc) (src : str).
(** [r] is the range of [t] where it stands in the text between [pre] and [suf]. *)
Definition stands (pre t suf : str) (r : Lsp.pos * Lsp.pos) : Prop := src = pre ++ t ++ suf /\ r = (end_of enc pre, end_of enc (pre ++ t)).
Definition covered (q : covers) (name : str) (r : Lsp.pos * Lsp.pos) : Prop :=
  match q with
  | CName | CPath => exists pre suf, stands pre name suf r
  | CField f => exists pre t suf, stands pre t suf r /\ parse_unnamed_field (t ++ suf) = POk f suf
  end.
(** The same names and kinds at the same places of the tree, with the ranges wanted. *)
Inductive shows : symbol covers -> symbol (Lsp.pos * Lsp.pos) -> Prop :=
| Shows n k q r cs cs' : covered q n r -> Forall2 shows cs cs' -> shows (Symbol n k q cs) (Symbol n k r cs').
End Src.

(** The entries of an outline from top to bottom. *)
Section Listed.
Context {R : Type}.
Fixpoint listed (s : symbol R) : list (str * R) := let 'Symbol n _ r cs := s in (n, r) :: flat_map listed cs.
End Listed.
Definition is_name (q : covers) : bool := match q with CName => true | _ => false end.
(** The ranges of the entries that cover a name. *)
Definition name_ranges {R} (o : list (symbol covers)) (s : list (symbol R)) : list R :=
  map (fun e => snd (snd e)) (filter (fun e => is_name (snd (fst e))) (combine (flat_map listed o) (flat_map listed s))).
(** Tokens that declare a module, a type, a constant, a field or a variant. *)
Definition declaring_kinds : list tkind := [TkNamespace; TkStruct; TkEnum; TkTypeAlias; TkVariable; TkProperty; TkEnumMember].
Definition declaring (t : token) : bool := N.testbit (tk_mods t) 0 && existsb (fun k => tk_type t =? token_type_pos k) declaring_kinds.

(** * Hovering *)
Section Hover.
Variables (cfg : hover_cfg) (chk : bool).
(** What is shown for the fields and the variants of a definition, and for a field. *)
Definition fields_info (fs : pfields) : hover_info :=
  if show_next_id cfg then
    match simplify_fields chk fs with
    | Some s => match next_field_id chk s with Some i => HNextId i | None => HNone end
    | None => HNone
    end
  else HNone.
Definition variants_info (vs : list pvariant) : hover_info :=
  if show_next_id cfg then match simplify_variants chk 1 vs with Some l => HNextId (next_variant_id chk l) | None => HNone end else HNone.
Definition type_info (t : pty) : hover_info := if show_wire_size cfg then HWireSize (wire_size (simplify_type t)) else HNone.
(** The names one can hover over and what is shown for them. *)
Definition fields_docs (fs : pfields) : list (str * hover_text) :=
  match fs with FNamed l => map (fun f => (nf_name f, HoverText (nf_comment f) (type_info (nf_ty f)))) (p_values l) | _ => [] end.
Definition variant_docs (v : pvariant) : list (str * hover_text) := (pv_name v, HoverText (pv_comment v) (fields_info (pv_fields v))) :: fields_docs (pv_fields v).
Fixpoint def_docs {F} (d : pdef F) : list (str * hover_text) :=
  match d with
  | PModule c n ds => (n, HoverText c HNone) :: flat_map def_docs ds
  | PStruct c _ n _ fs => (n, HoverText c (fields_info fs)) :: fields_docs fs
  | PEnum c _ n _ vs => (n, HoverText c (variants_info (p_values vs))) :: flat_map variant_docs (p_values vs)
  | PAlias c n _ _ => [(n, HoverText c HNone)]
  | PConst c n _ _ => [(n, HoverText c HNone)]
  | PImport _ _ => []
  end.
Definition schema_docs {F} (s : pschema F) : list (str * hover_text) := flat_map def_docs (ps_defs s).
End Hover.
