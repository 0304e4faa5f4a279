(** Specification of locations: where a name of the source stands, and which names a definition declares and mentions. *)
From Verif Require Import Base Syntax Parser Printer Lsp LspSpec SpanParser LspVisit TokenSpec.
Local Open Scope N_scope.

(** The bytes from [fst l] to [snd l] of [src] are [t]. *)
Definition at_loc (src : str) (l : loc) (t : str) : Prop :=
  exists pre suf, src = pre ++ t ++ suf /\ l = (bytes_len pre, bytes_len (pre ++ t)).
(** One after the other, not overlapping. *)
Definition in_turn (l : list loc) : Prop := ForallOrdPairs (fun a b => snd a <= fst b) l.

(** The names in a tree, in the order of the text, with the way they are highlighted. *)
Record lword := LWord { lw_name : lname; lw_kind : tkind; lw_mods : list tmod }.
Definition mention (k : tkind) (n : lname) : lword := LWord n k [].
Definition declares (k : tkind) (n : lname) : lword := LWord n k [TmDeclaration].
Section Punct.
Context {A : Type} (f : A -> list lword).
Definition punct_names (p : lpunct A) : list lword := let 'Punct l x _ := p in flat_map (fun e => f (fst e)) l ++ f (fst x).
End Punct.
Fixpoint type_names (t : lty) : list lword :=
  match t with
  | LTPrim _ _ => []
  | LTOne _ _ _ _ _ t => type_names t
  | LTMap _ _ _ _ k _ v => type_names k ++ type_names v
  | LTTuple _ _ _ (Punct l x _) => flat_map (fun e => type_names (fst e)) l ++ type_names (fst x)
  | LTArray _ _ _ t _ _ => type_names t
  | LTExt _ path n gs =>
      map (fun e => mention TkNamespace (fst e)) path ++ mention TkType n ::
      match gs with Some (_, Punct l x _) => flat_map (fun e => type_names (fst e)) l ++ type_names (fst x) | None => [] end
  end.
Definition generics_names (g : option lgenerics) : list lword :=
  match g with Some p => punct_names (fun n => [declares TkTypeParameter n]) p | None => [] end.
Definition nfield_names (f : lnfield) : list lword := declares TkProperty (lnf_name f) :: type_names (lnf_ty f).
Definition ufield_names (f : lufield) : list lword := type_names (luf_ty f).
Definition fields_names (fs : lfields) : list lword :=
  match fs with
  | LFNamed _ _ l => punct_names nfield_names l
  | LFUnnamed _ _ l => punct_names ufield_names l
  | LFUnit => []
  end.
Definition variant_names (v : lvariant) : list lword := declares TkEnumMember (lv_name v) :: fields_names (lv_fields v).
Fixpoint def_names {F} (d : ldef F) : list lword :=
  match d with
  | LModule _ _ n _ _ ds => declares TkNamespace n :: flat_map def_names ds
  | LStruct _ _ _ n g fs => declares TkStruct n :: generics_names g ++ fields_names fs
  | LEnum _ _ _ n g _ _ vs => declares TkEnum n :: generics_names g ++ punct_names variant_names vs
  | LAlias _ _ n g _ t _ => declares TkTypeAlias n :: generics_names g ++ type_names t
  | LConst _ _ n _ t _ _ _ _ => LWord n TkVariable [TmDeclaration; TmStatic; TmConstant] :: type_names t
  | LImport _ segs el _ => map (mention TkNamespace) segs ++ match el with Some (_, n) => [mention TkType n] | None => [] end
  end.
Definition schema_names {F} (s : lschema F) : list lword := flat_map def_names (ls_defs s).

(** * Nodes of the tree that have a location *)
Inductive node :=
| NType (t : lty)
| NId (i : lid)
| NLine (l : lname)
| NNamed (f : lnfield)
| NUnnamed (f : lufield)
| NVariant (v : lvariant)
| NImport (segs : list lname) (el : option (loc * lname)).
Definition lty_loc (t : lty) : loc :=
  match t with LTPrim s _ | LTOne s _ _ _ _ _ | LTMap s _ _ _ _ _ _ | LTTuple s _ _ _ | LTArray s _ _ _ _ _ | LTExt s _ _ _ => s end.
(** The text at [l] is what the parser [p] reads [a] from. *)
Definition reads {A} (src : str) (l : loc) (p : parser A) (a : A) : Prop :=
  exists pre t suf, src = pre ++ t ++ suf /\ l = (bytes_len pre, bytes_len (pre ++ t)) /\ p (t ++ suf) = POk a suf.
(** A path and its location: from the first name to the last. *)
Definition path_text (segs : list lname) (el : option (loc * lname)) : str :=
  match segs with
  | s :: segs' => ln_text s ++ concat (map (fun n => [58; 58] ++ ln_text n) segs') ++ match el with Some (_, n) => [58; 58] ++ ln_text n | None => [] end
  | [] => []
  end.
Definition path_loc (segs : list lname) (el : option (loc * lname)) : loc :=
  match segs with
  | s :: _ => (fst (ln_loc s), match el with Some (_, n) => snd (ln_loc n) | None => snd (ln_loc (last segs s)) end)
  | [] => (0, 0)
  end.
(** The location of a node is the place of the node in the text.  The one of a field or variant leaves its comment out. *)
Definition node_ok (src : str) (n : node) : Prop :=
  match n with
  | NType t => exists fuel, reads src (lty_loc t) (parse_type fuel) (er_ty t)
  | NId (n, l) => at_loc src l (64 :: dec_str n)
  | NLine l => exists t, comment_text (ln_text l) t /\ at_loc src (ln_loc l) t
  | NNamed f => reads src (lnf_loc f) parse_named_field (NField [] (ln_text (lnf_name f)) (er_ty (lnf_ty f)) (er_id (lnf_id f)))
  | NUnnamed f => reads src (luf_loc f) parse_unnamed_field (er_ufield f)
  | NVariant v => reads src (lv_loc v) parse_variant (PVariant [] (ln_text (lv_name v)) (er_fields (lv_fields v)) (er_id (lv_id v)))
  | NImport segs el => segs <> [] /\ at_loc src (path_loc segs el) (path_text segs el)
  end.
Fixpoint type_nodes (t : lty) : list node :=
  NType t ::
  match t with
  | LTPrim _ _ => []
  | LTOne _ _ _ _ _ t => type_nodes t
  | LTMap _ _ _ _ k _ v => type_nodes k ++ type_nodes v
  | LTTuple _ _ _ (Punct l x _) => flat_map (fun e => type_nodes (fst e)) l ++ type_nodes (fst x)
  | LTArray _ _ _ t _ _ => type_nodes t
  | LTExt _ _ _ (Some (_, Punct l x _)) => flat_map (fun e => type_nodes (fst e)) l ++ type_nodes (fst x)
  | LTExt _ _ _ None => []
  end.
Definition id_nodes (i : option lid) : list node := match i with Some i => [NId i] | None => [] end.
Definition nfield_nodes (f : lnfield) : list node := map NLine (lnf_comment f) ++ NNamed f :: type_nodes (lnf_ty f) ++ id_nodes (lnf_id f).
Definition ufield_nodes (f : lufield) : list node := NUnnamed f :: type_nodes (luf_ty f) ++ id_nodes (luf_id f).
Definition fields_nodes (fs : lfields) : list node :=
  match fs with
  | LFNamed _ _ l => flat_map (fun e => nfield_nodes (fst e)) (p_values l)
  | LFUnnamed _ _ l => flat_map (fun e => ufield_nodes (fst e)) (p_values l)
  | LFUnit => []
  end.
Definition variant_nodes (v : lvariant) : list node := map NLine (lv_comment v) ++ NVariant v :: fields_nodes (lv_fields v) ++ id_nodes (lv_id v).
Fixpoint def_nodes {F} (d : ldef F) : list node :=
  match d with
  | LModule c _ _ _ _ ds => map NLine c ++ flat_map def_nodes ds
  | LStruct c _ _ _ _ fs => map NLine c ++ fields_nodes fs
  | LEnum c _ _ _ _ _ _ vs => map NLine c ++ flat_map (fun e => variant_nodes (fst e)) (p_values vs)
  | LAlias c _ _ _ _ t _ => map NLine c ++ type_nodes t
  | LConst c _ _ _ t _ _ _ _ => map NLine c ++ type_nodes t
  | LImport _ segs el _ => [NImport segs el]
  end.
Definition schema_nodes {F} (s : lschema F) : list node := map NLine (ls_comment s) ++ flat_map def_nodes (ls_defs s).
