(** What the text of the generated functions stands for: the relation between the syntax trees Rust reads (RustRead.v) and the programs that
    RustEval.v runs and RustTyping.v checks (RustCode.v).

    The relation is the specification of C91.  It forgets what RustCode.v does not record: the types that rustc infers, how sequences of
    statements are nested, that a sum of one term is the term. *)
From Verif Require Import Base Varint Wire Codec Syntax Parser Compiler RustFile RustRead.
From Verif Require RustCode.
Import RustCode.
Require Coq.Strings.String.
Import Coq.Strings.String.StringSyntax.
Local Open Scope N_scope.

(** * Names *)
Definition width_word (w : width) : str := match w with W16 => tx "16" | W32 => tx "32" | W64 => tx "64" | W128 => tx "128" end.
Definition scalar_word (p : scalar) : str :=
  match p with
  | ScBool => tx "bool" | ScU8 => tx "u8" | ScI8 => tx "i8"
  | ScU w => tx "u" ++ width_word w | ScI w => tx "i" ++ width_word w
  | ScF32 => tx "f32" | ScF64 => tx "f64"
  end.
Definition bytes_word (b : bytes_type) : str := match b with BVecU8 => tx "bytes_std" | BBytes => tx "bytes_bytes" end.
(** The functions of crates/mabo/src/buf/{size,encode,decode}.rs. *)
Definition fun_name (f : rfun) : str :=
  match f with
  | RSize p => tx "size_" ++ scalar_word p | RSizeString => tx "size_string" | RSizeBytes b => tx "size_" ++ bytes_word b
  | RSizeVec => tx "size_vec" | RSizeMap => tx "size_hash_map" | RSizeSet => tx "size_hash_set" | RSizeOption => tx "size_option" | RSizeArray => tx "size_array"
  | RSizeField => tx "size_field" | RSizeFieldOption => tx "size_field_option" | RSizeVariantId => tx "size_variant_id"
  | REncode p => tx "encode_" ++ scalar_word p | REncodeString => tx "encode_string" | REncodeBytes b => tx "encode_" ++ bytes_word b
  | REncodeVec => tx "encode_vec" | REncodeMap => tx "encode_hash_map" | REncodeSet => tx "encode_hash_set" | REncodeOption => tx "encode_option"
  | REncodeArray => tx "encode_array" | REncodeTuple => tx "encode_tuple"
  | REncodeField => tx "encode_field" | REncodeFieldOption => tx "encode_field_option" | REncodeVariantId => tx "encode_variant_id"
  | RDecode p => tx "decode_" ++ scalar_word p | RDecodeString => tx "decode_string" | RDecodeBytes b => tx "decode_" ++ bytes_word b
  | RDecodeVec => tx "decode_vec" | RDecodeMap => tx "decode_hash_map" | RDecodeSet => tx "decode_hash_set" | RDecodeOption => tx "decode_option"
  | RDecodeArray _ => tx "decode_array"
  | RDecodeNz p => tx "decode_non_zero_" ++ scalar_word p | RDecodeNzString => tx "decode_non_zero_string" | RDecodeNzBytes b => tx "decode_non_zero_" ++ bytes_word b
  | RDecodeNzVec => tx "decode_non_zero_vec" | RDecodeNzMap => tx "decode_non_zero_hash_map" | RDecodeNzSet => tx "decode_non_zero_hash_set"
  | RDecodeId => tx "decode_id" | RDecodeVariantId => tx "decode_variant_id" | RDecodeSkip => tx "decode_skip"
  end.
Definition class_name (c : fenc) : str :=
  match c with
  | EVarint => tx "Varint" | ELengthPrefixed => tx "LengthPrefixed"
  | EFixed1 => tx "Fixed1" | EFixed4 => tx "Fixed4" | EFixed8 => tx "Fixed8"
  end.
Definition name_ (s : String.string) : rx := XPath [W (tx s)].
Arguments name_ s%string_scope.
Definition path_ (s : String.string) : rx := XPath (q s).
Arguments path_ s%string_scope.
(** [::mabo::buf::f(args)]. *)
Definition call_ (f : str) (args : list rx) : rx := XCall (XPath (q "::mabo::buf::" ++ [W f])) args.

Section Means.
(** The type a type of the schema lowers to (Lower.v), and its text (definition.rs [compile_data_type]). *)
Variable low : sty -> option ty.
Variable text : sty -> list rt.

(** * Expressions, blocks, statements *)
Inductive means : rx -> expr -> Prop :=
| m_var x : means (XPath [W x]) (EVar x)
| m_ref x e : means x e -> means (XRef x) (ERef e)
| m_deref x e : means x e -> means (XDeref x) (EDeref e)
| m_proj i x e : means x e -> means (XField x (dec_str (N.of_nat i))) (EProj i e)
| m_get x e : means x e -> means (XMethod x (tx "get") []) (EGet e)
| m_as_ref x e : means x e -> means (XMethod x (tx "as_ref") []) (EAsRef e)
| m_size t x e : means x e -> means (XMethod x (tx "size") []) (ESizeM t e)
| m_encode t x e y w : means x e -> means y w -> means (XMethod x (tx "encode") [y]) (EEncodeM t e w)
| m_decode_box y r : means y r -> means (XCall (path_ "Box::<str>::decode") [y]) (EDecodeM TBoxString r)
| m_decode_box_bytes y r : means y r -> means (XCall (path_ "Box::<[u8]>::decode") [y]) (EDecodeM TBoxBytes r)
| m_decode path n gs t y r : low (SExternal path n gs) = Some t -> means y r ->
    means (XCall (XPath (flat_map (fun s => [W s; sep2]) path
                         ++ W n :: (if gs then [] else sep2 :: lt :: terminated comma (map text gs) ++ [gt]) ++ q "::decode")) [y]) (EDecodeM t r)
| m_call f xs es : Forall2 means xs es -> means (call_ (fun_name f) xs) (ECall f es)
| m_clos ps body e : block body e -> means (XClosure ps body) (EClos ps e)
| m_field_id i c : means (XCall (path_ "::mabo::FieldId::new") [XLit (dec_str i); XPath (q "::mabo::FieldEncoding::" ++ [W (class_name c)])]) (EFieldId i c)
| m_variant_id i : means (XCall (path_ "::mabo::VariantId::new") [XLit (dec_str i)]) (EVariantId i)
| m_int n : means (XLit (dec_str n)) (EInt n)
| m_end : means (path_ "::mabo::buf::END_MARKER") EEndMarker
| m_end_size : means (path_ "::mabo::buf::END_MARKER_SIZE") EEndSize
| m_encoding_of x e : means x e -> means (XField x (tx "encoding")) (EEncodingOf e)
| m_term x e : means x e -> means x (ESum [e])
| m_sum xs es : Forall2 means xs es -> means (XSum xs) (ESum es)
| m_tuple xs es : Forall2 means xs es ->
    means (XBlock [XTail (XCall (path_ "Ok::<_, ::mabo::buf::Error>") [XTuple (map XTry xs)])]) (ETupleOk None es)
| m_tuple_len y e xs es : means y e -> Forall2 means xs es ->
    means (XBlock [XSemi (XTry y); XTail (XCall (path_ "Ok::<_, ::mabo::buf::Error>") [XTuple (map XTry xs)])]) (ETupleOk (Some e) es)
(** The last expression of a block is its value; a block of statements is a sequence. *)
with block : list xs -> expr -> Prop :=
| b_tail x e : means x e -> block [XTail x] e
| b_seq l es : stmts l es -> block l (ESeq es)
with stmts : list xs -> list expr -> Prop :=
| s_nil : stmts [] []
| s_empty l es : stmts l es -> stmts (XEmpty :: l) es
| s_expr x e l es : means x e -> stmts l es -> stmts (XSemi x :: l) (e :: es)
| s_seq l es l' es' : stmts l es -> stmts l' es' -> stmts (l ++ l') (ESeq es :: es').

(** * Functions *)
(** [Self { a, b }], [Self(a, b)], [Self]: the pattern that gives names to the fields. *)
Definition binds (p : pat) (path : list rt) (k : fkind) (names : list ident) : Prop :=
  match k with
  | KNamed => p = PFields path Brc names
  | KUnnamed => p = PFields path Par names
  | KUnit => p = PName path /\ names = []
  end.
(** [size] and [encode] of a struct, and of an enum with the variants [names]. *)
Definition struct_fn (body : list xs) (k : fkind) (a : arm) : Prop :=
  exists p l, body = XLet false p None (name_ "self") :: l /\ binds p (q "Self") k (a_names a) /\ block l (a_body a).
Definition enum_fn (body : list xs) (names : list (str * fkind)) (arms : list arm) : Prop :=
  exists l, body = [XTail (XMatch (name_ "self") l)] /\
    Forall2 (fun '(p, x) '((n, k), a) => exists b, x = XBlock b /\ binds p (q "Self::" ++ [W n]) k (a_names a) /\ block b (a_body a))
      l (combine names arms) /\ length names = length arms.

(** [x.ok_or(Error::MissingField { id: 1, name: Some("x"), })?], or [x]. *)
Definition field_value (x : ident) (missing : option (N * option ident)) (e : rx) : Prop :=
  match missing with
  | None => e = XPath [W x]
  | Some (i, n) => e = XTry (XMethod (XPath [W x]) (tx "ok_or")
      [XStruct (q "::mabo::buf::Error::MissingField")
        [(tx "id", Some (XLit (dec_str i)));
         (tx "name", Some (match n with Some s => XCall (name_ "Some") [XLit (34 :: s ++ [34])] | None => name_ "None" end))]])
  end.
(** [Self { a: .., b }], [Self(.., b)]. *)
Definition built (e : rx) (self : list rt) (k : fkind) (l : list (ident * option (N * option ident))) : Prop :=
  match k with
  | KNamed => exists fs, e = XStruct self fs /\
      Forall2 (fun '(n, v) '(x, m) => n = x /\ field_value x m (match v with Some v => v | None => XPath [W x] end)) fs l
  | KUnnamed => exists vs, e = XCall (XPath self) vs /\ Forall2 (fun v '(x, m) => field_value x m v) vs l
  | KUnit => False
  end.
(** The loop over the fields (RustCode.v [floop]). *)
Definition fields_fn (body : list xs) (self : list rt) (k : fkind) (b : dbody) : Prop :=
  match b with
  | DUnit => body = [XTail (XCall (name_ "Ok") [XPath self])]
  | DLoop p =>
      exists vars next arms skip result,
      body = vars ++ [XTail (XLoop [XLet false (PName [W (d_id p)]) None (XTry next);
                                    XTail (XMatch (XField (XPath [W (d_id p)]) (tx "value"))
                                      ((PName (q "::mabo::buf::END_MARKER"), XBreak) :: arms ++ [(PWild, XTry skip)]))]);
                      XTail (XCall (name_ "Ok") [result])]
      /\ Forall2 (fun s '(x, t) => exists t', s = XLet true (PName [W x]) (Some (text t')) (name_ "None") /\ low t' = Some t) vars (d_vars p)
      /\ means next (d_next p) /\ means skip (d_skip p)
      /\ Forall2 (fun '(p, x) '(i, n, e) => exists d, p = PLit (dec_str i) /\ x = XAssign (XPath [W n]) (XCall (name_ "Some") [XTry d]) /\ means d e) arms (d_arms p)
      /\ built result self k (d_build p)
  end.
(** [decode]. *)
Definition decode_fn (body : list xs) (names : list (str * fkind)) (k : fkind) (f : dfun) : Prop :=
  match f with
  | DfStruct b => fields_fn body (q "Self") k b
  | DfEnum scrut vs =>
      exists x arms, body = [XTail (XMatch (XField (XTry x) (tx "value"))
           (arms ++ [(PName (q "id"), XCall (name_ "Err") [XCall (path_ "::mabo::buf::Error::UnknownVariant") [name_ "id"]])]))]
      /\ means x scrut /\ length names = length vs
      /\ Forall2 (fun '(p, x) '((n, k), (i, b)) => p = PLit (dec_str i) /\
           exists l, (match k with KUnit => l = [XTail x] | _ => x = XBlock l end) /\ fields_fn l (q "Self::" ++ [W n]) k b)
           arms (combine names vs)
  end.
End Means.
