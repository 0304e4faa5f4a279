(** The Go source files mabo-go writes: crates/mabo-go/src/definition.rs, encode.rs, decode.rs and
    size.rs.  The generator is modelled in two steps, a syntax tree of the emitted Go and its text;
    the code writes the text directly.  GoConform.v compares the text with every recorded snapshot
    of crates/mabo-go/tests.  [None] is a [todo!] or [panic!] of the generator.

    Simplifications: the version in the header is the one of the pinned commit; writing into a
    [String] cannot fail. *)
From Verif Require Import Base Syntax Parser Printer Compiler GoNames.
Require Coq.Strings.String.
Import Coq.Strings.String.StringSyntax.
Local Open Scope N_scope.

(** * Go syntax *)

(** Go types: a name, a name of another package, slices, maps, pointers, arrays, [struct{}]. *)
Inductive gty :=
| GNamed (n : str) (args : list gty)
| GFrom (pkg n : str) (args : list gty)
| GSlice (t : gty)
| GMap (k v : gty)
| GPtr (t : gty)
| GArr (n : N) (t : gty)
| GEmpty.

(** Go expressions (X...) and statements (Y...).  [spaced] in a function literal, and the kinds of
    calls, only concern the layout. *)
Inductive gx :=
| XId (x : str)
| XNum (n : N)
| XFrom (pkg x : str) (targs : list gty)
| XSel (e : gx) (m : str)
| XAddr (e : gx)
| XNot (e : gx)
| XNe (a b : gx)
| XGt0 (e : gx)
| XCall (f : gx) (args : list gx)
| XCallNl (f : gx) (args : list gx)
| XCallLines (f : gx) (first rest : list gx)
| XFun (spaced : bool) (params : list (str * gty)) (results : list gty) (body : list gx)
| XLit (t : gty) (fields : list (str * gx))
| XMissing (id : N) (field : str)
| YSet (l r : gx)
| YAdd (l r : gx)
| YDef (xs : list str) (e : gx)
| YVar (x : str) (t : gty)
| YRet (es : list gx)
| YIf (c : gx) (body : list gx)
| YFor (c : gx) (body : list gx)
| YSwitch (e : gx) (cases : list (gx * list gx))
| YBreak
| YBlank.

(** Declarations of a file. *)
Inductive gitem (F : Type) :=
| IStruct (c : comment) (name : str) (tparams : list str) (fields : list (comment * (str * gty)))
| IDefined (c : comment) (name : str) (t : gty)
| IInterface (name : str) (methods : list str)
| ICheck (iface : str) (t : gty)                  (* var _ buf.Iface = ( *t)(nil) *)
| IMethod (ptr : bool) (rtype : str) (rparams : list str) (name : str)
          (params : list (str * gty)) (results : list gty) (body : list gx)
| IFunc (name : str) (tparams : list str) (params : list (str * gty)) (result : gty) (body : list gx)
| IConst (c : comment) (is_const : bool) (name : str) (t : gty) (v : lit F).
Arguments IStruct {F}. Arguments IDefined {F}. Arguments IInterface {F}. Arguments ICheck {F}.
Arguments IMethod {F}. Arguments IFunc {F}. Arguments IConst {F}.

Record gfile (F : Type) := GFile {
  g_comment : comment;
  g_package : str;
  g_imports : list (str * str);                   (* name, path *)
  g_items : list (gitem F) }.
Arguments GFile {F}. Arguments g_comment {F}. Arguments g_package {F}.
Arguments g_imports {F}. Arguments g_items {F}.

(** * The generator *)

Fixpoint collect {A} (l : list (option A)) : option (list A) :=
  match l with
  | [] => Some []
  | Some x :: l' => option_map (cons x) (collect l')
  | None :: _ => None
  end.
Definition gname (n : String.string) : gty := GNamed (tx n) [].
Arguments gname n%string_scope.
Definition gbytes : gty := GSlice (gname "byte").
(** definition.rs L393-409: the types without parameters. *)
Definition go_prim (p : prim) : gty :=
  match p with
  | PrBool => gname "bool" | PrU8 => gname "uint8" | PrU16 => gname "uint16" | PrU32 => gname "uint32"
  | PrU64 => gname "uint64" | PrI8 => gname "int8" | PrI16 => gname "int16" | PrI32 => gname "int32"
  | PrI64 => gname "int64" | PrF32 => gname "float32" | PrF64 => gname "float64"
  | PrU128 | PrI128 => GPtr (GFrom (tx "big") (tx "Int") [])
  | PrString | PrStringRef | PrBoxString => gname "string"
  | PrBytes | PrBytesRef | PrBoxBytes => gbytes
  end.
(** definition.rs L415-430: the suffix of a type under [non_zero]. *)
Definition nz_name (p : prim) : option str :=
  match p with
  | PrU8 => Some (tx "U8") | PrU16 => Some (tx "U16") | PrU32 => Some (tx "U32") | PrU64 => Some (tx "U64")
  | PrU128 => Some (tx "U128") | PrI8 => Some (tx "I8") | PrI16 => Some (tx "I16") | PrI32 => Some (tx "I32")
  | PrI64 => Some (tx "I64") | PrI128 => Some (tx "I128") | PrF32 => Some (tx "F32") | PrF64 => Some (tx "F64")
  | PrString | PrStringRef => Some (tx "String") | PrBytes | PrBytesRef => Some (tx "Bytes")
  | PrBool | PrBoxString | PrBoxBytes => None
  end.
Definition mabo_nz (n : str) (args : list gty) : gty := GFrom (tx "mabo") (tx "NonZero" ++ n) args.
(** definition.rs L393-466 [RenderType]. *)
Fixpoint go_type (t : sty) : option gty :=
  match t with
  | SPrim p => Some (go_prim p)
  | SVec t => option_map GSlice (go_type t)
  | SHashMap k v => match go_type k, go_type v with Some k, Some v => Some (GMap k v) | _, _ => None end
  | SHashSet t => option_map (fun t => GMap t GEmpty) (go_type t)
  | SOption t => option_map GPtr (go_type t)
  | SNonZero t =>
      match t with
      | SPrim p => option_map (fun n => mabo_nz n []) (nz_name p)
      | SVec t => option_map (fun t => mabo_nz (tx "Vec") [t]) (go_type t)
      | SHashMap k v =>
          match go_type k, go_type v with Some k, Some v => Some (mabo_nz (tx "HashMap") [k; v]) | _, _ => None end
      | SHashSet t => option_map (fun t => mabo_nz (tx "HashSet") [t]) (go_type t)
      | _ => None
      end
  | STuple ts =>
      option_map (GFrom (tx "mabo") (tx "Tuple" ++ dec_str (N.of_nat (length ts)))) (collect (map go_type ts))
  | SArray t n => option_map (GArr n) (go_type t)
  | SExternal path name gs =>
      option_map (match rev path with [] => GNamed (camel name) | p :: _ => GFrom p (camel name) end)
        (collect (map go_type gs))
  end.

Definition xid (n : String.string) : gx := XId (tx n).
Arguments xid n%string_scope.
Definition xbuf (n : str) (targs : list gty) : gx := XFrom (tx "buf") n targs.

(** The suffix of the functions of the package [buf] for a type without parameters: encode.rs
    L122-143, decode.rs L180-201, size.rs L121-142. *)
Definition buf_name (p : prim) : str :=
  match p with
  | PrBool => tx "Bool" | PrU8 => tx "U8" | PrU16 => tx "U16" | PrU32 => tx "U32" | PrU64 => tx "U64"
  | PrU128 => tx "U128" | PrI8 => tx "I8" | PrI16 => tx "I16" | PrI32 => tx "I32" | PrI64 => tx "I64"
  | PrI128 => tx "I128" | PrF32 => tx "F32" | PrF64 => tx "F64"
  | PrString | PrStringRef | PrBoxString => tx "String"
  | PrBytes | PrBytesRef | PrBoxBytes => tx "Bytes"
  end.
(** The types of [non_zero] that are written like the integer itself (encode.rs L251-260, size.rs
    L244-253), and those that are written as strings or bytes (L261-275, L254-268). *)
Definition nz_encodable (p : prim) : bool :=
  match p with
  | PrU8 | PrU16 | PrU32 | PrU64 | PrU128 | PrI8 | PrI16 | PrI32 | PrI64 | PrI128
  | PrString | PrStringRef | PrBytes | PrBytesRef => true
  | _ => false
  end.
Definition xget (e : gx) : gx := XCall (XSel e (tx "Get")) [].
(** encode.rs L119-317 [RenderType]; the value to write is the expression [name]. *)
Definition efun (x : String.string) (t : gty) (e : gx) : gx :=
  XFun false [(tx "w", gbytes); (tx x, t)] [gbytes] [YRet [e]].
Arguments efun x%string_scope t e.
Fixpoint enc_x (t : sty) (name : gx) {struct t} : option gx :=
  let one (fn : str) (t : sty) : option gx :=
    match go_type t, enc_x t (xid "v") with
    | Some g, Some e => Some (XCall (xbuf fn [g]) [xid "w"; name; efun "v" g e])
    | _, _ => None
    end in
  match t with
  | SPrim p => Some (XCall (xbuf (tx "Encode" ++ buf_name p) []) [xid "w"; name])
  | SVec t => one (tx "EncodeVec") t
  | SHashMap k v =>
      match go_type k, go_type v, enc_x k (xid "k"), enc_x v (xid "v") with
      | Some gk, Some gv, Some ek, Some ev =>
          Some (XCallLines (xbuf (tx "EncodeHashMap") [gk; gv]) [xid "w"; name] [efun "k" gk ek; efun "v" gv ev])
      | _, _, _, _ => None
      end
  | SHashSet t => one (tx "EncodeHashSet") t
  | SOption t => one (tx "EncodeOption") t
  | SNonZero t =>
      match t with
      | SPrim p => if nz_encodable p then enc_x t (xget name) else None
      | SVec _ | SHashMap _ _ | SHashSet _ => enc_x t (xget name)
      | _ => None
      end
  | STuple ts =>
      if (2 <=? length ts)%nat && (length ts <=? 12)%nat then
        option_map (fun l => XCall (XFun true [(tx "w", gbytes)] [gbytes] (l ++ [YRet [xid "w"]])) [xid "w"])
          (collect ((fix go (i : N) (l : list sty) {struct l} : list (option gx) :=
             match l with
             | [] => []
             | t :: l' => option_map (YSet (xid "w")) (enc_x t (XSel name (tx "F" ++ dec_str i))) :: go (i + 1) l'
             end) 0 ts))
      else None
  | SArray t n => if (1 <=? n) && (n <=? 32) then one (tx "EncodeArray" ++ dec_str n) t else None
  | SExternal _ _ _ => Some (XCall (XSel name (tx "Encode")) [xid "w"])
  end.

(** size.rs L110-320 [RenderType]. *)
Definition sfun (x : String.string) (t : gty) (e : gx) : gx := XFun false [(tx x, t)] [gname "int"] [YRet [e]].
Arguments sfun x%string_scope t e.
Fixpoint size_x (t : sty) (name : gx) {struct t} : option gx :=
  let one (fn : str) (t : sty) : option gx :=
    match go_type t, size_x t (xid "v") with
    | Some g, Some e => Some (XCall (xbuf fn [g]) [name; sfun "v" g e])
    | _, _ => None
    end in
  match t with
  | SPrim p => Some (XCall (xbuf (tx "Size" ++ buf_name p) []) [name])
  | SVec t => one (tx "SizeVec") t
  | SHashMap k v =>
      match go_type k, go_type v, size_x k (xid "k"), size_x v (xid "v") with
      | Some gk, Some gv, Some ek, Some ev =>
          Some (XCallLines (xbuf (tx "SizeHashMap") [gk; gv]) [name] [sfun "k" gk ek; sfun "v" gv ev])
      | _, _, _, _ => None
      end
  | SHashSet t => one (tx "SizeHashSet") t
  | SOption t => one (tx "SizeOption") t
  | SNonZero t =>
      match t with
      | SPrim p => if nz_encodable p then size_x t (xget name) else None
      | SVec _ | SHashMap _ _ | SHashSet _ => size_x t (xget name)
      | _ => None
      end
  | STuple ts =>
      if (2 <=? length ts)%nat && (length ts <=? 12)%nat then
        option_map (fun l => XCall (XFun false [] [gname "int"] (YDef [tx "size"] (XNum 0) :: l ++ [YRet [xid "size"]])) [xid "size"])
          (collect ((fix go (i : N) (l : list sty) {struct l} : list (option gx) :=
             match l with
             | [] => []
             | t :: l' => option_map (YAdd (xid "size")) (size_x t (XSel name (tx "F" ++ dec_str i))) :: go (i + 1) l'
             end) 0 ts))
      else None
  | SArray t n => if (1 <=? n) && (n <=? 32) then one (tx "SizeArray" ++ dec_str n) t else None
  | SExternal _ _ _ => Some (XCall (XSel name (tx "Size")) [])
  end.

(** decode.rs L178-354 [RenderType], L357-382 [DecodeGenericSingle], L384-432 [DecodeGenericPair]. *)
Definition if_err (es : list gx) : gx := YIf (XNe (xid "err") (xid "nil")) [YRet es].
Definition dfun (t : gty) (e : gx) : gx := XFun false [(tx "r", gbytes)] [gbytes; t; gname "error"] [YRet [e]].
Definition dcall (fn : str) (t : gty) (e : gx) : gx := XCall (xbuf fn [t]) [xid "r"; dfun t e].
Definition dcall2 (fn : str) (k v : gty) (ek ev : gx) : gx := XCallLines (xbuf fn [k; v]) [xid "r"] [dfun k ek; dfun v ev].
Fixpoint dec_x (t : sty) : option gx :=
  let one (fn : str) (t : sty) : option gx :=
    match go_type t, dec_x t with Some g, Some e => Some (dcall fn g e) | _, _ => None end in
  let two (fn : str) (k v : sty) : option gx :=
    match go_type k, go_type v, dec_x k, dec_x v with
    | Some gk, Some gv, Some ek, Some ev => Some (dcall2 fn gk gv ek ev)
    | _, _, _, _ => None
    end in
  match t with
  | SPrim p => Some (XCall (xbuf (tx "Decode" ++ buf_name p) []) [xid "r"])
  | SVec t => one (tx "DecodeVec") t
  | SHashMap k v => two (tx "DecodeHashMap") k v
  | SHashSet t => one (tx "DecodeHashSet") t
  | SOption t => one (tx "DecodeOption") t
  | SNonZero t =>
      match t with
      | SPrim p => if nz_encodable p then Some (XCall (xbuf (tx "DecodeNonZero" ++ buf_name p) []) [xid "r"]) else None
      | SVec t => one (tx "DecodeNonZeroVec") t
      | SHashMap k v => two (tx "DecodeNonZeroHashMap") k v
      | SHashSet t => one (tx "DecodeNonZeroHashSet") t
      | _ => None
      end
  | STuple ts =>
      if (2 <=? length ts)%nat && (length ts <=? 12)%nat then
        option_map (fun l => XCall (XFun true [(tx "r", gbytes)]
            [gbytes; GFrom (tx "buf") (tx "Tuple" ++ dec_str (N.of_nat (length ts))) []; gname "error"]
            (concat l ++ [YRet [xid "r"; xid "tuple"; xid "nil"]])) [xid "r"])
          (collect ((fix go (i : N) (l : list sty) {struct l} : list (option (list gx)) :=
             match l with
             | [] => []
             | t :: l' =>
                 option_map (fun e =>
                   [YDef [tx "r2"; tx "value" ++ dec_str i; tx "err"] e;
                    if_err [xid "nil"; xid "value"; xid "err"];
                    YSet (xid "r") (xid "r2");
                    YSet (XSel (xid "tuple") (tx "F" ++ dec_str i)) (XId (tx "value" ++ dec_str i))]) (dec_x t)
                 :: go (i + 1) l'
             end) 0 ts))
      else None
  | SArray t n => if (1 <=? n) && (n <=? 32) then one (tx "DecodeArray" ++ dec_str n) t else None
  | SExternal path name gs =>
      option_map (fun g =>
        XCallNl (XFun false [(tx "r", gbytes)] [gbytes; g; gname "error"]
          [YVar (tx "value") g; YRet [XCall (XSel (xid "value") (tx "Decode")) [xid "r"]]]) [xid "r"])
        (go_type (SExternal path name gs))
  end.

(** encode.rs L72-110 [RenderFields], for one field; size.rs L74-113. *)
Definition enc_field (f : sfield) : option gx :=
  match sf_ty f with
  | SOption t =>
      match go_type t, enc_x t (xid "v") with
      | Some g, Some e =>
          Some (YSet (xid "w") (XCall (xbuf (tx "EncodeFieldOption") [g])
            [xid "w"; XNum (sf_id f); XAddr (XSel (xid "v") (camel (sf_name f)));
             XFun true [(tx "w", gbytes); (tx "v", g)] [gbytes] [YRet [e]]]))
      | _, _ => None
      end
  | t =>
      option_map (fun e => YSet (xid "w") (XCall (xbuf (tx "EncodeField") [])
          [xid "w"; XNum (sf_id f); XFun true [(tx "w", gbytes)] [gbytes] [YRet [e]]]))
        (enc_x t (XSel (xid "v") (camel (sf_name f))))
  end.
Definition enc_fields (fs : sfields) : option (list gx) :=
  match ss_kind fs with
  | SKUnit => Some []
  | _ => option_map (fun l => l ++ [YSet (xid "w") (XCall (xbuf (tx "EncodeU32") []) [xid "w"; xbuf (tx "EndMarker") []])])
           (collect (map enc_field (ss_fields fs)))
  end.
Definition size_field (f : sfield) : option gx :=
  match sf_ty f with
  | SOption t =>
      match go_type t, size_x t (xid "v") with
      | Some g, Some e =>
          Some (YAdd (xid "size") (XCall (xbuf (tx "SizeFieldOption") [g])
            [XNum (sf_id f); XAddr (XSel (xid "v") (camel (sf_name f)));
             XFun true [(tx "v", g)] [gname "int"] [YRet [e]]]))
      | _, _ => None
      end
  | t =>
      option_map (fun e => YAdd (xid "size") (XCall (xbuf (tx "SizeField") [])
          [XNum (sf_id f); XFun false [] [gname "int"] [YRet [e]]]))
        (size_x t (XSel (xid "v") (camel (sf_name f))))
  end.
Definition size_fields (fs : sfields) : option (list gx) :=
  match ss_kind fs with
  | SKUnit => Some []
  | _ => option_map (fun l => l ++ [YAdd (xid "size") (xbuf (tx "EndMarkerSize") [])])
           (collect (map size_field (ss_fields fs)))
  end.
(** decode.rs L99-109 [RenderFieldVars], L111-136 [RenderFoundChecks], L138-170 [RenderFields]. *)
Definition found_name (f : sfield) : str := tx "found" ++ camel (sf_name f).
Definition dec_case (f : sfield) : option (gx * list gx) :=
  option_map (fun e => (XNum (sf_id f),
    [YDef [tx "r2"; tx "value"; tx "err"] e;
     if_err [xid "nil"; xid "err"];
     YSet (xid "r") (xid "r2");
     YSet (XSel (xid "v") (camel (sf_name f))) (xid "value");
     YSet (XId (found_name f)) (xid "true")])) (dec_x (sf_ty f)).
Definition found_check (k : skind) (f : sfield) : gx :=
  YIf (XNot (XId (found_name f)))
    [YRet [xid "nil"; XMissing (sf_id f) (match k with SKNamed => sf_name f | _ => [] end)]].
(** decode.rs L14-51, L58-97: the body of [Decode]. *)
Definition dec_body (fs : sfields) : option (list gx) :=
  option_map (fun cases =>
    map (fun f => YDef [found_name f] (xid "false")) (ss_fields fs) ++ [YBlank] ++
    [YFor (XGt0 (XCall (xid "len") [xid "r"]))
       [YDef [tx "r2"; tx "id"; tx "err"] (XCall (xbuf (tx "DecodeID") []) [xid "r"]);
        if_err [xid "nil"; xid "err"];
        YSet (xid "r") (xid "r2"); YBlank;
        YSwitch (xid "id") (cases ++ [(xbuf (tx "EndMarker") [], [YBreak])])];
     YBlank] ++
    map (found_check (ss_kind fs)) (ss_fields fs) ++ [YBlank; YRet [xid "r"; xid "nil"]])
    (collect (map dec_case (ss_fields fs))).

(** definition.rs L687-728 [uses_generic]. *)
Fixpoint mentions (g : str) (t : sty) : bool :=
  match t with
  | SPrim _ => false
  | SVec t | SHashSet t | SOption t | SNonZero t | SArray t _ => mentions g t
  | SHashMap k v => mentions g k || mentions g v
  | STuple ts => existsb (mentions g) ts
  | SExternal path name gs =>
      match path, gs with [], [] => str_eqb name g | _, _ => false end
  end.
Definition uses_generic (fs : sfields) (g : str) : bool := existsb (fun f => mentions g (sf_ty f)) (ss_fields fs).

Section File.
Context {F : Type}.
(** definition.rs L289-314 [RenderFields], L316-335 [RenderParameters], L337-358 [RenderConstructor],
    L151-190 [RenderNewFunc]. *)
Definition go_fields (fs : sfields) : option (list (comment * (str * gty))) :=
  collect (map (fun f => option_map (fun t => (sf_comment f, (camel (sf_name f), t))) (go_type (sf_ty f))) (ss_fields fs)).
Definition go_params_of (fs : sfields) : option (list (str * gty)) :=
  collect (map (fun f => option_map (pair (lower_camel (sf_name f))) (go_type (sf_ty f))) (ss_fields fs)).
Definition applied (name : str) (g : list str) : gty := GNamed name (map (fun x => GNamed x []) g).
Definition new_func (name : str) (g : list str) (fs : sfields) : option (gitem F) :=
  option_map (fun ps => IFunc (tx "New" ++ name) g ps (applied name g)
    [YRet [XLit (applied name g) (map (fun f => (camel (sf_name f), XId (lower_camel (sf_name f)))) (ss_fields fs))]])
    (go_params_of fs).
(** encode.rs L14-36, L46-68; decode.rs L14-51, L58-97; size.rs L14-38, L47-67.  [last] is the value
    [Encode] returns: [w] for a struct, [nil] for a variant. *)
Definition codec (name : str) (g : list str) (fs : sfields) (last : gx) : option (list (gitem F)) :=
  match enc_fields fs, dec_body fs, size_fields fs with
  | Some e, Some d, Some s =>
      Some [ICheck (tx "Encode") (applied name g);
            IMethod true name g (tx "Encode") [(tx "w", gbytes)] [gbytes] (e ++ [YRet [last]]);
            ICheck (tx "Decode") (applied name g);
            IMethod true name g (tx "Decode") [(tx "r", gbytes)] [gbytes; gname "error"] d;
            ICheck (tx "Size") (applied name g);
            IMethod true name g (tx "Size") [] [gname "int"] (YDef [tx "size"] (XNum 0) :: s ++ [YRet [xid "size"]])]
  | _, _, _ => None
  end.
(** definition.rs L53-77, L131-149: a struct. *)
Definition go_struct (c : comment) (n : str) (g : list str) (fs : sfields) : option (list (gitem F)) :=
  match go_fields fs, new_func (camel n) g fs, codec (camel n) g fs (xid "w") with
  | Some l, Some nf, Some k => Some (IStruct c (camel n) g l :: nf :: k)
  | _, _, _ => None
  end.
(** definition.rs L615-685 [RenderEnumVariant]. *)
Definition variant_name (n : str) (v : svariant) : str := camel n ++ tx "_" ++ camel (sv_name v).
Definition variant_generics (g : list str) (v : svariant) : list str := filter (uses_generic (sv_fields v)) g.
Definition go_variant (n : str) (g : list str) (v : svariant) : option (list (gitem F)) :=
  let name := variant_name n v in
  let g' := variant_generics g v in
  match go_fields (sv_fields v), new_func name g' (sv_fields v), codec name g' (sv_fields v) (xid "nil") with
  | Some l, Some nf, Some k =>
      Some (IStruct (sv_comment v) name g' l :: IMethod false name g' (tx "sealed") [] [] [] :: nf :: k)
  | _, _, _ => None
  end.
(** definition.rs L577-613 [RenderEnum]. *)
Definition go_enum (c : comment) (n : str) (g : list str) (vs : list svariant) : option (list (gitem F)) :=
  option_map (fun l =>
    IInterface (camel n ++ tx "Variant") [tx "sealed"] ::
    IDefined c (camel n) (GNamed (camel n ++ tx "Variant") []) :: concat l)
    (collect (map (go_variant n g) vs)).
(** definition.rs L468-490 [RenderConstType], L511-548 [RenderConst]. *)
Definition const_type (t : sty) : option gty :=
  match t with
  | SPrim PrBoxString | SPrim PrBoxBytes => None
  | SPrim p => Some (go_prim p)
  | _ => None
  end.
Definition const_kind (t : sty) : bool :=
  match t with
  | SPrim (PrBool | PrU8 | PrU16 | PrU32 | PrU64 | PrI8 | PrI16 | PrI32 | PrI64 | PrF32 | PrF64 | PrString | PrStringRef) => true
  | _ => false
  end.
(** definition.rs L35-83 [render_definition], what a definition adds to the file of its module. *)
Definition go_items (d : sdef F) : option (list (gitem F)) :=
  match d with
  | SModule _ _ _ | SImport _ _ => Some []
  | SStruct c n g fs => go_struct c n g fs
  | SEnum c n g vs => go_enum c n g vs
  | SAlias c n _ t => option_map (fun t => [IDefined c (camel n) t]) (go_type t)
  | SConst c n t v => option_map (fun gt => [IConst c (const_kind t) (camel n) gt v]) (const_type t)
  end.
(** definition.rs L120-129 [RenderImports]. *)
Definition the_imports : list (str * str) :=
  [(tx "mabo", tx "github.com/dnaka91/mabo-go"); (tx "buf", tx "github.com/dnaka91/mabo-go/buf")].
(** definition.rs L13-33 [render_schema], L37-51: the file of the schema, and of a module. *)
Definition go_file (c : comment) (name : str) (ds : list (sdef F)) : option (gfile F) :=
  option_map (fun l => GFile c (snake name) the_imports (concat l)) (collect (map go_items ds)).
(** The files of the modules, with their path of module names. *)
Fixpoint go_modules (d : sdef F) : list (list str * option (gfile F)) :=
  match d with
  | SModule c n ds =>
      ([n], go_file c n ds) :: map (fun pf => (n :: fst pf, snd pf)) (flat_map go_modules ds)
  | _ => []
  end.
Definition go_files (package : str) (ds : list (sdef F)) : list (list str * option (gfile F)) :=
  ([package], go_file [] package ds) :: map (fun pf => (package :: fst pf, snd pf)) (flat_map go_modules ds).
End File.

(** * The text *)
Definition nl : str := [10].
(** lib.rs L37-45: [Indent]. *)
Definition tabs (i : nat) : str := repeat 9 i.
Fixpoint gt_text (t : gty) : str :=
  let args (l : list gty) := match l with [] => [] | _ => tx "[" ++ join (tx ", ") (map gt_text l) ++ tx "]" end in
  match t with
  | GNamed n l => n ++ args l
  | GFrom p n l => p ++ tx "." ++ n ++ args l
  | GSlice t => tx "[]" ++ gt_text t
  | GMap k v => tx "map[" ++ gt_text k ++ tx "]" ++ gt_text v
  | GPtr t => tx "*" ++ gt_text t
  | GArr n t => tx "[" ++ dec_str n ++ tx "]" ++ gt_text t
  | GEmpty => tx "struct{}"
  end.
Definition args_text (l : list gty) : str := match l with [] => [] | _ => tx "[" ++ join (tx ", ") (map gt_text l) ++ tx "]" end.
Definition params_text (l : list (str * gty)) : str := join (tx ", ") (map (fun p => fst p ++ tx " " ++ gt_text (snd p)) l).
Definition results_text (l : list gty) : str :=
  match l with
  | [] => []
  | [t] => tx " " ++ gt_text t
  | _ => tx " (" ++ join (tx ", ") (map gt_text l) ++ tx ")"
  end.
Fixpoint gx_text (i : nat) (e : gx) {struct e} : str :=
  let block (i : nat) (l : list gx) := concat (map (fun s => match s with YBlank => nl | _ => tabs i ++ gx_text i s ++ nl end) l) in
  let list_text (l : list gx) := join (tx ", ") (map (gx_text i) l) in
  match e with
  | XId x => x
  | XNum n => dec_str n
  | XFrom p x l => p ++ tx "." ++ x ++ args_text l
  | XSel e m => gx_text i e ++ tx "." ++ m
  | XAddr e => tx "&" ++ gx_text i e
  | XNot e => tx "!" ++ gx_text i e
  | XNe a b => gx_text i a ++ tx " != " ++ gx_text i b
  | XGt0 e => gx_text i e ++ tx " > 0"
  | XCall f l => gx_text i f ++ tx "(" ++ list_text l ++ tx ")"
  | XCallNl f l => gx_text i f ++ tx "(" ++ list_text l ++ tx ")" ++ nl
  | XCallLines f a l =>
      gx_text i f ++ tx "(" ++ nl ++ tabs (S i) ++ list_text a ++ tx "," ++ nl ++
      concat (map (fun e => tabs (S i) ++ gx_text (S i) e ++ tx "," ++ nl) l) ++ tabs i ++ tx ")"
  | XFun sp ps rs b =>
      tx "func" ++ (if sp then tx " " else []) ++ tx "(" ++ params_text ps ++ tx ")" ++ results_text rs ++ tx " {" ++ nl ++
      block (S i) b ++ tabs i ++ tx "}"
  | XLit t [] => gt_text t ++ tx "{}"
  | XLit t l =>
      gt_text t ++ tx "{" ++ nl ++
      concat (map (fun f => tabs (S i) ++ fst f ++ tx ": " ++ gx_text (S i) (snd f) ++ tx "," ++ nl) l) ++ tabs i ++ tx "}"
  | XMissing id f =>
      tx "buf.MissingFieldError{" ++ nl ++ tabs (S i) ++ tx "ID:    " ++ dec_str id ++ tx "," ++ nl ++
      tabs (S i) ++ tx "Field: """ ++ f ++ tx """," ++ nl ++ tabs i ++ tx "}"
  | YSet l r => gx_text i l ++ tx " = " ++ gx_text i r
  | YAdd l r => gx_text i l ++ tx " += " ++ gx_text i r
  | YDef xs e => join (tx ", ") xs ++ tx " := " ++ gx_text i e
  | YVar x t => tx "var " ++ x ++ tx " " ++ gt_text t
  | YRet l => tx "return " ++ list_text l
  | YIf c b => tx "if " ++ gx_text i c ++ tx " {" ++ nl ++ block (S i) b ++ tabs i ++ tx "}"
  | YFor c b => tx "for " ++ gx_text i c ++ tx " {" ++ nl ++ block (S i) b ++ tabs i ++ tx "}"
  | YSwitch e cs =>
      tx "switch " ++ gx_text i e ++ tx " {" ++ nl ++
      concat (map (fun c => tabs (S i) ++ tx "case " ++ gx_text (S i) (fst c) ++ tx ":" ++ nl ++ block (S (S i)) (snd c)) cs) ++
      tabs i ++ tx "}"
  | YBreak => tx "break"
  | YBlank => []
  end.
Definition block_text (i : nat) (l : list gx) : str :=
  concat (map (fun s => match s with YBlank => nl | _ => tabs i ++ gx_text i s ++ nl end) l).
(** definition.rs L377-391 [RenderComment]. *)
Definition comment_text (i : nat) (c : comment) : str := concat (map (fun l => tabs i ++ tx "// " ++ l ++ nl) c).
(** definition.rs L197-230 [RenderGenerics], L237-269 [RenderGenericNames]. *)
Definition tparams_text (g : list str) : str :=
  match g with [] => [] | _ => tx "[" ++ join (tx ", ") (map (fun x => x ++ tx " any") g) ++ tx "]" end.
Definition tnames_text (g : list str) : str :=
  match g with [] => [] | _ => tx "[" ++ join (tx ", ") g ++ tx "]" end.

Section Text.
Context {F : Type}.
Variable fmt_f64 : F -> str.
Variable esc_u : N -> bool.
(** definition.rs L550-575 [RenderLiteral]. *)
Definition go_literal (l : lit F) : str :=
  match l with
  | LBytes [] => []
  | LBytes b => tx "[]byte{" ++ join (tx ", ") (map dec_str b) ++ tx "}"
  | l => pr_literal fmt_f64 esc_u l
  end.
Definition item_text (it : gitem F) : str :=
  match it with
  | IStruct c n g fs =>
      comment_text 0 c ++ tx "type " ++ n ++ tparams_text g ++ tx " " ++
      match fs with
      | [] => tx "struct{}"
      | _ => tx "struct {" ++ nl ++
          concat (map (fun f => comment_text 1 (fst f) ++ tabs 1 ++ fst (snd f) ++ tx " " ++ gt_text (snd (snd f)) ++ nl) fs) ++ tx "}"
      end ++ nl ++ nl
  | IDefined c n t => comment_text 0 c ++ tx "type " ++ n ++ tx " " ++ gt_text t ++ nl ++ nl
  | IInterface n ms => tx "type " ++ n ++ tx " interface {" ++ nl ++ concat (map (fun m => tabs 1 ++ tx " " ++ m ++ tx "()" ++ nl) ms) ++ tx "}" ++ nl ++ nl
  | ICheck i t => tx "var _ buf." ++ i ++ tx " = (*" ++ gt_text t ++ tx ")(nil)" ++ nl ++ nl
  | IMethod ptr t g m ps rs b =>
      tx "func (v " ++ (if ptr then tx "*" else []) ++ t ++ tnames_text g ++ tx ") " ++ m ++ tx "(" ++ params_text ps ++ tx ")" ++
      results_text rs ++ tx " {" ++ (match b with [] => [] | _ => nl ++ block_text 1 b end) ++ tx "}" ++ nl ++ nl
  | IFunc n g ps r b =>
      tx "func " ++ n ++ tparams_text g ++ tx "(" ++
      (match ps with [] => [] | _ => nl ++ concat (map (fun p => tabs 1 ++ fst p ++ tx " " ++ gt_text (snd p) ++ tx "," ++ nl) ps) end) ++
      tx ") " ++ gt_text r ++ tx " {" ++ nl ++ block_text 1 b ++ tx "}" ++ nl ++ nl
  | IConst c k n t v =>
      comment_text 0 c ++ (if k then tx "const " else tx "var ") ++ n ++ tx " " ++ gt_text t ++ tx " = " ++ go_literal v ++ nl
  end.
(** definition.rs L85-129 [RenderHeader], [RenderPackage], [RenderImports]. *)
Definition file_text (f : gfile F) : str :=
  tx "// Code generated by mabo-go (v0.1.0). DO NOT EDIT." ++ nl ++ nl ++
  comment_text 0 (g_comment f) ++ tx "package " ++ g_package f ++ nl ++ nl ++
  tx "import (" ++ nl ++ concat (map (fun im => tabs 1 ++ fst im ++ tx " """ ++ snd im ++ tx """" ++ nl) (g_imports f)) ++ tx ")" ++ nl ++ nl ++
  concat (map item_text (g_items f)).
End Text.
