(** The Rust code that crates/mabo-build generates for structs and enums, as syntax.

    Unlike [Codec], which interprets the schema, this file models the generator as what it
    is: a function from the simplified schema to Rust code.  The code is a syntax tree with
    variables, references, closures and calls of the runtime's functions; what it does is in
    RustEval.v, whether rustc accepts it in RustTyping.v.

    The generator builds token streams, so that [#name.get()] with [&x.0] for [#name] reads
    [&x.0.get()], i.e. [&(x.0.get())]: a postfix operator goes below the prefix operators
    ([post]).

    Simplifications:
    - a type is already resolved ([Codec.ty]): [TExt i args] is the i-th definition of the
      project, [TParam i] the i-th type parameter of the definition at hand;
    - the trait methods [size], [encode] and [decode] carry the type they are called at, which
      the generated text does not repeat for the first two, and [decode_array] the length of
      the array (rustc infers them; RustTyping.v checks that they are the inferred ones);
    - [{ a; b; }], [a; b;] and [a; b;;] are all [ESeq];
    - lint attributes and doc comments are left out. *)
From Verif Require Import Base Varint Wire Codec Compiler.
Local Open Scope N_scope.

(** crates/mabo-build/src/lib.rs L112-120 [BytesType]. *)
Inductive bytes_type := BVecU8 | BBytes.

(** The types whose functions are named after them: [encode_u8], [size_u8], .. *)
Inductive scalar := ScBool | ScU8 | ScI8 | ScU (w : width) | ScI (w : width) | ScF32 | ScF64.
Definition scalar_of (t : ty) : option scalar :=
  match t with
  | TBool => Some ScBool | TU8 => Some ScU8 | TI8 => Some ScI8
  | TUInt w => Some (ScU w) | TSInt w => Some (ScI w)
  | TF32 => Some ScF32 | TF64 => Some ScF64
  | _ => None
  end.

(** Functions of [::mabo::buf] (crates/mabo/src/buf/{size,encode,decode}.rs). *)
Inductive rfun :=
| RSize (p : scalar) | RSizeString | RSizeBytes (b : bytes_type)
| RSizeVec | RSizeMap | RSizeSet | RSizeOption | RSizeArray
| RSizeField | RSizeFieldOption | RSizeVariantId
| REncode (p : scalar) | REncodeString | REncodeBytes (b : bytes_type)
| REncodeVec | REncodeMap | REncodeSet | REncodeOption | REncodeArray | REncodeTuple
| REncodeField | REncodeFieldOption | REncodeVariantId
| RDecode (p : scalar) | RDecodeString | RDecodeBytes (b : bytes_type)
| RDecodeVec | RDecodeMap | RDecodeSet | RDecodeOption | RDecodeArray (n : nat)
| RDecodeNz (p : scalar) | RDecodeNzString | RDecodeNzBytes (b : bytes_type)
| RDecodeNzVec | RDecodeNzMap | RDecodeNzSet
| RDecodeId | RDecodeVariantId | RDecodeSkip.

Definition ident := list N.

Inductive expr :=
| EVar (x : ident)
| ERef (e : expr)                              (* &e *)
| EDeref (e : expr)                            (* *e *)
| EProj (i : nat) (e : expr)                   (* e.i *)
| EGet (e : expr)                              (* e.get() *)
| EAsRef (e : expr)                            (* e.as_ref() *)
| ESizeM (t : ty) (e : expr)                   (* e.size() *)
| EEncodeM (t : ty) (e w : expr)               (* e.encode(w) *)
| EDecodeM (t : ty) (r : expr)                 (* T::decode(r) *)
| ECall (f : rfun) (args : list expr)          (* ::mabo::buf::f(..) *)
| EClos (params : list ident) (body : expr)    (* |params| { body } *)
| EFieldId (id : N) (c : fenc)                 (* ::mabo::FieldId::new(id, ::mabo::FieldEncoding::c) *)
| EVariantId (id : N)                          (* ::mabo::VariantId::new(id) *)
| EInt (n : N)
| EEndMarker                                   (* ::mabo::buf::END_MARKER *)
| EEndSize                                     (* ::mabo::buf::END_MARKER_SIZE *)
| EEncodingOf (e : expr)                       (* e.encoding *)
| ESum (es : list expr)                        (* e1 + .. + en *)
| ESeq (es : list expr)                        (* { e1; ..; en; } *)
| ETupleOk (len : option expr) (es : list expr) (* { len?; Ok::<_, Error>((e1?, .., en?,)) } *)
| EPanic.                                      (* todo!(): the generator panics, there is no code *)

(** The names written in the generator's templates. *)
Definition x_w : ident := [119].
Definition x_v : ident := [118].
Definition x_k : ident := [107].
Definition x_r : ident := [114].
Definition x_id : ident := [105; 100].

(** Rust's precedence: a postfix operator binds tighter than the prefix operators of the
    tokens it is appended to. *)
Fixpoint post (f : expr -> expr) (e : expr) : expr :=
  match e with
  | ERef e' => ERef (post f e')
  | EDeref e' => EDeref (post f e')
  | _ => f e
  end.

(** [#(#types)+*]: sums of sums are written without parentheses. *)
Definition sum_of (es : list expr) : expr :=
  ESum (flat_map (fun e => match e with ESum l => l | _ => [e] end) es).

(** encode.rs L322, L348, decode.rs L276, size.rs L243: [2..=12]. *)
Definition tuple_len_ok {A} (l : list A) : bool := ((2 <=? length l) && (length l <=? 12))%nat.

Section Generator.
Variable bt : bytes_type.

(** * Sizes *)

(** mabo-build/src/size.rs L185-262 [compile_data_type]. *)
Fixpoint gen_size (t : ty) (name : expr) {struct t} : expr :=
  match t with
  | TBool => ECall (RSize ScBool) [EDeref name]
  | TU8 => ECall (RSize ScU8) [EDeref name]
  | TI8 => ECall (RSize ScI8) [EDeref name]
  | TUInt w => ECall (RSize (ScU w)) [EDeref name]
  | TSInt w => ECall (RSize (ScI w)) [EDeref name]
  | TF32 => ECall (RSize ScF32) [EDeref name]
  | TF64 => ECall (RSize ScF64) [EDeref name]
  | TString | TStringRef | TBoxString => ECall RSizeString [name]
  | TBytes | TBytesRef | TBoxBytes => ECall (RSizeBytes bt) [name]
  | TVec t' => ECall RSizeVec [name; EClos [x_v] (gen_size t' (EVar x_v))]
  | TMap tk tv =>
      ECall RSizeMap [name; EClos [x_k] (gen_size tk (EVar x_k)); EClos [x_v] (gen_size tv (EVar x_v))]
  | TSet t' => ECall RSizeSet [name; EClos [x_v] (gen_size t' (EVar x_v))]
  | TOption t' => ECall RSizeOption [post EAsRef name; EClos [x_v] (gen_size t' (EVar x_v))]
  | TNonZero t' =>
      match t' with
      | TU8 => ECall (RSize ScU8) [post EGet name]
      | TI8 => ECall (RSize ScI8) [post EGet name]
      | TUInt w => ECall (RSize (ScU w)) [post EGet name]
      | TSInt w => ECall (RSize (ScI w)) [post EGet name]
      | TString | TStringRef | TBytes | TBytesRef | TVec _ | TMap _ _ | TSet _ =>
          gen_size t' (post EGet name)
      | _ => EPanic
      end
  | TTuple ts =>
      if tuple_len_ok ts then
        sum_of ((fix go (i : nat) (l : list ty) : list expr :=
                   match l with
                   | [] => []
                   | t' :: l' => gen_size t' (ERef (post (EProj i) name)) :: go (S i) l'
                   end) 0%nat ts)
      else EPanic
  | TArray t' _ => ECall RSizeArray [name; EClos [x_v] (gen_size t' (EVar x_v))]
  | TExt _ _ | TParam _ | TGen _ => post (ESizeM t) name
  end.

(** size.rs L52-65 and L148-161: the term of a field. *)
Definition gen_size_field (f : field) : expr :=
  match f_ty f with
  | TOption t =>
      ECall RSizeFieldOption [EInt (f_id f); EAsRef (EVar (f_name f)); EClos [x_v] (gen_size t (EVar x_v))]
  | t => ECall RSizeField [EInt (f_id f); EClos [] (gen_size t (EVar (f_name f)))]
  end.
(** size.rs L48-72 [compile_struct_fields]. *)
Definition gen_size_struct (fs : fields) : expr :=
  match fs_kind fs with
  | KUnit => EInt 0
  | _ => ESum (map gen_size_field (fs_list fs) ++ [EEndSize])
  end.
(** size.rs L105-142 [compile_variant], L144-168 [compile_variant_fields]. *)
Definition gen_size_variant (v : variant) : expr :=
  match fs_kind (v_fields v) with
  | KUnit => ECall RSizeVariantId [EInt (v_id v)]
  | _ => ESum (ECall RSizeVariantId [EInt (v_id v)] :: map gen_size_field (fs_list (v_fields v)) ++ [EEndSize])
  end.

(** * Encoding *)

(** mabo-build/src/encode.rs L156-355 [compile_data_type]. *)
Fixpoint gen_encode (root : bool) (t : ty) (name : expr) {struct t} : fenc * expr :=
  match t with
  | TBool => (EFixed1, ECall (REncode ScBool) [EVar x_w; EDeref name])
  | TU8 => (EFixed1, ECall (REncode ScU8) [EVar x_w; EDeref name])
  | TI8 => (EFixed1, ECall (REncode ScI8) [EVar x_w; EDeref name])
  | TUInt w => (EVarint, ECall (REncode (ScU w)) [EVar x_w; EDeref name])
  | TSInt w => (EVarint, ECall (REncode (ScI w)) [EVar x_w; EDeref name])
  | TF32 => (EFixed4, ECall (REncode ScF32) [EVar x_w; EDeref name])
  | TF64 => (EFixed8, ECall (REncode ScF64) [EVar x_w; EDeref name])
  | TString | TStringRef | TBoxString => (ELengthPrefixed, ECall REncodeString [EVar x_w; name])
  | TBytes | TBytesRef | TBoxBytes => (ELengthPrefixed, ECall (REncodeBytes bt) [EVar x_w; name])
  | TVec t' =>
      (ELengthPrefixed,
       ECall REncodeVec [EVar x_w; name; EClos [x_v] (gen_size t' (EVar x_v));
                         EClos [x_w; x_v] (ESeq [snd (gen_encode false t' (EVar x_v))])])
  | TMap tk tv =>
      (ELengthPrefixed,
       ECall REncodeMap [EVar x_w; name;
                         EClos [x_k] (gen_size tk (EVar x_k)); EClos [x_v] (gen_size tv (EVar x_v));
                         EClos [x_w; x_k] (ESeq [snd (gen_encode false tk (EVar x_k))]);
                         EClos [x_w; x_v] (ESeq [snd (gen_encode false tv (EVar x_v))])])
  | TSet t' =>
      (ELengthPrefixed,
       ECall REncodeSet [EVar x_w; name; EClos [x_v] (gen_size t' (EVar x_v));
                         EClos [x_w; x_v] (ESeq [snd (gen_encode false t' (EVar x_v))])])
  | TOption t' =>
      (ELengthPrefixed,
       ECall REncodeOption [EVar x_w; name; EClos [x_w; x_v] (ESeq [snd (gen_encode false t' (EVar x_v))])])
  | TNonZero t' =>
      match t' with
      | TU8 => (EFixed1, ECall (REncode ScU8) [EVar x_w; post EGet name])
      | TI8 => (EFixed1, ECall (REncode ScI8) [EVar x_w; post EGet name])
      | TUInt w => (EVarint, ECall (REncode (ScU w)) [EVar x_w; post EGet name])
      | TSInt w => (EVarint, ECall (REncode (ScI w)) [EVar x_w; post EGet name])
      | TString | TStringRef | TBytes | TBytesRef | TVec _ | TMap _ _ | TSet _ =>
          gen_encode false t' (post EGet name)
      | _ => (ELengthPrefixed, EPanic)
      end
  | TTuple ts =>
      (ELengthPrefixed,
       if tuple_len_ok ts then
         let encode := (fix go (i : nat) (l : list ty) : list expr :=
            match l with
            | [] => []
            | t' :: l' => snd (gen_encode false t' (ERef (post (EProj i) name))) :: go (S i) l'
            end) 0%nat ts in
         if root then
           ECall REncodeTuple
             [EVar x_w;
              EClos [] (sum_of ((fix go (i : nat) (l : list ty) : list expr :=
                   match l with
                   | [] => []
                   | t' :: l' => gen_size t' (ERef (post (EProj i) name)) :: go (S i) l'
                   end) 0%nat ts));
              EClos [x_w] (ESeq encode)]
         else ESeq encode
       else EPanic)
  | TArray t' _ =>
      (ELengthPrefixed,
       ECall REncodeArray [EVar x_w; name; EClos [x_v] (gen_size t' (EVar x_v));
                           EClos [x_w; x_v] (ESeq [snd (gen_encode false t' (EVar x_v))])])
  | TExt _ _ | TParam _ | TGen _ =>
      (ELengthPrefixed, post (fun e => EEncodeM t e (EVar x_w)) name)
  end.

(** encode.rs L119-132: the statement of a field. *)
Definition gen_encode_field (f : field) : expr :=
  match f_ty f with
  | TOption t =>
      let (enc, e) := gen_encode true t (EVar x_v) in
      ECall REncodeFieldOption [EVar x_w; EFieldId (f_id f) enc; EVar (f_name f); EClos [x_w; x_v] (ESeq [e])]
  | t =>
      let (enc, e) := gen_encode true t (EVar (f_name f)) in
      ECall REncodeField [EVar x_w; EFieldId (f_id f) enc; EClos [x_w] (ESeq [e])]
  end.
(** encode.rs L115-139 [compile_fields]. *)
Definition gen_encode_fields (fs : fields) : list expr :=
  match fs_kind fs with
  | KUnit => []
  | _ => map gen_encode_field (fs_list fs) ++ [ECall (REncode (ScU W32)) [EVar x_w; EEndMarker]]
  end.
(** encode.rs L7-46 [compile_struct]. *)
Definition gen_encode_struct (fs : fields) : expr := ESeq (gen_encode_fields fs).
(** encode.rs L79-113 [compile_variant]. *)
Definition gen_encode_variant (v : variant) : expr :=
  ESeq (ECall REncodeVariantId [EVar x_w; EVariantId (v_id v)] :: gen_encode_fields (v_fields v)).

(** * Decoding *)

(** mabo-build/src/decode.rs L202-309 [compile_data_type]. *)
Fixpoint gen_decode (root : bool) (t : ty) {struct t} : expr :=
  match t with
  | TBool => ECall (RDecode ScBool) [EVar x_r]
  | TU8 => ECall (RDecode ScU8) [EVar x_r]
  | TI8 => ECall (RDecode ScI8) [EVar x_r]
  | TUInt w => ECall (RDecode (ScU w)) [EVar x_r]
  | TSInt w => ECall (RDecode (ScI w)) [EVar x_r]
  | TF32 => ECall (RDecode ScF32) [EVar x_r]
  | TF64 => ECall (RDecode ScF64) [EVar x_r]
  | TString | TStringRef => ECall RDecodeString [EVar x_r]
  | TBytes | TBytesRef => ECall (RDecodeBytes bt) [EVar x_r]
  | TVec t' => ECall RDecodeVec [EVar x_r; EClos [x_r] (gen_decode false t')]
  | TMap tk tv =>
      ECall RDecodeMap [EVar x_r; EClos [x_r] (gen_decode false tk); EClos [x_r] (gen_decode false tv)]
  | TSet t' => ECall RDecodeSet [EVar x_r; EClos [x_r] (gen_decode false t')]
  | TOption t' => ECall RDecodeOption [EVar x_r; EClos [x_r] (gen_decode false t')]
  | TNonZero t' =>
      match t' with
      | TU8 => ECall (RDecodeNz ScU8) [EVar x_r]
      | TI8 => ECall (RDecodeNz ScI8) [EVar x_r]
      | TUInt w => ECall (RDecodeNz (ScU w)) [EVar x_r]
      | TSInt w => ECall (RDecodeNz (ScI w)) [EVar x_r]
      | TString | TStringRef => ECall RDecodeNzString [EVar x_r]
      | TBytes | TBytesRef => ECall (RDecodeNzBytes bt) [EVar x_r]
      | TVec t'' => ECall RDecodeNzVec [EVar x_r; EClos [x_r] (gen_decode false t'')]
      | TMap tk tv =>
          ECall RDecodeNzMap [EVar x_r; EClos [x_r] (gen_decode false tk); EClos [x_r] (gen_decode false tv)]
      | TSet t'' => ECall RDecodeNzSet [EVar x_r; EClos [x_r] (gen_decode false t'')]
      | _ => EPanic
      end
  | TBoxString | TBoxBytes => EDecodeM t (EVar x_r)
  | TTuple ts =>
      if tuple_len_ok ts then
        ETupleOk (if root then Some (ECall (RDecode (ScU W64)) [EVar x_r]) else None)
                 (map (gen_decode false) ts)
      else EPanic
  | TArray t' n => ECall (RDecodeArray n) [EVar x_r; EClos [x_r] (gen_decode false t')]
  | TExt _ _ | TParam _ | TGen _ => EDecodeM t (EVar x_r)
  end.

(** decode.rs L27-41 and L99-115:
<<
    let mut x: Option<T> = None; ..                         (d_vars)
    loop {
        let id = ::mabo::buf::decode_id(r)?;                (d_id, d_next)
        match id.value {
            ::mabo::buf::END_MARKER => break,
            7 => x = Some(..?), ..                          (d_arms)
            _ => ::mabo::buf::decode_skip(r, id.encoding)?, (d_skip)
        }
    }
    Ok(Self { x: x.ok_or(..)?, .. })                        (d_build)
>>
    [d_vars] holds the type behind the colon.  In [d_build], [None] stands for a bare [x] and
    [Some (id, name)] for [x.ok_or(MissingField { id, name })?].  [DUnit] is [Ok(Self)]. *)
Record floop := Loop {
  d_vars : list (ident * ty);
  d_id : ident;
  d_next : expr;
  d_arms : list (N * ident * expr);
  d_skip : expr;
  d_build : list (ident * option (N * option ident)) }.
Inductive dbody := DUnit | DLoop (l : floop).

(** decode.rs L119-136 [compile_field_vars]. *)
Definition gen_var (f : field) : ident * ty :=
  (f_name f, match f_ty f with TOption t => TOption t | t => TOption t end).
(** decode.rs L138-148 [compile_field_matches]. *)
Definition gen_arm (f : field) : N * ident * expr :=
  (f_id f, f_name f, gen_decode true (match f_ty f with TOption t => t | t => t end)).
(** decode.rs L150-185 [compile_field_assigns]. *)
Definition gen_assign (kind : fkind) (f : field) : ident * option (N * option ident) :=
  (f_name f,
   match f_ty f with
   | TOption _ => None
   | _ => Some (f_id f, match kind with KNamed => Some (f_name f) | _ => None end)
   end).
(** decode.rs L9-52 [compile_struct] and L81-117 [compile_variant]. *)
Definition gen_decode_fields (fs : fields) : dbody :=
  match fs_kind fs with
  | KUnit => DUnit
  | kind =>
      DLoop (Loop (map gen_var (fs_list fs)) x_id (ECall RDecodeId [EVar x_r])
                  (map gen_arm (fs_list fs))
                  (ECall RDecodeSkip [EVar x_r; EEncodingOf (EVar x_id)])
                  (map (gen_assign kind) (fs_list fs)))
  end.

(** * Functions *)

(** The arms of [match self { Self::A { names } => body, .. }], or the one binding
    [let Self { names } = self; body] of a struct. *)
Record arm := Arm { a_names : list ident; a_body : expr }.
Definition names_of_fields (fs : fields) : list ident :=
  match fs_kind fs with KUnit => [] | _ => map f_name (fs_list fs) end.
(** size.rs L8-46 [compile_struct], L74-103 [compile_enum]. *)
Definition gen_size_def (d : def) : list arm :=
  match d with
  | DStruct fs => [Arm (names_of_fields fs) (gen_size_struct fs)]
  | DEnum vs => map (fun v => Arm (names_of_fields (v_fields v)) (gen_size_variant v)) vs
  end.
(** encode.rs L7-46 [compile_struct], L48-77 [compile_enum]. *)
Definition gen_encode_def (d : def) : list arm :=
  match d with
  | DStruct fs => [Arm (names_of_fields fs) (gen_encode_struct fs)]
  | DEnum vs => map (fun v => Arm (names_of_fields (v_fields v)) (gen_encode_variant v)) vs
  end.
(** decode.rs L9-52 [compile_struct]; L54-79 [compile_enum]:
    [match decode_variant_id(r)?.value { 1 => body, .., id => Err(UnknownVariant(id)) }]. *)
Inductive dfun := DfStruct (b : dbody) | DfEnum (scrut : expr) (arms : list (N * dbody)).
Definition gen_decode_def (d : def) : dfun :=
  match d with
  | DStruct fs => DfStruct (gen_decode_fields fs)
  | DEnum vs =>
      DfEnum (ECall RDecodeVariantId [EVar x_r]) (map (fun v => (v_id v, gen_decode_fields (v_fields v))) vs)
  end.
End Generator.
