(** The Rust text that crates/mabo-build generates for a schema, token by token: the items of definition.rs together with the [impl] blocks of
    encode.rs, decode.rs and size.rs.  RustConform.v compares it with the snapshots of the repository.

    The templates are written the way the source writes them ([q "..."] is [quote! { ... }]); [generates] (Compiler.v) says for which schemas
    the generator does not panic, for the others this file gives no meaningful text.

    Simplification: joint punctuation ([::], [=>], [->]) is one token each; [||] is two tokens. *)
From Verif Require Import Base Syntax Parser Printer Compiler.
Require Coq.Strings.String.
Import Coq.Strings.String.StringSyntax.
Local Open Scope N_scope.

(** proc_macro2's token trees: words, punctuation, literals, groups. *)
Inductive dlm := Par | Brk | Brc.
Inductive rt := W (s : str) | P (s : str) | Q (s : str) | G (d : dlm) (l : list rt).

(** * Reading text as tokens (proc_macro2's lexer, for the templates and for the snapshots) *)
Definition letter (c : N) : bool := (97 <=? c) && (c <=? 122) || (65 <=? c) && (c <=? 90) || (c =? 95).
Definition digit (c : N) : bool := (48 <=? c) && (c <=? 57).
Inductive ltok := Leaf (t : rt) | LOpen (d : dlm) | LClose (d : dlm).
Fixpoint span_of (f : N -> bool) (s : str) : str * str :=
  match s with
  | c :: r => if f c then let (a, b) := span_of f r in (c :: a, b) else ([], s)
  | [] => ([], [])
  end.
(** The rest of a string literal, up to and including the quote. *)
Fixpoint lit_end (s : str) : str * str :=
  match s with
  | 92 :: c :: r => let (a, b) := lit_end r in (92 :: c :: a, b)
  | 34 :: r => ([34], r)
  | c :: r => let (a, b) := lit_end r in (c :: a, b)
  | [] => ([], [])
  end.
Fixpoint lex (fuel : nat) (s : str) : list ltok :=
  match fuel with
  | O => []
  | S f =>
      match s with
      | [] => []
      | 40 :: r => LOpen Par :: lex f r
      | 41 :: r => LClose Par :: lex f r
      | 91 :: r => LOpen Brk :: lex f r
      | 93 :: r => LClose Brk :: lex f r
      | 123 :: r => LOpen Brc :: lex f r
      | 125 :: r => LClose Brc :: lex f r
      | 47 :: 47 :: 47 :: r =>                       (* /// text *)
          let (t, r') := span_of (fun c => negb (c =? 10)) r in
          Leaf (P [35]) :: LOpen Brk :: Leaf (W (tx "doc")) :: Leaf (P [61]) :: Leaf (Q (34 :: t ++ [34])) :: LClose Brk :: lex f r'
      | 34 :: r => let (t, r') := lit_end r in Leaf (Q (34 :: t)) :: lex f r'
      | 98 :: 34 :: r => let (t, r') := lit_end r in Leaf (Q (98 :: 34 :: t)) :: lex f r'
      | 58 :: 58 :: r => Leaf (P [58; 58]) :: lex f r
      | 61 :: 62 :: r => Leaf (P [61; 62]) :: lex f r
      | 45 :: 62 :: r => Leaf (P [45; 62]) :: lex f r
      | c :: r =>
          if (c =? 32) || (c =? 10) then lex f r
          else if letter c then
            let (a, b) := span_of (fun c => letter c || digit c) s in Leaf (if str_eqb a [95] then P a else W a) :: lex f b
          else if digit c then
            let (a, b) := span_of digit s in
            match b with
            | 46 :: d :: _ => if digit d then let (e, b') := span_of digit (tl b) in Leaf (Q (a ++ 46 :: e)) :: lex f b' else Leaf (Q a) :: lex f b
            | _ => Leaf (Q a) :: lex f b
            end
          else Leaf (P [c]) :: lex f r
      end
  end.
(** Groups; [None] if the delimiters do not match. *)
Fixpoint trees (l : list ltok) (cur : list rt) (stack : list (dlm * list rt)) : option (list rt) :=
  match l with
  | [] => match stack with [] => Some (rev cur) | _ => None end
  | Leaf t :: l' => trees l' (t :: cur) stack
  | LOpen d :: l' => trees l' [] ((d, cur) :: stack)
  | LClose d :: l' =>
      match stack with
      | (d', prev) :: st =>
          match d, d' with Par, Par | Brk, Brk | Brc, Brc => trees l' (G d (rev cur) :: prev) st | _, _ => None end
      | [] => None
      end
  end.
Definition read (s : str) : option (list rt) := trees (lex (S (length s)) s) [] [].
Definition q (s : String.string) : list rt := match read (tx s) with Some l => l | None => [] end.
Arguments q s%string_scope.

(** * The templates' building blocks *)
Definition w (s : String.string) : rt := W (tx s).
Arguments w s%string_scope.
Definition comma : rt := P [44].
Definition semi : rt := P [59].
Definition colon : rt := P [58].
Definition sep2 : rt := P [58; 58].
Definition lt : rt := P [60].
Definition gt : rt := P [62].
Definition equals : rt := P [61].
Definition star : rt := P [42].
Definition amp : rt := P [38].
Definition dot : rt := P [46].
Definition quest : rt := P [63].
Definition bar : rt := P [124].
Definition plus : rt := P [43].
Definition minus : rt := P [45].
Definition hash : rt := P [35].
Definition fat : rt := P [61; 62].
(** [Literal::u32_unsuffixed], [Literal::usize_unsuffixed]. *)
Definition num (n : N) : rt := Q (dec_str n).

(** [#(#a),*] and [#(#a,)*]. *)
Fixpoint separated (s : rt) (l : list (list rt)) : list rt :=
  match l with
  | [] => []
  | [x] => x
  | x :: l' => x ++ s :: separated s l'
  end.
Definition terminated (s : rt) (l : list (list rt)) : list rt := flat_map (fun x => x ++ [s]) l.

(** [::mabo::buf::f(args)]. *)
Definition mabo_buf : list rt := Eval vm_compute in q "::mabo::buf::".
Definition mabo_ : list rt := Eval vm_compute in q "::mabo::".
Definition buf (f : str) (args : list (list rt)) : list rt := mabo_buf ++ [W f; G Par (separated comma args)].
(** [|params| { body }]. *)
Definition clos (params : list str) (body : list rt) : list rt :=
  bar :: separated comma (map (fun x => [W x]) params) ++ [bar; G Brc body].
Definition v_ : str := tx "v".
Definition k_ : str := tx "k".
Definition w_ : str := tx "w".
Definition r_ : str := tx "r".

(** crates/mabo-build/src/lib.rs L112-120 [BytesType]: whether it is [Bytes]. *)
Section Emit.
Variable bytes_crate : bool.
Definition bytes_word : str := if bytes_crate then tx "bytes" else tx "std".

(** The word of a number or bool, in types and in the names of functions. *)
Definition word (p : prim) : str :=
  match p with
  | PrBool => tx "bool"
  | PrU8 => tx "u8" | PrU16 => tx "u16" | PrU32 => tx "u32" | PrU64 => tx "u64" | PrU128 => tx "u128"
  | PrI8 => tx "i8" | PrI16 => tx "i16" | PrI32 => tx "i32" | PrI64 => tx "i64" | PrI128 => tx "i128"
  | PrF32 => tx "f32" | PrF64 => tx "f64"
  | PrString | PrStringRef | PrBoxString => tx "string"
  | PrBytes | PrBytesRef | PrBoxBytes => tx "bytes_" ++ bytes_word
  end.
Definition is_scalar (p : prim) : bool :=
  match p with PrString | PrStringRef | PrBoxString | PrBytes | PrBytesRef | PrBoxBytes => false | _ => true end.

(** * definition.rs L259-351 [compile_data_type] *)
Definition angle (l : list rt) : list rt := lt :: l ++ [gt].
Definition bytes_ty : list rt := Eval vm_compute in q "::mabo::buf::Bytes".
Definition vec_u8 : list rt := Eval vm_compute in q "Vec<u8>".
Definition box_str : list rt := Eval vm_compute in q "Box<str>".
Definition box_u8 : list rt := Eval vm_compute in q "Box<[u8]>".
Definition prim_ty (p : prim) : list rt :=
  match p with
  | PrString | PrStringRef => [w "String"]
  | PrBytes | PrBytesRef => if bytes_crate then bytes_ty else vec_u8
  | PrBoxString => box_str
  | PrBoxBytes => box_u8
  | _ => [W (word p)]
  end.
Definition std_num : list rt := Eval vm_compute in q "::std::num::".
Definition nz_word (p : prim) : str :=
  match p with
  | PrU8 => tx "NonZeroU8" | PrU16 => tx "NonZeroU16" | PrU32 => tx "NonZeroU32" | PrU64 => tx "NonZeroU64" | PrU128 => tx "NonZeroU128"
  | PrI8 => tx "NonZeroI8" | PrI16 => tx "NonZeroI16" | PrI32 => tx "NonZeroI32" | PrI64 => tx "NonZeroI64" | PrI128 => tx "NonZeroI128"
  | _ => []
  end.
(** L293-314. *)
Definition nz_prim_ty (p : prim) : list rt :=
  match p with
  | PrString | PrStringRef => mabo_ ++ [w "NonZeroString"]
  | PrBytes | PrBytesRef => if bytes_crate then mabo_ ++ w "NonZero" :: angle bytes_ty else mabo_ ++ [w "NonZeroBytes"]
  | _ => std_num ++ [W (nz_word p)]
  end.
Definition hash_map_ty : list rt := Eval vm_compute in q "::std::collections::HashMap".
Definition hash_set_ty : list rt := Eval vm_compute in q "::std::collections::HashSet".
Definition path_to (path : list str) : list rt := flat_map (fun s => [W s; sep2]) path.
Fixpoint data_ty (t : sty) : list rt :=
  match t with
  | SPrim p => prim_ty p
  | SVec t => w "Vec" :: angle (data_ty t)
  | SHashMap k v => hash_map_ty ++ angle (data_ty k ++ comma :: data_ty v)
  | SHashSet t => hash_set_ty ++ angle (data_ty t)
  | SOption t => w "Option" :: angle (data_ty t)
  | SNonZero (SPrim p) => nz_prim_ty p
  | SNonZero (SVec t) => mabo_ ++ w "NonZeroVec" :: angle (data_ty t)
  | SNonZero (SHashMap k v) => mabo_ ++ w "NonZeroHashMap" :: angle (data_ty k ++ comma :: data_ty v)
  | SNonZero (SHashSet t) => mabo_ ++ w "NonZeroHashSet" :: angle (data_ty t)
  | SNonZero _ => []
  | STuple ts => [G Par (terminated comma (map data_ty ts))]
  | SArray t n => [G Brk (data_ty t ++ [semi; num n])]
  | SExternal path name gs =>
      path_to path ++ W name :: (if gs then [] else angle (terminated comma (map data_ty gs)))
  end.

(** * size.rs L185-262 [compile_data_type] *)
Definition get_ : list rt := Eval vm_compute in q ".get()".
Definition as_ref_ : list rt := Eval vm_compute in q ".as_ref()".
(** [&#name.#idx]. *)
Definition member (name : list rt) (i : nat) : list rt := amp :: name ++ [dot; num (N.of_nat i)].
Fixpoint size_of (t : sty) (name : list rt) {struct t} : list rt :=
  match t with
  | SPrim p => buf (tx "size_" ++ word p) [if is_scalar p then star :: name else name]
  | SVec t => buf (tx "size_vec") [name; clos [v_] (size_of t [W v_])]
  | SHashMap k v => buf (tx "size_hash_map") [name; clos [k_] (size_of k [W k_]); clos [v_] (size_of v [W v_])]
  | SHashSet t => buf (tx "size_hash_set") [name; clos [v_] (size_of t [W v_])]
  | SOption t => buf (tx "size_option") [name ++ as_ref_; clos [v_] (size_of t [W v_])]
  | SNonZero t' =>
      match t' with
      | SPrim p => if is_scalar p then buf (tx "size_" ++ word p) [name ++ get_] else size_of t' (name ++ get_)
      | _ => size_of t' (name ++ get_)
      end
  | STuple ts =>
      separated plus ((fix go (i : nat) (l : list sty) : list (list rt) :=
        match l with [] => [] | t :: l' => size_of t (member name i) :: go (S i) l' end) 0%nat ts)
  | SArray t _ => buf (tx "size_array") [name; clos [v_] (size_of t [W v_])]
  | SExternal _ _ _ => name ++ [dot; w "size"; G Par []]
  end.

(** * encode.rs L156-355 [compile_data_type] *)
Definition fixed1 : list rt := Eval vm_compute in q "::mabo::FieldEncoding::Fixed1".
Definition fixed4 : list rt := Eval vm_compute in q "::mabo::FieldEncoding::Fixed4".
Definition fixed8 : list rt := Eval vm_compute in q "::mabo::FieldEncoding::Fixed8".
Definition varint_ : list rt := Eval vm_compute in q "::mabo::FieldEncoding::Varint".
Definition prefixed : list rt := Eval vm_compute in q "::mabo::FieldEncoding::LengthPrefixed".
Definition prim_class (p : prim) : list rt :=
  match p with
  | PrBool | PrU8 | PrI8 => fixed1
  | PrF32 => fixed4
  | PrF64 => fixed8
  | PrString | PrStringRef | PrBoxString | PrBytes | PrBytesRef | PrBoxBytes => prefixed
  | _ => varint_
  end.
(** First component. *)
Definition class_of (t : sty) : list rt :=
  match t with
  | SPrim p => prim_class p
  | SNonZero (SPrim p) => prim_class p
  | _ => prefixed
  end.
(** Second component. *)
Fixpoint encode_of (root : bool) (t : sty) (name : list rt) {struct t} : list rt :=
  let stmt t x := encode_of false t [W x] ++ [semi] in
  match t with
  | SPrim p => buf (tx "encode_" ++ word p) [[W w_]; if is_scalar p then star :: name else name]
  | SVec t => buf (tx "encode_vec") [[W w_]; name; clos [v_] (size_of t [W v_]); clos [w_; v_] (stmt t v_)]
  | SHashMap k v =>
      mabo_buf ++ [w "encode_hash_map"; G Par (terminated comma
        [[W w_]; name; clos [k_] (size_of k [W k_]); clos [v_] (size_of v [W v_]); clos [w_; k_] (stmt k k_); clos [w_; v_] (stmt v v_)])]
  | SHashSet t => buf (tx "encode_hash_set") [[W w_]; name; clos [v_] (size_of t [W v_]); clos [w_; v_] (stmt t v_)]
  | SOption t => buf (tx "encode_option") [[W w_]; name; clos [w_; v_] (stmt t v_)]
  | SNonZero t' =>
      match t' with
      | SPrim p => if is_scalar p then buf (tx "encode_" ++ word p) [[W w_]; name ++ get_] else encode_of false t' (name ++ get_)
      | _ => encode_of false t' (name ++ get_)
      end
  | STuple ts =>
      let encode := terminated semi ((fix go (i : nat) (l : list sty) : list (list rt) :=
        match l with [] => [] | t :: l' => encode_of false t (member name i) :: go (S i) l' end) 0%nat ts) in
      if root then
        buf (tx "encode_tuple")
          [[W w_]; clos [] (separated plus ((fix go (i : nat) (l : list sty) : list (list rt) :=
                     match l with [] => [] | t :: l' => size_of t (member name i) :: go (S i) l' end) 0%nat ts));
           clos [w_] encode]
      else encode
  | SArray t _ => buf (tx "encode_array") [[W w_]; name; clos [v_] (size_of t [W v_]); clos [w_; v_] (stmt t v_)]
  | SExternal _ _ _ => name ++ [dot; w "encode"; G Par [W w_]]
  end.

(** * decode.rs L202-309 [compile_data_type] *)
Definition box_str_dec : list rt := Eval vm_compute in q "Box::<str>::decode(r)".
Definition box_u8_dec : list rt := Eval vm_compute in q "Box::<[u8]>::decode(r)".
Definition ok_ : list rt := Eval vm_compute in q "Ok::<_, ::mabo::buf::Error>".
Definition decode_call (f : str) (args : list (list rt)) : list rt := buf (tx "decode_" ++ f) ([W r_] :: args).
Fixpoint decode_of (root : bool) (t : sty) {struct t} : list rt :=
  let f t := clos [r_] (decode_of false t) in
  match t with
  | SPrim PrBoxString => box_str_dec
  | SPrim PrBoxBytes => box_u8_dec
  | SPrim p => decode_call (word p) []
  | SVec t => decode_call (tx "vec") [f t]
  | SHashMap k v => decode_call (tx "hash_map") [f k; f v]
  | SHashSet t => decode_call (tx "hash_set") [f t]
  | SOption t => decode_call (tx "option") [f t]
  | SNonZero (SPrim p) => decode_call (tx "non_zero_" ++ word p) []
  | SNonZero (SVec t) => decode_call (tx "non_zero_vec") [f t]
  | SNonZero (SHashMap k v) => decode_call (tx "non_zero_hash_map") [f k; f v]
  | SNonZero (SHashSet t) => decode_call (tx "non_zero_hash_set") [f t]
  | SNonZero _ => []
  | STuple ts =>
      [G Brc ((if root then decode_call (tx "u64") [] ++ [quest; semi] else [])
              ++ ok_ ++ [G Par [G Par (terminated comma (map (fun t => decode_of false t ++ [quest]) ts))]])]
  | SArray t _ => decode_call (tx "array") [f t]
  | SExternal path name gs =>
      path_to path ++ W name :: (if gs then [] else sep2 :: angle (terminated comma (map data_ty gs)))
      ++ [sep2; w "decode"; G Par [W r_]]
  end.

(** * The functions *)
(** encode.rs L16-24, L106-109, size.rs L17-25: the names of the fields as a pattern. *)
Definition names_of (fs : sfields) : list rt :=
  let l := terminated comma (map (fun f => [W (sf_name f)]) (ss_fields fs)) in
  match ss_kind fs with SKNamed => [G Brc l] | SKUnnamed => [G Par l] | SKUnit => [] end.
(** encode.rs, decode.rs, size.rs [compile_generics]: the parameters and their bounds. *)
Definition params_of (g : list str) : list rt := if g then [] else angle (terminated comma (map (fun n => [W n]) g)).
Definition where_of (bound : list rt) (g : list str) : list rt :=
  if g then [] else w "where" :: terminated comma (map (fun n => W n :: colon :: bound) g).
Definition derived : list rt := Eval vm_compute in q "#[automatically_derived]".
(** [#[automatically_derived] impl<..> trait for name<..> where .. { attr fn .. }]. *)
Definition impl_of (trait : list rt) (name : str) (g : list str) (bound attr fn : list rt) : list rt :=
  derived ++ w "impl" :: params_of g ++ trait ++ w "for" :: W name :: params_of g ++ where_of bound g ++ [G Brc (attr ++ fn)].

(** encode.rs L119-132. *)
Definition encode_field (f : sfield) : list rt :=
  let id t := mabo_ ++ [w "FieldId"; sep2; w "new"; G Par (num (sf_id f) :: comma :: class_of t)] in
  match sf_ty f with
  | SOption t => buf (tx "encode_field_option") [[W w_]; id t; [W (sf_name f)]; clos [w_; v_] (encode_of true t [W v_] ++ [semi])] ++ [semi]
  | t => buf (tx "encode_field") [[W w_]; id t; clos [w_] (encode_of true t [W (sf_name f)] ++ [semi])] ++ [semi]
  end.
Definition end_marker : list rt := Eval vm_compute in q "::mabo::buf::END_MARKER".
(** encode.rs L115-139 [compile_fields]. *)
Definition encode_fields (fs : sfields) : list rt :=
  match ss_kind fs with
  | SKUnit => []
  | _ => flat_map encode_field (ss_fields fs) ++ buf (tx "encode_u32") [[W w_]; end_marker] ++ [semi]
  end.
Definition encode_bound : list rt := Eval vm_compute in q "::mabo::buf::Encode + ::mabo::buf::Size".
Definition attr_struct : list rt := Eval vm_compute in
  q "#[allow(clippy::borrow_deref_ref, clippy::deref_addrof, clippy::explicit_auto_deref, clippy::needless_borrow, clippy::too_many_lines,)]".
Definition attr_enum : list rt := Eval vm_compute in
  q "#[allow(clippy::borrow_deref_ref, clippy::deref_addrof, clippy::semicolon_if_nothing_returned, clippy::too_many_lines,)]".
Definition encode_sig : list rt := Eval vm_compute in q "fn encode(&self, w: &mut impl ::mabo::BufMut)".
Definition encode_trait : list rt := Eval vm_compute in q "::mabo::Encode".
Definition let_self (fs : sfields) : list rt := w "let" :: w "Self" :: names_of fs ++ [equals; w "self"; semi].
(** encode.rs L7-46 [compile_struct]. *)
Definition encode_struct (name : str) (g : list str) (fs : sfields) : list rt :=
  impl_of encode_trait name g encode_bound attr_struct (encode_sig ++ [G Brc (let_self fs ++ encode_fields fs)]).
(** encode.rs L79-113 [compile_variant]. *)
Definition encode_variant (v : svariant) : list rt :=
  let id := mabo_ ++ [w "VariantId"; sep2; w "new"; G Par [num (sv_id v)]] in
  w "Self" :: sep2 :: W (sv_name v) :: names_of (sv_fields v)
  ++ [fat; G Brc (buf (tx "encode_variant_id") [[W w_]; id] ++ semi :: encode_fields (sv_fields v))].
(** encode.rs L48-77 [compile_enum]. *)
Definition match_self (l : list (list rt)) : list rt := [w "match"; w "self"; G Brc (terminated comma l)].
Definition encode_enum (name : str) (g : list str) (vs : list svariant) : list rt :=
  impl_of encode_trait name g encode_bound attr_enum (encode_sig ++ [G Brc (match_self (map encode_variant vs))]).

(** decode.rs L119-136 [compile_field_vars]. *)
Definition decode_var (f : sfield) : list rt :=
  w "let" :: w "mut" :: W (sf_name f) :: colon
  :: (match sf_ty f with SOption _ => data_ty (sf_ty f) | t => w "Option" :: angle (data_ty t) end) ++ [equals; w "None"; semi].
(** decode.rs L138-148 [compile_field_matches]. *)
Definition decode_match (f : sfield) : list rt :=
  num (sf_id f) :: fat :: W (sf_name f) :: equals :: w "Some" ::
  [G Par (decode_of true (match sf_ty f with SOption t => t | t => t end) ++ [quest])].
(** [Literal::string] of a name; names need no escapes. *)
Definition name_lit (n : str) : rt := Q (34 :: n ++ [34]).
Definition missing : list rt := Eval vm_compute in q "::mabo::buf::Error::MissingField".
(** decode.rs L150-185 [compile_field_assigns]. *)
Definition decode_assign (named : bool) (f : sfield) : list rt :=
  let lit := if named then w "Some" :: [G Par [name_lit (sf_name f)]] else [w "None"] in
  let ok := W (sf_name f) :: dot :: w "ok_or"
            :: [G Par (missing ++ [G Brc (terminated comma [[w "id"; colon; num (sf_id f)]; w "name" :: colon :: lit])]); quest] in
  match sf_ty f with
  | SOption _ => [W (sf_name f)]
  | _ => if named then W (sf_name f) :: colon :: ok else ok
  end.
Definition decode_assigns (fs : sfields) : list rt :=
  match ss_kind fs with
  | SKNamed => [G Brc (terminated comma (map (decode_assign true) (ss_fields fs)))]
  | _ => [G Par (terminated comma (map (decode_assign false) (ss_fields fs)))]
  end.
Definition let_id : list rt := Eval vm_compute in q "let id = ::mabo::buf::decode_id(r)?;".
Definition id_value : list rt := Eval vm_compute in q "match id.value".
Definition end_arm : list rt := Eval vm_compute in q "::mabo::buf::END_MARKER => break".
Definition skip_arm : list rt := Eval vm_compute in q "_ => ::mabo::buf::decode_skip(r, id.encoding)?".
(** decode.rs L24-41, L96-115. *)
Definition decode_body (self : list rt) (fs : sfields) : list rt :=
  match ss_kind fs with
  | SKUnit => [w "Ok"; G Par self]
  | _ =>
      flat_map decode_var (ss_fields fs)
      ++ [w "loop"; G Brc (let_id ++ id_value ++ [G Brc (terminated comma (end_arm :: map decode_match (ss_fields fs) ++ [skip_arm]))])]
      ++ [w "Ok"; G Par (self ++ decode_assigns fs)]
  end.
Definition decode_bound : list rt := Eval vm_compute in q "::std::fmt::Debug + ::mabo::buf::Decode".
Definition decode_trait : list rt := Eval vm_compute in q "::mabo::Decode".
Definition decode_sig : list rt := Eval vm_compute in q "fn decode(r: &mut impl ::mabo::Buf) -> ::mabo::buf::Result<Self>".
Definition attr_dec_struct : list rt := Eval vm_compute in q "#[allow(clippy::type_complexity, clippy::too_many_lines)]".
Definition attr_dec_enum : list rt := Eval vm_compute in q "#[allow(clippy::too_many_lines)]".
(** decode.rs L9-52 [compile_struct]. *)
Definition decode_struct (name : str) (g : list str) (fs : sfields) : list rt :=
  impl_of decode_trait name g decode_bound attr_dec_struct (decode_sig ++ [G Brc (decode_body [w "Self"] fs)]).
(** decode.rs L81-117 [compile_variant]. *)
Definition decode_variant (v : svariant) : list rt :=
  let self := [w "Self"; sep2; W (sv_name v)] in
  num (sv_id v) :: fat ::
  match ss_kind (sv_fields v) with
  | SKUnit => decode_body self (sv_fields v)
  | _ => [G Brc (decode_body self (sv_fields v))]
  end.
Definition variant_scrut : list rt := Eval vm_compute in q "match ::mabo::buf::decode_variant_id(r)?.value".
Definition variant_arm : list rt := Eval vm_compute in q "id => Err(::mabo::buf::Error::UnknownVariant(id))".
(** decode.rs L54-79 [compile_enum]. *)
Definition decode_enum (name : str) (g : list str) (vs : list svariant) : list rt :=
  impl_of decode_trait name g decode_bound attr_dec_enum
    (decode_sig ++ [G Brc (variant_scrut ++ [G Brc (terminated comma (map decode_variant vs ++ [variant_arm]))])]).

(** size.rs L52-65, L148-161. *)
Definition size_field (f : sfield) : list rt :=
  match sf_ty f with
  | SOption t => buf (tx "size_field_option") [[num (sf_id f)]; W (sf_name f) :: as_ref_; clos [v_] (size_of t [W v_])]
  | t => buf (tx "size_field") [[num (sf_id f)]; clos [] (size_of t [W (sf_name f)])]
  end.
Definition end_size : list rt := Eval vm_compute in q "::mabo::buf::END_MARKER_SIZE".
(** size.rs L48-72 [compile_struct_fields], L144-168 [compile_variant_fields]. *)
Definition size_fields (fs : sfields) : list rt :=
  match ss_kind fs with
  | SKUnit => [num 0]
  | _ => terminated plus (map size_field (ss_fields fs)) ++ end_size
  end.
Definition size_bound : list rt := Eval vm_compute in q "::mabo::buf::Size".
Definition size_sig : list rt := Eval vm_compute in q "fn size(&self) -> usize".
(** size.rs L8-46 [compile_struct]. *)
Definition size_struct (name : str) (g : list str) (fs : sfields) : list rt :=
  impl_of size_bound name g size_bound attr_struct (size_sig ++ [G Brc (let_self fs ++ size_fields fs)]).
(** size.rs L105-142 [compile_variant]. *)
Definition size_variant (v : svariant) : list rt :=
  let id := buf (tx "size_variant_id") [[num (sv_id v)]] in
  w "Self" :: sep2 :: W (sv_name v) :: names_of (sv_fields v)
  ++ [fat; G Brc (match ss_kind (sv_fields v) with SKUnit => id | _ => id ++ plus :: size_fields (sv_fields v) end)].
(** size.rs L74-103 [compile_enum]. *)
Definition size_enum (name : str) (g : list str) (vs : list svariant) : list rt :=
  impl_of size_bound name g size_bound attr_enum (size_sig ++ [G Brc (match_self (map size_variant vs))]).

(** * definition.rs: the items *)
Context {F : Type}.
(** [Literal::f64_unsuffixed]: the text of a float. *)
Variable float_text : F -> str.
(** The characters [char::escape_debug] writes as [\u{..}]. *)
Variable unprintable : N -> bool.
(** [Literal::string] (proc_macro2, fallback.rs: [escape_debug], but for the single quote; a NUL in front of an octal digit is written in full). *)
Definition nul (r : list N) : str := match r with d :: _ => if (48 <=? d) && (d <=? 55) then tx "\x00" else tx "\0" | [] => tx "\0" end.
Definition string_char (c : N) : str :=
  if c =? 9 then [92; 116]
  else if c =? 10 then [92; 110]
  else if c =? 13 then [92; 114]
  else if (c =? 34) || (c =? 92) then [92; c]
  else if unprintable c then tx "\u{" ++ hex_str c ++ tx "}"
  else [c].
Fixpoint with_nul (f : N -> str) (s : list N) : str :=
  match s with [] => [] | c :: r => (if c =? 0 then nul r else f c) ++ with_nul f r end.
Definition string_text (s : str) : str := 34 :: with_nul string_char s ++ [34].
(** [Literal::byte_string]: everything but the printable ASCII characters as [\x..]. *)
Definition hex_upper (n : N) : N := if n <? 10 then 48 + n else 55 + n.
Definition byte_char (c : N) : str :=
  if c =? 9 then [92; 116]
  else if c =? 10 then [92; 110]
  else if c =? 13 then [92; 114]
  else if (c =? 34) || (c =? 92) then [92; c]
  else if (32 <=? c) && (c <=? 126) then [c]
  else [92; 120; hex_upper (c / 16); hex_upper (c mod 16)].
Definition bytes_text (b : list N) : str := 98 :: 34 :: with_nul byte_char b ++ [34].

(** L215-218 [compile_comment]. *)
Definition doc_of (c : comment) : list rt := flat_map (fun l => [hash; G Brk [w "doc"; equals; Q (string_text (32 :: l))]]) c.
Definition attr_derive : list rt := Eval vm_compute in q "#[derive(Clone, Debug, PartialEq)]".
Definition attr_item : list rt := Eval vm_compute in q "#[allow(dead_code, clippy::module_name_repetitions, clippy::option_option)]".
Definition attr_const : list rt := Eval vm_compute in q "#[allow(dead_code)]".
Definition attr_use : list rt := Eval vm_compute in q "#[allow(unused_imports)]".
(** L227-257 [compile_fields]. *)
Definition fields_of (for_struct : bool) (fs : sfields) : list rt :=
  let vis := if for_struct then [w "pub"] else [] in
  match ss_kind fs with
  | SKNamed => [G Brc (terminated comma (map (fun f => doc_of (sf_comment f) ++ vis ++ W (sf_name f) :: colon :: data_ty (sf_ty f)) (ss_fields fs)))]
  | SKUnnamed => [G Par (terminated comma (map (fun f => vis ++ data_ty (sf_ty f)) (ss_fields fs)))]
  | SKUnit => []
  end.
(** L80-103 [compile_struct]. *)
Definition struct_item (c : comment) (n : str) (g : list str) (fs : sfields) : list rt :=
  doc_of c ++ attr_derive ++ attr_item ++ w "pub" :: w "struct" :: W n :: params_of g ++ fields_of true fs
  ++ match ss_kind fs with SKNamed => [] | _ => [semi] end.
(** L130-148 [compile_variant]. *)
Definition variant_item (v : svariant) : list rt := doc_of (sv_comment v) ++ W (sv_name v) :: fields_of false (sv_fields v).
(** L105-128 [compile_enum]. *)
Definition enum_item (c : comment) (n : str) (g : list str) (vs : list svariant) : list rt :=
  doc_of c ++ attr_derive ++ attr_item ++ w "pub" :: w "enum" :: W n :: params_of g ++ [G Brc (terminated comma (map variant_item vs))].
(** L150-171 [compile_alias]. *)
Definition alias_item (c : comment) (n : str) (g : list str) (t : sty) : list rt :=
  doc_of c ++ attr_item ++ w "pub" :: w "type" :: W n :: params_of g ++ equals :: data_ty t ++ [semi].
Definition ref_str : list rt := Eval vm_compute in q "&str".
Definition ref_u8 : list rt := Eval vm_compute in q "&[u8]".
(** L353-376 [compile_const_data_type]. *)
Definition const_ty (t : sty) : list rt :=
  match t with
  | SPrim (PrString | PrStringRef) => ref_str
  | SPrim (PrBytes | PrBytesRef) => ref_u8
  | SPrim (PrBoxString | PrBoxBytes) => []
  | SPrim p => [W (word p)]
  | _ => []
  end.
(** L378-386 [compile_literal]. *)
Definition literal_of (v : lit F) : list rt :=
  match v with
  | LBool b => [if b then w "true" else w "false"]
  | LInt z => if (z <? 0)%Z then [minus; num (Z.to_N (- z))] else [num (Z.to_N z)]
  | LFloat f => match read (float_text f) with Some l => l | None => [] end
  | LString s => [Q (string_text s)]
  | LBytes b => [Q (bytes_text b)]
  end.
(** L173-193 [compile_const]. *)
Definition const_item (c : comment) (n : str) (t : sty) (v : lit F) : list rt :=
  doc_of c ++ attr_const ++ w "pub" :: w "const" :: W n :: colon :: const_ty t ++ equals :: literal_of v ++ [semi].
(** L195-213 [compile_import]. *)
Definition import_item (segs : list str) (e : option str) : list rt :=
  attr_use ++ w "use" :: w "super" :: sep2 :: separated sep2 (map (fun s => [W s]) segs)
  ++ match e with Some n => [sep2; W n] | None => [] end ++ [semi].
Definition prelude : list rt := Eval vm_compute in q "#[allow(unused_imports)] use ::mabo::buf::{Decode, Encode, Size};".
(** L24-57 [compile_definition], L58-78 [compile_module]. *)
Fixpoint def_tokens (d : sdef F) : list rt :=
  match d with
  | SModule c n ds => doc_of c ++ w "pub" :: w "mod" :: W n :: [G Brc (prelude ++ flat_map def_tokens ds)]
  | SStruct c n g fs => struct_item c n g fs ++ encode_struct n g fs ++ decode_struct n g fs ++ size_struct n g fs
  | SEnum c n g vs => enum_item c n g vs ++ encode_enum n g vs ++ decode_enum n g vs ++ size_enum n g vs
  | SAlias c n g t => alias_item c n g t
  | SConst c n t v => const_item c n t v
  | SImport segs e => import_item segs e
  end.
(** L13-22 [compile_schema]. *)
Definition schema_tokens (ds : list (sdef F)) : list rt := prelude ++ flat_map def_tokens ds.
End Emit.
