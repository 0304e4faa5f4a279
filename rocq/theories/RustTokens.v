(** The items of the generated Rust code as tokens (crates/mabo-build/src/definition.rs), and the part of syn that reads them back
    (crates/mabo-build/src/lib.rs L199-209: [syn::parse2] of the generated tokens, [Error::InvalidCode] if it fails).

    Simplifications: the [impl] blocks of encode.rs, decode.rs and size.rs are left out (all names in them are names of the item they belong
    to, and every name that is refused anywhere is refused in the item already); the contents of attributes are not looked at. *)
From Verif Require Import Base Syntax Parser Compiler Const Tools.
Require Coq.Strings.String.
Import Coq.Strings.String.StringSyntax.
Local Open Scope N_scope.

(** proc_macro2's token trees; [PnPathSep] are the two joint colons, [PnOther] is any punctuation that occurs in no item but [impl]. *)
Inductive pn := PnComma | PnSemi | PnColon | PnPathSep | PnLt | PnGt | PnEq | PnHash | PnAmp | PnMinus | PnOther.
Inductive delim := Paren | Bracket | Brace.
Inductive tt := TId (n : str) | TP (p : pn) | TLit | TG (d : delim) (l : list tt).
Definition tid (s : String.string) : tt := TId (tx s).
Arguments tid s%string_scope.

(** * Emission *)
Section Emit.
(** [Opts::bytes_type] is [BytesType::Bytes]. *)
Variable bytes_crate : bool.

Definition angle (l : list tt) : list tt := TP PnLt :: l ++ [TP PnGt].
Definition commas {A} (f : A -> list tt) (l : list A) : list tt := flat_map (fun a => f a ++ [TP PnComma]) l.
Definition vec_u8 : list tt := tid "Vec" :: angle [tid "u8"].
Definition bytes_ty : list tt := [TP PnPathSep; tid "mabo"; TP PnPathSep; tid "buf"; TP PnPathSep; tid "Bytes"].
Definition std (m n : String.string) : list tt := [TP PnPathSep; tid "std"; TP PnPathSep; tid m; TP PnPathSep; tid n].
Arguments std (m n)%string_scope.
Definition mabo (n : String.string) : list tt := [TP PnPathSep; tid "mabo"; TP PnPathSep; tid n].
Arguments mabo n%string_scope.

(** definition.rs L259-351 [compile_data_type]; the [todo!] of L326 is excluded by [def_type_ok]. *)
Definition emit_prim (p : prim) : list tt :=
  match p with
  | PrBool => [tid "bool"]
  | PrU8 => [tid "u8"] | PrU16 => [tid "u16"] | PrU32 => [tid "u32"] | PrU64 => [tid "u64"] | PrU128 => [tid "u128"]
  | PrI8 => [tid "i8"] | PrI16 => [tid "i16"] | PrI32 => [tid "i32"] | PrI64 => [tid "i64"] | PrI128 => [tid "i128"]
  | PrF32 => [tid "f32"] | PrF64 => [tid "f64"]
  | PrString | PrStringRef => [tid "String"]
  | PrBytes | PrBytesRef => if bytes_crate then bytes_ty else vec_u8
  | PrBoxString => tid "Box" :: angle [tid "str"]
  | PrBoxBytes => tid "Box" :: angle [TG Bracket [tid "u8"]]
  end.
(** L293-314. *)
Definition emit_nz_prim (p : prim) : list tt :=
  match p with
  | PrU8 => std "num" "NonZeroU8" | PrU16 => std "num" "NonZeroU16" | PrU32 => std "num" "NonZeroU32"
  | PrU64 => std "num" "NonZeroU64" | PrU128 => std "num" "NonZeroU128"
  | PrI8 => std "num" "NonZeroI8" | PrI16 => std "num" "NonZeroI16" | PrI32 => std "num" "NonZeroI32"
  | PrI64 => std "num" "NonZeroI64" | PrI128 => std "num" "NonZeroI128"
  | PrString | PrStringRef => mabo "NonZeroString"
  | PrBytes | PrBytesRef => if bytes_crate then mabo "NonZero" ++ angle bytes_ty else mabo "NonZeroBytes"
  | _ => []
  end.
Fixpoint emit_ty (t : sty) : list tt :=
  match t with
  | SPrim p => emit_prim p
  | SVec t => tid "Vec" :: angle (emit_ty t)
  | SHashMap k v => std "collections" "HashMap" ++ angle (emit_ty k ++ TP PnComma :: emit_ty v)
  | SHashSet t => std "collections" "HashSet" ++ angle (emit_ty t)
  | SOption t => tid "Option" :: angle (emit_ty t)
  | SNonZero (SPrim p) => emit_nz_prim p
  | SNonZero (SVec t) => mabo "NonZeroVec" ++ angle (emit_ty t)
  | SNonZero (SHashMap k v) => mabo "NonZeroHashMap" ++ angle (emit_ty k ++ TP PnComma :: emit_ty v)
  | SNonZero (SHashSet t) => mabo "NonZeroHashSet" ++ angle (emit_ty t)
  | SNonZero _ => []
  | STuple ts => [TG Paren (commas emit_ty ts)]
  | SArray t _ => [TG Bracket (emit_ty t ++ [TP PnSemi; TLit])]
  | SExternal path name gs =>
      flat_map (fun s => [TId s; TP PnPathSep]) path ++ TId name :: (if gs then [] else angle (commas emit_ty gs))
  end.

(** L215-218 [compile_comment]: one [#[doc = "..."]] for each line. *)
Definition emit_comment (c : comment) : list tt := flat_map (fun _ => [TP PnHash; TG Bracket [tid "doc"; TP PnEq; TLit]]) c.
(** The [#[allow(..)]] and [#[derive(..)]] in front of items. *)
Definition attr_allow : list tt := [TP PnHash; TG Bracket [tid "allow"; TG Paren [tid "dead_code"]]].
Definition attr_derive : list tt := [TP PnHash; TG Bracket [tid "derive"; TG Paren [tid "Clone"; TP PnComma; tid "Debug"; TP PnComma; tid "PartialEq"]]].
(** L220-225 [compile_generics]. *)
Definition emit_generics (g : list str) : list tt := if g then [] else angle (commas (fun n => [TId n]) g).
(** L227-257 [compile_fields]. *)
Definition emit_fields (for_struct : bool) (fs : sfields) : list tt :=
  let vis := if for_struct then [tid "pub"] else [] in
  match ss_kind fs with
  | SKNamed => [TG Brace (commas (fun f => emit_comment (sf_comment f) ++ vis ++ TId (sf_name f) :: TP PnColon :: emit_ty (sf_ty f)) (ss_fields fs))]
  | SKUnnamed => [TG Paren (commas (fun f => vis ++ emit_ty (sf_ty f)) (ss_fields fs))]
  | SKUnit => []
  end.
(** L130-148 [compile_variant]. *)
Definition emit_variant (v : svariant) : list tt := emit_comment (sv_comment v) ++ TId (sv_name v) :: emit_fields false (sv_fields v).

Context {F : Type}.
(** L355-376 [compile_const_data_type]; its panic is excluded by [const_type_ok]. *)
Definition emit_const_ty (t : sty) : list tt :=
  match t with
  | SPrim (PrString | PrStringRef) => [TP PnAmp; tid "str"]
  | SPrim (PrBytes | PrBytesRef) => [TP PnAmp; TG Bracket [tid "u8"]]
  | SPrim p => emit_prim p
  | _ => []
  end.
(** L378-386 [compile_literal]; a negative number is a minus sign and a number. *)
Definition emit_lit (v : lit F) : list tt :=
  match v with
  | LBool b => [if b then tid "true" else tid "false"]
  | LInt z => if (z <? 0)%Z then [TP PnMinus; TLit] else [TLit]
  | LFloat _ | LString _ | LBytes _ => [TLit]
  end.
(** L14-21, L69-76: the imports of every module. *)
Definition emit_prelude : list tt :=
  [TP PnHash; TG Bracket [tid "allow"; TG Paren [tid "unused_imports"]]; tid "use"; TP PnPathSep; tid "mabo"; TP PnPathSep; tid "buf"; TP PnPathSep;
   TG Brace [tid "Decode"; TP PnComma; tid "Encode"; TP PnComma; tid "Size"]; TP PnSemi].
Fixpoint path_tail (l : list str) : list tt := match l with [] => [] | s :: l' => TP PnPathSep :: TId s :: path_tail l' end.
(** L24-57 [compile_definition] and the functions it calls: L58-78, L80-103, L105-128, L150-171, L173-193, L195-213. *)
Fixpoint emit_def (d : sdef F) : list tt :=
  match d with
  | SModule c n ds => emit_comment c ++ tid "pub" :: tid "mod" :: TId n :: [TG Brace (emit_prelude ++ flat_map emit_def ds)]
  | SStruct c n g fs =>
      emit_comment c ++ attr_derive ++ attr_allow ++ tid "pub" :: tid "struct" :: TId n :: emit_generics g ++ emit_fields true fs
      ++ (match ss_kind fs with SKNamed => [] | _ => [TP PnSemi] end)
  | SEnum c n g vs =>
      emit_comment c ++ attr_derive ++ attr_allow ++ tid "pub" :: tid "enum" :: TId n :: emit_generics g ++ [TG Brace (commas emit_variant vs)]
  | SAlias c n g t => emit_comment c ++ attr_allow ++ tid "pub" :: tid "type" :: TId n :: emit_generics g ++ TP PnEq :: emit_ty t ++ [TP PnSemi]
  | SConst c n t v => emit_comment c ++ attr_allow ++ tid "pub" :: tid "const" :: TId n :: TP PnColon :: emit_const_ty t ++ TP PnEq :: emit_lit v ++ [TP PnSemi]
  | SImport segs e =>
      TP PnHash :: TG Bracket [tid "allow"; TG Paren [tid "unused_imports"]] :: tid "use" :: tid "super" :: path_tail segs
      ++ (match e with Some n => [TP PnPathSep; TId n] | None => [] end) ++ [TP PnSemi]
  end.
(** L13-22 [compile_schema]. *)
Definition emit_schema (o : comment * list (sdef F)) : list tt := emit_prelude ++ flat_map emit_def (snd o).
End Emit.

(** * syn 2.0.117 (Cargo.lock; the crate's source is not in the repository)

    ident.rs: the words that are not identifiers. *)
Definition keywords : list str :=
  [tx "abstract"; tx "as"; tx "async"; tx "await"; tx "become"; tx "box"; tx "break"; tx "const"; tx "continue"; tx "crate"; tx "do"; tx "dyn"; tx "else"; tx "enum"; tx "extern"; tx "false";
   tx "final"; tx "fn"; tx "for"; tx "if"; tx "impl"; tx "in"; tx "let"; tx "loop"; tx "macro"; tx "match"; tx "mod"; tx "move"; tx "mut"; tx "override"; tx "priv"; tx "pub"; tx "ref"; tx "return";
   tx "Self"; tx "self"; tx "static"; tx "struct"; tx "super"; tx "trait"; tx "true"; tx "try"; tx "type"; tx "typeof"; tx "unsafe"; tx "unsized"; tx "use"; tx "virtual"; tx "where";
   tx "while"; tx "yield"].
Definition one_of (l : list str) (n : str) : bool := existsb (str_eqb n) l.
Definition is_ident (n : str) : bool := negb (one_of keywords n).
(** item.rs, [ItemMod]: [mod try] is let through. *)
Definition mod_name (n : str) : bool := is_ident n || str_eqb n (tx "try").
(** item.rs, [UseTree]. *)
Definition use_name (n : str) : bool := is_ident n || one_of [tx "self"; tx "super"; tx "crate"; tx "try"] n.
(** path.rs, [PathSegment::parse_helper]: which segments are let through, and which can have arguments.  A path that starts a type
    additionally must not start with [try] (ty.rs, [ambig_ty]; the other keywords start other types, none of which the generator emits, so
    they are refused here: syn would read [dyn::A] as a trait object, but no module is called [dyn]). *)
Definition segment_name (first : bool) (n : str) : bool :=
  is_ident n || one_of (if first then [tx "self"; tx "super"; tx "crate"; tx "Self"] else [tx "self"; tx "super"; tx "crate"; tx "Self"; tx "try"]) n.
Definition takes_args (n : str) : bool := negb (one_of [tx "self"; tx "super"; tx "crate"; tx "try"] n).

Definition semi (ts : list tt) : option (list tt) := match ts with TP PnSemi :: r => Some r | _ => None end.
Definition andthen (o : option (list tt)) (f : list tt -> option (list tt)) : option (list tt) := match o with Some r => f r | None => None end.

(** [Punctuated::parse_terminated]: items separated by commas, up to the end of the group. *)
Fixpoint terminated (n : nat) (p : list tt -> option (list tt)) (ts : list tt) : bool :=
  match n with
  | O => false
  | S n =>
      match ts with
      | [] => true
      | _ => match p ts with
             | Some [] => true
             | Some (TP PnComma :: r) => terminated n p r
             | _ => false
             end
      end
  end.
(** generics.rs, path.rs: items separated by commas, up to [>]. *)
Fixpoint until_gt (n : nat) (p : list tt -> option (list tt)) (ts : list tt) : option (list tt) :=
  match n with
  | O => None
  | S n =>
      match ts with
      | TP PnGt :: r => Some r
      | _ => match p ts with
             | Some (TP PnGt :: r) => Some r
             | Some (TP PnComma :: r) => until_gt n p r
             | _ => None
             end
      end
  end.
(** path.rs [Path::parse_helper].  (Behind [self], [super], [crate] and [try] the arguments are not read; nothing that can follow a path
    begins with [<], so this fails.) *)
Fixpoint p_path (n : nat) (ty : list tt -> option (list tt)) (first : bool) (ts : list tt) : option (list tt) :=
  match n with
  | O => None
  | S n =>
      match ts with
      | TId s :: r =>
          if segment_name first s then
            let more r := match r with TP PnPathSep :: r' => p_path n ty false r' | _ => Some r end in
            match r with
            | TP PnLt :: r' => if takes_args s then andthen (until_gt (S (length r')) ty r') more else None
            | _ => more r
            end
          else None
      | _ => None
      end
  end.
(** ty.rs [ambig_ty]: tuples, arrays, slices, references, paths. *)
Fixpoint p_ty (f : nat) (ts : list tt) : option (list tt) :=
  match f with
  | O => None
  | S f =>
      match ts with
      | TG Paren l :: r => if terminated (S (length l)) (p_ty f) l then Some r else None
      | TG Bracket l :: r => match p_ty f l with Some [] | Some [TP PnSemi; TLit] => Some r | _ => None end
      | TP PnAmp :: r => p_ty f r
      | TP PnPathSep :: r => p_path (S (length r)) (p_ty f) false r
      | TId _ :: _ => p_path (S (length ts)) (p_ty f) true ts
      | _ => None
      end
  end.
(** attr.rs: any number of [#[name ..]]. *)
Fixpoint p_attrs (ts : list tt) : list tt :=
  match ts with
  | TP PnHash :: TG Bracket (TId _ :: _) :: r => p_attrs r
  | _ => ts
  end.
(** restriction.rs: an optional [pub]. *)
Definition p_vis (ts : list tt) : list tt := match ts with TId n :: r => if str_eqb n (tx "pub") then r else ts | _ => ts end.
Definition p_ident (ok : str -> bool) (ts : list tt) : option (list tt) := match ts with TId n :: r => if ok n then Some r else None | _ => None end.
(** generics.rs: parameters without bounds. *)
Definition p_generics (ts : list tt) : option (list tt) :=
  match ts with TP PnLt :: r => until_gt (S (length r)) (p_ident is_ident) r | _ => Some ts end.
(** data.rs: fields with and without names. *)
Definition p_named (ty : list tt -> option (list tt)) (ts : list tt) : option (list tt) :=
  andthen (p_ident is_ident (p_vis (p_attrs ts))) (fun r => match r with TP PnColon :: r' => ty r' | _ => None end).
Definition p_unnamed (ty : list tt -> option (list tt)) (ts : list tt) : option (list tt) := ty (p_vis (p_attrs ts)).
(** data.rs [Variant]. *)
Definition p_variant (ty : list tt -> option (list tt)) (ts : list tt) : option (list tt) :=
  andthen (p_ident is_ident (p_attrs ts)) (fun r =>
  match r with
  | TG Brace l :: r' => if terminated (S (length l)) (p_named ty) l then Some r' else None
  | TG Paren l :: r' => if terminated (S (length l)) (p_unnamed ty) l then Some r' else None
  | _ => Some r
  end).
(** item.rs [UseTree]: names separated by [::], the last one can be a group. *)
Fixpoint p_use (n : nat) (ts : list tt) : option (list tt) :=
  match n with
  | O => None
  | S n =>
      match ts with
      | TId s :: TP PnPathSep :: r => if use_name s then p_use n r else None
      | TId s :: r => if use_name s then Some r else None
      | TG Brace l :: r => if terminated (S (length l)) (p_use n) l then Some r else None
      | _ => None
      end
  end.
(** expr.rs: the values of constants. *)
Definition p_value (ts : list tt) : option (list tt) :=
  match ts with
  | TLit :: r => Some r
  | TP PnMinus :: TLit :: r => Some r
  | TId n :: r => if one_of [tx "true"; tx "false"] n then Some r else None
  | _ => None
  end.
Definition p_struct (ty : list tt -> option (list tt)) (ts : list tt) : option (list tt) :=
  andthen (p_ident is_ident ts) (fun r => andthen (p_generics r) (fun r =>
  match r with
  | TG Brace l :: r' => if terminated (S (length l)) (p_named ty) l then Some r' else None
  | TG Paren l :: r' => if terminated (S (length l)) (p_unnamed ty) l then semi r' else None
  | _ => semi r
  end)).
Definition p_enum (ty : list tt -> option (list tt)) (ts : list tt) : option (list tt) :=
  andthen (p_ident is_ident ts) (fun r => andthen (p_generics r) (fun r =>
  match r with TG Brace l :: r' => if terminated (S (length l)) (p_variant ty) l then Some r' else None | _ => None end)).
Definition p_alias (ty : list tt -> option (list tt)) (ts : list tt) : option (list tt) :=
  andthen (p_ident is_ident ts) (fun r => andthen (p_generics r) (fun r =>
  match r with TP PnEq :: r' => andthen (ty r') semi | _ => None end)).
Definition p_const (ty : list tt -> option (list tt)) (ts : list tt) : option (list tt) :=
  andthen (p_ident is_ident ts) (fun r =>
  match r with
  | TP PnColon :: r' => andthen (ty r') (fun r => match r with TP PnEq :: r' => andthen (p_value r') semi | _ => None end)
  | _ => None
  end).
Definition p_import (ts : list tt) : option (list tt) :=
  let ts := match ts with TP PnPathSep :: r => r | _ => ts end in andthen (p_use (S (length ts)) ts) semi.
(** item.rs: one item behind its attributes, by its keyword. *)
Definition p_item (ty : list tt -> option (list tt)) (items : list tt -> bool) (ts : list tt) : option (list tt) :=
  match p_vis (p_attrs ts) with
  | TId k :: r =>
      if str_eqb k (tx "mod") then
        andthen (p_ident mod_name r) (fun r => match r with TG Brace l :: r' => if items l then Some r' else None | _ => None end)
      else if str_eqb k (tx "struct") then p_struct ty r
      else if str_eqb k (tx "enum") then p_enum ty r
      else if str_eqb k (tx "type") then p_alias ty r
      else if str_eqb k (tx "const") then p_const ty r
      else if str_eqb k (tx "use") then p_import r
      else None
  | _ => None
  end.
(** Items up to the end. *)
Fixpoint p_repeated (n : nat) (p : list tt -> option (list tt)) (ts : list tt) : bool :=
  match n with
  | O => false
  | S n => match ts with [] => true | _ => match p ts with Some r => p_repeated n p r | None => false end end
  end.
(** file.rs [File], item.rs [ItemMod]: [g] and [f] bound the nesting of types and modules. *)
Fixpoint p_items (g f : nat) (ts : list tt) : bool :=
  match f with
  | O => false
  | S f => p_repeated (S (length ts)) (p_item (p_ty g) (p_items g f)) ts
  end.
Fixpoint tsize (t : tt) : nat := match t with TG _ l => S (list_sum (map tsize l)) | _ => 1 end.
Definition tsizes (l : list tt) : nat := list_sum (map tsize l).
Definition syn_parse2 (ts : list tt) : bool := p_items (S (tsizes ts)) (S (tsizes ts)) ts.

(** * The generator: mabo-build/src/lib.rs L199-209 *)
Section Gen.
Context {F : Type}.
Variable bytes_crate : bool.
(** [f64::is_finite]; [Literal::f64_unsuffixed] asserts it. *)
Variable finite : F -> bool.
(** prettyplease. *)
Variable unparse : list tt -> str.
(** The floats of the constants. *)
Fixpoint floats (d : sdef F) : list F :=
  match d with SModule _ _ ds => flat_map floats ds | SConst _ _ _ (LFloat f) => [f] | _ => [] end.
Definition rust_gen (o : comment * list (sdef F)) : gres :=
  if forallb generates (snd o) && forallb finite (flat_map floats (snd o)) then
    let ts := emit_schema bytes_crate o in if syn_parse2 ts then GCode (unparse ts) else GInvalid
  else GPanic.
End Gen.

(** A schema with all kinds of items goes through, and a field named [type] does not. *)
Example demo : syn_parse2 (emit_schema (F := unit) false ([], [
    SModule [[120]] (tx "m") [SStruct [] (tx "A") [tx "T"] (SFields SKUnnamed [SField [] (tx "n0") (STuple [SPrim PrBytes; SOption (SExternal [] (tx "T") [])]) 1]); SStruct [] (tx "U") [] (SFields SKUnit [])];
    SEnum [[120]] (tx "B") [] [SVariant [[120]] (tx "V") (SFields SKNamed [SField [[120]] (tx "x") (SNonZero (SVec (SArray (SPrim PrBoxBytes) 3))) 1]) 1; SVariant [] (tx "W") (SFields SKUnit []) 2];
    SAlias [] (tx "C") [tx "K"] (SHashMap (SPrim PrBoxString) (SExternal [tx "m"] (tx "A") [SPrim PrU8]));
    SConst [] (tx "D") (SPrim PrI8) (LInt (-1)); SConst [] (tx "E") (SPrim PrBytes) (LBytes [1]); SImport [tx "m"; tx "n"] (Some (tx "O")); SImport [tx "m"] None])) = true
  /\ syn_parse2 (emit_schema (F := unit) false ([], [SStruct [] (tx "A") [] (SFields SKNamed [SField [] (tx "type") (SPrim PrU8) 1])])) = false.
Proof. split; vm_compute; reflexivity. Qed.
