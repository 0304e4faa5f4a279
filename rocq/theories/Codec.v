(** Semantics of the Rust code that crates/mabo-build generates for a schema.

    The generator (crates/mabo-build/src/{encode,size,decode}.rs) emits, for every struct
    and enum, calls into the runtime modelled in [Wire].  The model interprets the
    simplified schema (crates/mabo-compiler/src/simplify.rs) directly: the functions
    below take the type the generator would be given and do what the emitted code does.

    Simplifications:
    - type references are resolved: [TExt i args] is the i-th definition of the
      environment applied to type arguments (Rust's path resolution);
    - type aliases are expanded (a Rust [type] alias is transparent);
    - generics are instantiated: inside a definition [TParam i] is the i-th parameter; the
      emitted code calls the trait method of the argument's type, which is written
      [TGen arg].  The blanket impls of encode.rs L198-352, size.rs L148-295 and
      decode.rs L512-645 forward to the very functions the generator uses for the same
      type in a nested position, so [TGen t] behaves as [t] in nested position;
    - [bytes]-type option: [Vec<u8>] and [bytes::Bytes] have the same wire behaviour. *)
From Verif Require Import Base Varint Wire.
Local Open Scope N_scope.

(** crates/mabo-compiler/src/simplify.rs, [Type] (the schema's data types). *)
Inductive ty :=
| TBool | TU8 | TI8
| TUInt (w : width) | TSInt (w : width)
| TF32 | TF64
| TString | TStringRef | TBoxString
| TBytes | TBytesRef | TBoxBytes
| TVec (t : ty) | TMap (k v : ty) | TSet (t : ty)
| TOption (t : ty) | TNonZero (t : ty)
| TTuple (ts : list ty)
| TArray (t : ty) (n : nat)
| TExt (i : nat) (args : list ty)
| TParam (i : nat)
| TGen (t : ty).

(** simplify.rs [Field], [Fields], [FieldKind], [Variant], [Struct], [Enum]. *)
Record field := Field { f_name : list N; f_id : N; f_ty : ty }.
Inductive fkind := KNamed | KUnnamed | KUnit.
Record fields := Fields { fs_kind : fkind; fs_list : list field }.
Record variant := Variant { v_id : N; v_fields : fields }.
Inductive def := DStruct (fs : fields) | DEnum (vs : list variant).
Definition env := list def.

(** Values of the generated types.  Integers carry a [Z]; floats their bits; strings and
    byte arrays their bytes; vec, set (in iteration order), array and tuple a [VList];
    maps their entries in iteration order; an enum value its variant's index. *)
Inductive val :=
| VBool (b : bool)
| VInt (z : Z)
| VBits (b : N)
| VBytes (l : list N)
| VList (l : list val)
| VMap (l : list (val * val))
| VNone
| VSome (v : val)
| VRec (vs : list val)
| VVar (idx : nat) (vs : list val).

Section ListEqb.
Context {A : Type} (eqb : A -> A -> bool).
Fixpoint list_eqb (x y : list A) {struct x} : bool :=
  match x, y with
  | [], [] => true
  | a :: x', b :: y' => eqb a b && list_eqb x' y'
  | _, _ => false
  end.
End ListEqb.

(** Equality used by [HashMap]/[HashSet] on decoded keys ([derive(PartialEq)]).
    Simplification: a map or set nested inside a key is compared in iteration order
    (neither implements [Hash] in Rust, so it cannot occur inside a key). *)
Fixpoint val_eqb (a b : val) {struct a} : bool :=
  match a, b with
  | VBool x, VBool y => Bool.eqb x y
  | VInt x, VInt y => (x =? y)%Z
  | VBits x, VBits y => x =? y
  | VBytes x, VBytes y => list_eqb N.eqb x y
  | VList x, VList y => list_eqb val_eqb x y
  | VMap x, VMap y =>
      list_eqb (fun p q => val_eqb (fst p) (fst q) && val_eqb (snd p) (snd q)) x y
  | VNone, VNone => true
  | VSome x, VSome y => val_eqb x y
  | VRec x, VRec y => list_eqb val_eqb x y
  | VVar i x, VVar j y => (i =? j)%nat && list_eqb val_eqb x y
  | _, _ => false
  end.

(** Instantiate a definition's parameters. *)
Fixpoint subst (args : list ty) (t : ty) : ty :=
  match t with
  | TVec t => TVec (subst args t)
  | TMap k v => TMap (subst args k) (subst args v)
  | TSet t => TSet (subst args t)
  | TOption t => TOption (subst args t)
  | TNonZero t => TNonZero (subst args t)
  | TTuple ts => TTuple (map (subst args) ts)
  | TArray t n => TArray (subst args t) n
  | TExt i ts => TExt i (map (subst args) ts)
  | TParam i => match nth_error args i with Some a => TGen a | None => TParam i end
  | TGen t => TGen (subst args t)
  | _ => t
  end.

Definition subst_field (args : list ty) (f : field) : field :=
  Field (f_name f) (f_id f) (subst args (f_ty f)).
Definition inst (args : list ty) (fs : fields) : fields :=
  Fields (fs_kind fs) (map (subst_field args) (fs_list fs)).

(** The type whose functions are called after unwrapping [non_zero<..>] (encode.rs
    L270-319: [#name.get()] with the inner type's function) and a generic argument. *)
Fixpoint core (t : ty) : ty :=
  match t with
  | TNonZero t => core t
  | TGen t => core t
  | _ => t
  end.

(** [root] only matters for a tuple that is itself the field's type (encode.rs L317 passes
    [false] below [non_zero], a trait method knows no root). *)
Definition is_tuple (t : ty) : bool := match t with TTuple _ => true | _ => false end.

(** Encoding class written next to the field id: encode.rs L162-354, first component. *)
Definition fenc_of (t : ty) : fenc :=
  match t with
  | TBool | TU8 | TI8 => EFixed1
  | TUInt _ | TSInt _ => EVarint
  | TF32 => EFixed4
  | TF64 => EFixed8
  | TNonZero TU8 | TNonZero TI8 => EFixed1
  | TNonZero (TUInt _) | TNonZero (TSInt _) => EVarint
  | _ => ELengthPrefixed
  end.

Section WithEnv.
Variable E : env.

(** * Size: mabo-build/src/size.rs *)

(** size.rs L48-72 and L144-168: the per-field terms (without the end marker). *)
Section Size.
Variable sz : ty -> val -> N.

Fixpoint size_fields (fs : list field) (vs : list val) {struct vs} : N :=
  match fs, vs with
  | f :: fs', v :: vs' =>
      (match f_ty f with
       | TOption t =>
           match v with
           | VSome x => size_field_option (f_id f) (sz t) (Some x)
           | _ => size_field_option (f_id f) (sz t) None
           end
       | t => size_field (f_id f) (sz t v)
       end) + size_fields fs' vs'
  | _, _ => 0
  end.

(** size.rs L48-72: body of [size()] for a struct, and for a variant without its id. *)
Definition size_body (fs : fields) (vs : list val) : N :=
  match fs_kind fs with
  | KUnit => 0
  | _ => size_fields (fs_list fs) vs + END_MARKER_SIZE
  end.

Fixpoint size_seq (ts : list ty) (vs : list val) {struct vs} : N :=
  match ts, vs with
  | t :: ts', v :: vs' => sz t v + size_seq ts' vs'
  | _, _ => 0
  end.
End Size.

(** size.rs L185-262 [compile_data_type]; L105-142 [compile_variant]. *)
Fixpoint size (t : ty) (v : val) {struct v} : N :=
  match core t, v with
  | TBool, VBool _ => size_bool
  | TU8, VInt _ => size_u8
  | TI8, VInt _ => size_i8
  | TUInt w, VInt z => size_uint w (Z.to_N z)
  | TSInt w, VInt z => size_sint w z
  | TF32, VBits _ => size_f32
  | TF64, VBits _ => size_f64
  | (TString | TStringRef | TBoxString | TBytes | TBytesRef | TBoxBytes), VBytes l =>
      size_bytes l
  | (TVec t' | TSet t' | TArray t' _), VList l => size_vec (size t') l
  | TMap tk tv, VMap l =>
      size_hash_map (size tk) (size tv) l
  | TOption t', VSome x => size_option (size t') (Some x)
  | TOption t', VNone => size_option (size t') None
  | TTuple ts, VList l => size_seq size ts l
  | TExt i args, VRec vs =>
      match nth_error E i with
      | Some (DStruct fs) => size_body size (inst args fs) vs
      | _ => 0
      end
  | TExt i args, VVar idx vs =>
      match nth_error E i with
      | Some (DEnum vars) =>
          match nth_error vars idx with
          | Some var => size_variant_id (v_id var) + size_body size (inst args (v_fields var)) vs
          | None => 0
          end
      | _ => 0
      end
  | _, _ => 0
  end.

(** * Encoding: mabo-build/src/encode.rs *)

(** encode.rs L119-132: one call per field. *)
Section Encode.
Variable enc : bool -> ty -> val -> list N.

Fixpoint encode_fields (fs : list field) (vs : list val) {struct vs}
  : list N :=
  match fs, vs with
  | f :: fs', v :: vs' =>
      (match f_ty f with
       | TOption t =>
           match v with
           | VSome x => encode_field_option (FieldId (f_id f) (fenc_of t)) (enc true t) (Some x)
           | _ => encode_field_option (FieldId (f_id f) (fenc_of t)) (enc true t) None
           end
       | t => encode_field (FieldId (f_id f) (fenc_of t)) (enc true t v)
       end) ++ encode_fields fs' vs'
  | _, _ => []
  end.

(** encode.rs L115-139 [compile_fields]. *)
Definition encode_body (fs : fields) (vs : list val) : list N :=
  match fs_kind fs with
  | KUnit => []
  | _ => encode_fields (fs_list fs) vs ++ encode_u32 END_MARKER
  end.

Fixpoint encode_seq (ts : list ty) (vs : list val) {struct vs} : list N :=
  match ts, vs with
  | t :: ts', v :: vs' => enc false t v ++ encode_seq ts' vs'
  | _, _ => []
  end.
End Encode.

(** encode.rs L156-355 [compile_data_type] (second component), L7-46 [compile_struct],
    L79-113 [compile_variant].  [root] is the flag of the same name. *)
Fixpoint encode (root : bool) (t : ty) (v : val) {struct v} : list N :=
  match core t, v with
  | TBool, VBool b => encode_bool b
  | TU8, VInt z => encode_u8 (Z.to_N z)
  | TI8, VInt z => encode_i8 z
  | TUInt w, VInt z => encode_uint w (Z.to_N z)
  | TSInt w, VInt z => encode_sint w z
  | TF32, VBits b => encode_f32 b
  | TF64, VBits b => encode_f64 b
  | (TString | TStringRef | TBoxString | TBytes | TBytesRef | TBoxBytes), VBytes l =>
      encode_bytes l
  | (TVec t' | TSet t' | TArray t' _), VList l => encode_vec (size t') (encode false t') l
  | TMap tk tv, VMap l =>
      encode_hash_map (size tk) (size tv) (encode false tk) (encode false tv) l
  | TOption t', VSome x => encode_option (encode false t') (Some x)
  | TOption t', VNone => encode_option (encode false t') None
  | TTuple ts, VList l =>
      if root && is_tuple t then encode_tuple (size_seq size ts l) (encode_seq encode ts l)
      else encode_seq encode ts l
  | TExt i args, VRec vs =>
      match nth_error E i with
      | Some (DStruct fs) => encode_body encode (inst args fs) vs
      | _ => []
      end
  | TExt i args, VVar idx vs =>
      match nth_error E i with
      | Some (DEnum vars) =>
          match nth_error vars idx with
          | Some var => encode_variant_id (v_id var) ++ encode_body encode (inst args (v_fields var)) vs
          | None => []
          end
      | _ => []
      end
  | _, _ => []
  end.

(** * Decoding: mabo-build/src/decode.rs *)

Definition dmap {A B} (f : A -> B) (d : dec A) : dec B := fun r =>
  do (x, r') <- d r; Ok (f x, r').

(** decode.rs L119-136: a variable per field; [None] until the field was read. *)
Definition slots := list (option val).

(** First declared field with this id ([match] arms are tried in order). *)
Fixpoint find_field (id : N) (fs : list field) (k : nat) : option (nat * field) :=
  match fs with
  | [] => None
  | f :: fs' => if f_id f =? id then Some (k, f) else find_field id fs' (S k)
  end.

(** [#name = Some(..)]. *)
Fixpoint set_slot (k : nat) (v : val) (s : slots) : slots :=
  match s, k with
  | [], _ => []
  | _ :: s', O => Some v :: s'
  | x :: s', S k' => x :: set_slot k' v s'
  end.

(** decode.rs L142: an optional field decodes its payload as the inner type. *)
Definition payload_ty (t : ty) : ty := match t with TOption t' => t' | _ => t end.

(** decode.rs L30-37 (struct) and L104-111 (variant): the field loop.  Every iteration
    consumes the field id, so [fuel] = number of remaining bytes + 1 suffices (lemma
    [loop_fields_fuel]). *)
Fixpoint loop_fields (d : ty -> dec val) (fs : list field) (fuel : nat) (s : slots)
    (r : list N) : res (slots * list N) :=
  match fuel with
  | O => Diverge
  | S fuel' =>
      do (id, r1) <- decode_id r;
      if fid_value id =? END_MARKER then Ok (s, r1)
      else match find_field (fid_value id) fs 0 with
           | Some (k, f) =>
               do (v, r2) <- d (payload_ty (f_ty f)) r1;
               loop_fields d fs fuel' (set_slot k v s) r2
           | None =>
               do r2 <- decode_skip (fid_enc id) r1;
               loop_fields d fs fuel' s r2
           end
  end.

(** decode.rs L150-185: [compile_field_assigns], evaluated in declaration order. *)
Fixpoint assign (kind : fkind) (fs : list field) (s : slots) : res (list val) :=
  match fs, s with
  | f :: fs', o :: s' =>
      match f_ty f, o with
      | TOption _, None => do vs <- assign kind fs' s'; Ok (VNone :: vs)
      | TOption _, Some v => do vs <- assign kind fs' s'; Ok (VSome v :: vs)
      | _, Some v => do vs <- assign kind fs' s'; Ok (v :: vs)
      | _, None => Err (MissingField (f_id f)
                         (match kind with KNamed => Some (f_name f) | _ => None end))
      end
  | _, _ => Ok []
  end.

(** decode.rs L24-41 and L97-115. *)
Definition decode_body (d : ty -> dec val) (fs : fields) : dec (list val) := fun r =>
  match fs_kind fs with
  | KUnit => Ok ([], r)
  | _ =>
      do (s, r1) <- loop_fields d (fs_list fs) (S (length r)) (map (fun _ => None) (fs_list fs)) r;
      do vs <- assign (fs_kind fs) (fs_list fs) s;
      Ok (vs, r1)
  end.

(** decode.rs L72-75: arms in declaration order. *)
Fixpoint find_variant (id : N) (vars : list variant) (k : nat) : option (nat * variant) :=
  match vars with
  | [] => None
  | v :: vars' => if v_id v =? id then Some (k, v) else find_variant id vars' (S k)
  end.

(** decode.rs L278-286: elements of a tuple in order. *)
Section DecodeSeq.
Variable d : ty -> dec val.
Fixpoint decode_seq (ts : list ty) (r : list N) {struct ts}
  : res (list val * list N) :=
  match ts with
  | [] => Ok ([], r)
  | t :: ts' => do (v, r1) <- d t r; do (vs, r2) <- decode_seq ts' r1; Ok (v :: vs, r2)
  end.
End DecodeSeq.

Definition dVN (x : N) : val := VInt (Z.of_N x).

(** decode.rs L202-309 [compile_data_type]; [ext] decodes a referenced definition
    ([#ty::decode(r)]).  The [Panic] branches stand for types for which the generator itself
    panics ([todo!()]) so that no program exists; the theorems exclude them. *)
Fixpoint dec_ty (ext : nat -> list ty -> dec val) (root : bool) (t : ty) {struct t} : dec val :=
  match t with
  | TBool => dmap VBool decode_bool
  | TU8 => dmap dVN decode_u8
  | TI8 => dmap VInt decode_i8
  | TUInt w => dmap dVN (decode_uint w)
  | TSInt w => dmap VInt (decode_sint w)
  | TF32 => dmap VBits decode_f32
  | TF64 => dmap VBits decode_f64
  | TString | TStringRef | TBoxString => dmap VBytes decode_string
  | TBytes | TBytesRef | TBoxBytes => dmap VBytes decode_bytes
  | TVec t' => dmap VList (decode_vec (dec_ty ext false t'))
  | TMap tk tv => dmap VMap (decode_hash_map val_eqb (dec_ty ext false tk) (dec_ty ext false tv))
  | TSet t' => dmap VList (decode_hash_set val_eqb (dec_ty ext false t'))
  | TOption t' =>
      dmap (fun o => match o with Some v => VSome v | None => VNone end)
           (decode_option (dec_ty ext false t'))
  | TNonZero t' =>
      match t' with
      | TU8 => dmap dVN (decode_non_zero_uint decode_u8)
      | TI8 => dmap VInt (decode_non_zero_sint decode_i8)
      | TUInt w => dmap dVN (decode_non_zero_uint (decode_uint w))
      | TSInt w => dmap VInt (decode_non_zero_sint (decode_sint w))
      | TString | TStringRef => dmap VBytes decode_non_zero_string
      | TBytes | TBytesRef => dmap VBytes decode_non_zero_bytes
      | TVec t'' => dmap VList (decode_non_zero_vec (dec_ty ext false t''))
      | TMap tk tv =>
          dmap VMap (decode_non_zero_hash_map val_eqb (dec_ty ext false tk) (dec_ty ext false tv))
      | TSet t'' => dmap VList (decode_non_zero_hash_set val_eqb (dec_ty ext false t''))
      | _ => fun _ => Panic
      end
  | TTuple ts => fun r =>
      do (_, r1) <- (if root then decode_u64 r else Ok (0, r));
      do (vs, r2) <-
        decode_seq (dec_ty ext false) ts r1;
      Ok (VList vs, r2)
  | TArray t' n => dmap VList (decode_array n (dec_ty ext false t'))
  | TExt i args => ext i args
  | TGen t' => dec_ty ext false t'
  | TParam _ => fun _ => Panic
  end.

(** decode.rs L9-117: [Foo::<args>::decode(r)].  [depth] bounds the nesting of
    definitions; every nested call starts at least one byte later, so the number of
    remaining bytes + 1 suffices (lemma [dec_ext_depth]). *)
Fixpoint dec_ext (depth : nat) (i : nat) (args : list ty) : dec val := fun r =>
  match depth with
  | O => Diverge
  | S depth' =>
      let d := dec_ty (dec_ext depth') true in
      match nth_error E i with
      | Some (DStruct fs) => dmap VRec (decode_body d (inst args fs)) r
      | Some (DEnum vars) =>
          do (id, r1) <- decode_variant_id r;
          match find_variant id vars 0 with
          | Some (k, var) => dmap (VVar k) (decode_body d (inst args (v_fields var))) r1
          | None => Err (UnknownVariant id)
          end
      | None => Panic
      end
  end.

(** Decode a value of type [t] ([root]: as a field's payload) from the whole buffer. *)
Definition decode (root : bool) (t : ty) : dec val := fun r =>
  dec_ty (dec_ext (S (length r))) root t r.
End WithEnv.
