(** Which schemas the generated Rust code type checks for: a condition on the schema, without
    reference to the code. *)
From Verif Require Import Base Varint Wire Codec RustCode.
Local Open Scope N_scope.

(** Types that can be hashed and compared for equality in Rust.  Floats, maps, sets and
    [mabo::NonZero] cannot; the generated structs and enums only derive [PartialEq], and a type
    parameter is never known to. *)
Fixpoint hashable (t : ty) : bool :=
  match t with
  | TBool | TU8 | TI8 | TUInt _ | TSInt _ => true
  | TString | TStringRef | TBoxString | TBytes | TBytesRef | TBoxBytes => true
  | TVec t' | TOption t' | TArray t' _ => hashable t'
  | TTuple ts => forallb hashable ts
  | TNonZero (TU8 | TI8 | TUInt _ | TSInt _) => true
  | _ => false
  end.

Section WithBytes.
Variable bt : bytes_type.

(** Types the runtime implements [Encode], [Decode] and [Size] for, so that they can be passed
    as type arguments: no tuples, no [non_zero] types, no [bytes::Bytes]. *)
Fixpoint portable (t : ty) : bool :=
  match t with
  | TBytes | TBytesRef => match bt with BVecU8 => true | BBytes => false end
  | TVec t' | TOption t' | TArray t' _ => portable t'
  | TSet t' => hashable t' && portable t'
  | TMap k v => hashable k && portable k && portable v
  | TExt _ args => forallb portable args
  | TTuple _ | TNonZero _ | TGen _ => false
  | _ => true
  end.

(** [fits d t]: the type may be used below [d] directly enclosing tuples.
    - an option or a [non_zero] integer may not be an element of a tuple;
    - a tuple inside a tuple may not contain numbers, booleans or other definitions;
    - map keys and set elements are hashable; type arguments are portable;
    - [box<bytes>] works with [Vec<u8>] only;
    - tuples have 2 to 12 elements, and [non_zero] is applied to a number, [string], [bytes] or
      a collection. *)
Fixpoint fits (d : nat) (t : ty) {struct t} : bool :=
  match t with
  | TBool | TU8 | TI8 | TUInt _ | TSInt _ | TF32 | TF64 => (d <? 2)%nat
  | TString | TStringRef | TBoxString | TBytes | TBytesRef => true
  | TBoxBytes => match bt with BVecU8 => true | BBytes => false end
  | TVec t' | TArray t' _ => fits 0 t'
  | TSet t' => hashable t' && fits 0 t'
  | TMap k v => hashable k && fits 0 k && fits 0 v
  | TOption t' => (d =? 0)%nat && fits 0 t'
  | TNonZero t' =>
      match t' with
      | TU8 | TI8 | TUInt _ | TSInt _ => (d =? 0)%nat
      | TString | TStringRef | TBytes | TBytesRef => true
      | TVec t'' => fits 0 t''
      | TSet t'' => hashable t'' && fits 0 t''
      | TMap k v => hashable k && fits 0 k && fits 0 v
      | _ => false
      end
  | TTuple ts => ((2 <=? length ts) && (length ts <=? 12))%nat && forallb (fits (S d)) ts
  | TExt _ args => (d <? 2)%nat && forallb portable args
  | TParam _ => (d <? 2)%nat
  | TGen _ => false
  end.

(** The names the generated functions use themselves: [w], [r] and [id]. *)
Definition reserved : list ident := [x_w; x_r; x_id].
Definition fits_fields (fs : fields) : Prop :=
  fs_kind fs <> KUnit ->
  NoDup (map f_name (fs_list fs))
  /\ (forall f, In f (fs_list fs) -> ~ In (f_name f) reserved)
  /\ (forall f, In f (fs_list fs) -> fits 0 (f_ty f) = true).
Definition fits_def (d : def) : Prop :=
  match d with
  | DStruct fs => fits_fields fs
  | DEnum vs => forall v, In v vs -> fits_fields (v_fields v)
  end.
End WithBytes.

(** Field types as written in a schema: nothing is instantiated yet. *)
Fixpoint no_gen (t : ty) : bool :=
  match t with
  | TGen _ => false
  | TVec t' | TSet t' | TOption t' | TNonZero t' | TArray t' _ => no_gen t'
  | TMap k v => no_gen k && no_gen v
  | TTuple ts | TExt _ ts => forallb no_gen ts
  | _ => true
  end.
