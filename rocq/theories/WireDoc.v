(** The wire format as a relation between values and byte strings, written from the reference
    manual (book/src/reference/wire-format.md) and, where that is silent (floats, structs, enums,
    collections, optional fields), from the format all back ends are meant to share.  It uses only
    the syntax of types and values of [Codec] and the base-128 numbers of [VarintSpec]; none of the
    functions of [Wire] and [Codec] occur in it, except instantiation of generic parameters.

    [book] chooses between the manual and the running code on the three points where they differ:
    arrays and tuples that are fields (the manual: no length), and the encoding class of a field
    whose type is a generic parameter (the manual: the class of the data that follows). *)
From Verif Require Import Base Varint VarintSpec Codec CodecSpec SchemaSpec.
Local Open Scope N_scope.

(** The one base-128 representation of [n] without superfluous bytes. *)
Definition leb_of (n : N) (l : list N) : Prop :=
  leb_framed l = true /\ leb_canonical l = true /\ leb_value l = n.

(** Big-endian numbers. *)
Fixpoint be_value (l : list N) : N :=
  match l with [] => 0 | b :: r => b * 256 ^ lenN r + be_value r end.

Section Format.
Variable book : bool.
Variable E : env.

(** Encoding classes: 0 integer, 1 length delimited, 2/3/4 one/four/eight bytes. *)
Fixpoint class (t : ty) : N :=
  match t with
  | TUInt _ | TSInt _ => 0
  | TBool | TU8 | TI8 => 2
  | TF32 => 3
  | TF64 => 4
  | TNonZero t' => class t'
  | TGen t' => if book then class t' else 1
  | _ => 1
  end.

Definition is_text (t : ty) : bool :=
  match t with TString | TStringRef | TBoxString | TBytes | TBytesRef | TBoxBytes => true | _ => false end.
Definition optional (t : ty) : bool := match t with TOption _ => true | _ => false end.

(** [wire fieldq t v l]: [l] is the encoding of the value [v] of type [t]; [fieldq] says whether
    it is directly the content of a field. *)
Inductive wire : bool -> ty -> val -> list N -> Prop :=
| w_bool q b : wire q TBool (VBool b) [if b then 1 else 0]
| w_u8 q n : n < 256 -> wire q TU8 (VInt (Z.of_N n)) [n]
| w_i8_pos q n : n < 128 -> wire q TI8 (VInt (Z.of_N n)) [n]
| w_i8_neg q n : 128 <= n < 256 -> wire q TI8 (VInt (Z.of_N n - 256)) [n]
| w_uint q w n l : leb_of n l -> wire q (TUInt w) (VInt (Z.of_N n)) l
| w_sint q w z l : leb_of (zigzag_spec z) l -> wire q (TSInt w) (VInt z) l
| w_f32 q l : length l = 4%nat -> bytes_ok l = true -> wire q TF32 (VBits (be_value l)) l
| w_f64 q l : length l = 8%nat -> bytes_ok l = true -> wire q TF64 (VBits (be_value l)) l
| w_text q t s p : is_text t = true -> leb_of (lenN s) p -> wire q t (VBytes s) (p ++ s)
| w_vec q t vs p l : elems t vs l -> leb_of (lenN l) p -> wire q (TVec t) (VList vs) (p ++ l)
| w_set q t vs p l : elems t vs l -> leb_of (lenN l) p -> wire q (TSet t) (VList vs) (p ++ l)
| w_map q k t m p l : pairs k t m l -> leb_of (lenN l) p -> wire q (TMap k t) (VMap m) (p ++ l)
| w_array q t n vs p l : elems t vs l -> (if book then p = [] else leb_of (lenN l) p) ->
    wire q (TArray t n) (VList vs) (p ++ l)
| w_tuple q ts vs p l : items ts vs l -> (if negb book && q then leb_of (lenN l) p else p = []) ->
    wire q (TTuple ts) (VList vs) (p ++ l)
| w_none q t : wire q (TOption t) VNone [0]
| w_some q t v l : wire false t v l -> wire q (TOption t) (VSome v) (1 :: l)
| w_nonzero q t v l : wire false t v l -> wire q (TNonZero t) v l
| w_gen q t v l : wire false t v l -> wire q (TGen t) v l
| w_unit q i args fs : nth_error E i = Some (DStruct fs) -> fs_kind fs = KUnit ->
    wire q (TExt i args) (VRec []) []
| w_struct q i args fs vs l : nth_error E i = Some (DStruct fs) -> fs_kind fs <> KUnit ->
    members (fs_list (inst args fs)) vs l -> wire q (TExt i args) (VRec vs) (l ++ [0])
| w_unit_variant q i args vars k v p : nth_error E i = Some (DEnum vars) -> nth_error vars k = Some v ->
    leb_of (v_id v) p -> fs_kind (v_fields v) = KUnit ->
    wire q (TExt i args) (VVar k []) p
| w_variant q i args vars k v p vs l : nth_error E i = Some (DEnum vars) -> nth_error vars k = Some v ->
    leb_of (v_id v) p -> fs_kind (v_fields v) <> KUnit -> members (fs_list (inst args (v_fields v))) vs l ->
    wire q (TExt i args) (VVar k vs) (p ++ l ++ [0])
(** Elements of a collection, one after the other. *)
with elems : ty -> list val -> list N -> Prop :=
| e_nil t : elems t [] []
| e_cons t v vs l l' : wire false t v l -> elems t vs l' -> elems t (v :: vs) (l ++ l')
(** Entries of a map: key, value, key, value, ... *)
with pairs : ty -> ty -> list (val * val) -> list N -> Prop :=
| p_nil k t : pairs k t [] []
| p_cons k t x v m lk lv l' : wire false k x lk -> wire false t v lv -> pairs k t m l' ->
    pairs k t ((x, v) :: m) (lk ++ lv ++ l')
(** Elements of a tuple. *)
with items : list ty -> list val -> list N -> Prop :=
| i_nil : items [] [] []
| i_cons t ts v vs l l' : wire false t v l -> items ts vs l' -> items (t :: ts) (v :: vs) (l ++ l')
(** Fields: the number shifted by three bits and the class, then the content; an optional field
    that is absent leaves no trace, one that is present looks like a required field. *)
with members : list field -> list val -> list N -> Prop :=
| m_nil : members [] [] []
| m_field f fs v vs p l l' : optional (f_ty f) = false -> leb_of (8 * f_id f + class (f_ty f)) p ->
    wire true (f_ty f) v l -> members fs vs l' -> members (f :: fs) (v :: vs) (p ++ l ++ l')
| m_some f t fs v vs p l l' : f_ty f = TOption t -> leb_of (8 * f_id f + class t) p ->
    wire true t v l -> members fs vs l' -> members (f :: fs) (VSome v :: vs) (p ++ l ++ l')
| m_none f t fs vs l' : f_ty f = TOption t -> members fs vs l' -> members (f :: fs) (VNone :: vs) l'.
End Format.

(** Elements of collections occupy at least one byte (so that they can be counted). *)
Definition node_solid (E : env) (t : ty) : bool :=
  match t with
  | TVec t' | TSet t' | TArray t' _ => occupies E t'
  | TMap k v => occupies E k || occupies E v
  | TExt _ args => forallb (occupies E) args
  | _ => true
  end.
Definition solid_type (E : env) (t : ty) : bool := all_ty (node_solid E) t.
Definition solid (E : env) : bool := forallb (fun d => forallb (solid_type E) (def_types d)) E.

(** Where the manual and the code agree: no arrays, no tuples as fields, no fields whose type is a
    generic parameter. *)
Definition agreed_field (t : ty) : bool :=
  match t with
  | TTuple _ | TParam _ | TGen _ | TOption (TTuple _ | TParam _ | TGen _) => false
  | TNonZero t' | TOption (TNonZero t') => nz_inner t'
  | _ => true
  end.
Definition agreed_type (t : ty) : bool := all_ty node_no_array t.
Definition agreed (E : env) : bool :=
  forallb (fun d => forallb (fun t => agreed_type t && agreed_field t) (def_types d)) E.

(** * When the announced lengths are right *)
Section Lengths.
Variable E : env.
Section Fields.
Variable ok : bool -> ty -> val -> bool.
Fixpoint lengths_fields (fs : list field) (vs : list val) {struct vs} : bool :=
  match fs, vs with
  | f :: fs', v :: vs' =>
      match f_ty f, v with
      | TOption t, VSome x => ok true t x
      | TOption _, _ => true
      | t, _ => ok true t v
      end && lengths_fields fs' vs'
  | _, _ => true
  end.
Fixpoint lengths_seq (ts : list ty) (vs : list val) {struct vs} : bool :=
  match ts, vs with
  | t :: ts', v :: vs' => ok false t v && lengths_seq ts' vs'
  | _, _ => true
  end.
End Fields.

(** Inside [v], the length written in front of every collection and of every tuple that is a field
    is the length of what follows. *)
Fixpoint lengths_ok (root : bool) (t : ty) (v : val) {struct v} : bool :=
  match core t, v with
  | (TVec t' | TSet t' | TArray t' _), VList l =>
      forallb (lengths_ok false t') l && (sumN (map (size E t') l) =? lenN (concat (map (encode E false t') l)))
  | TMap tk tv, VMap l =>
      forallb (fun kv => lengths_ok false tk (fst kv) && lengths_ok false tv (snd kv)) l
      && (sumN (map (fun kv => size E tk (fst kv) + size E tv (snd kv)) l)
          =? lenN (concat (map (fun kv => encode E false tk (fst kv) ++ encode E false tv (snd kv)) l)))
  | TOption t', VSome x => lengths_ok false t' x
  | TTuple ts, VList l =>
      lengths_seq lengths_ok ts l
      && (negb (root && is_tuple t) || (size_seq (size E) ts l =? lenN (encode_seq (encode E) ts l)))
  | TExt i args, VRec vs =>
      match nth_error E i with
      | Some (DStruct fs) => lengths_fields lengths_ok (fs_list (inst args fs)) vs
      | _ => true
      end
  | TExt i args, VVar idx vs =>
      match nth_error E i with
      | Some (DEnum vars) =>
          match nth_error vars idx with
          | Some var => lengths_fields lengths_ok (fs_list (inst args (v_fields var))) vs
          | None => true
          end
      | _ => true
      end
  | _, _ => true
  end.
End Lengths.

(** Schemas where that is so for every value: what is inside collections and tuples is flat. *)
Definition node_measured (D : list nat) (t : ty) : bool :=
  match t with
  | TVec t' | TSet t' | TArray t' _ => flat_type D t'
  | TMap k v => flat_type D k && flat_type D v
  | TTuple ts => forallb (flat_type D) ts
  | TExt _ args => forallb (flat_type D) args
  | _ => true
  end.
Definition measured_type (D : list nat) (t : ty) : bool := all_ty (node_measured D) t.
Definition measured (E : env) (D : list nat) : bool :=
  flat_defs E D && forallb (fun d => forallb (measured_type D) (def_types d)) E.
