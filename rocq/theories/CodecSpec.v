(** What it means for a value to inhabit a schema type, for definitions to be well formed,
    and when the length prefixes written by the encoder are right.  Used in the hypotheses of the
    codec theorems. *)
From Verif Require Import Base Varint Wire Codec.
Local Open Scope N_scope.

Fixpoint nodupb {A} (eqb : A -> A -> bool) (l : list A) : bool :=
  match l with
  | [] => true
  | x :: l' => negb (existsb (eqb x) l') && nodupb eqb l'
  end.

(** Inner types the generator supports below [non_zero<..>] (encode.rs L270-319). *)
Definition nz_inner (t : ty) : bool :=
  match t with
  | TU8 | TI8 | TUInt _ | TSInt _ | TString | TStringRef | TBytes | TBytesRef
  | TVec _ | TMap _ _ | TSet _ => true
  | _ => false
  end.

(** Non-zero / non-empty values. *)
Definition nonzero_val (v : val) : bool :=
  match v with
  | VInt z => negb (z =? 0)%Z
  | VBytes l => negb (match l with [] => true | _ => false end)
  | VList l => negb (match l with [] => true | _ => false end)
  | VMap l => negb (match l with [] => true | _ => false end)
  | _ => true
  end.

Fixpoint head_ok (t : ty) (v : val) : bool :=
  match t with
  | TNonZero t' => nz_inner t' && nonzero_val v
  | TGen t' => head_ok t' v
  | _ => true
  end.

Definition in_unsigned (w : width) (z : Z) : bool := ((0 <=? z) && (z <? 2 ^ Z.of_N (bits w)))%Z.
Definition in_signed (w : width) (z : Z) : bool :=
  ((- 2 ^ (Z.of_N (bits w) - 1) <=? z) && (z <? 2 ^ (Z.of_N (bits w) - 1)))%Z.

Section Seq.
Variable p : ty -> val -> bool.
(** Same length and pointwise [p]. *)
Fixpoint all2 (ts : list ty) (vs : list val) {struct vs} : bool :=
  match ts, vs with
  | [], [] => true
  | t :: ts', v :: vs' => p t v && all2 ts' vs'
  | _, _ => false
  end.
End Seq.

Section WithEnv.
Variable E : env.

(** [typed t v]: [v] is a value of the Rust type generated for [t]. *)
Fixpoint typed (t : ty) (v : val) {struct v} : bool :=
  head_ok t v &&
  match core t, v with
  | TBool, VBool _ => true
  | TU8, VInt z => ((0 <=? z) && (z <? 256))%Z
  | TI8, VInt z => ((-128 <=? z) && (z <? 128))%Z
  | TUInt w, VInt z => in_unsigned w z
  | TSInt w, VInt z => in_signed w z
  | TF32, VBits b => b <? 2 ^ 32
  | TF64, VBits b => b <? 2 ^ 64
  | (TString | TStringRef | TBoxString), VBytes l => bytes_ok l && utf8_ok l
  | (TBytes | TBytesRef | TBoxBytes), VBytes l => bytes_ok l
  | TVec t', VList l => forallb (typed t') l
  | TSet t', VList l => forallb (typed t') l && nodupb val_eqb l
  | TArray t' n, VList l => (length l =? n)%nat && forallb (typed t') l
  | TMap tk tv, VMap l =>
      forallb (fun kv => typed tk (fst kv) && typed tv (snd kv)) l && nodupb val_eqb (map fst l)
  | TOption t', VSome x => typed t' x
  | TOption t', VNone => true
  | TTuple ts, VList l => all2 typed ts l
  | TExt i args, VRec vs =>
      match nth_error E i with
      | Some (DStruct fs) => all2 typed (map f_ty (fs_list (inst args fs))) vs
      | _ => false
      end
  | TExt i args, VVar idx vs =>
      match nth_error E i with
      | Some (DEnum vars) =>
          match nth_error vars idx with
          | Some var => all2 typed (map f_ty (fs_list (inst args (v_fields var)))) vs
          | None => false
          end
      | _ => false
      end
  | _, _ => false
  end.

(** Well-formed definitions: what validation guarantees (distinct ids) plus what it does
    not check: field ids are neither 0 nor too large for the packed representation. *)
Definition fields_ok (fs : fields) : bool :=
  nodupb N.eqb (map f_id (fs_list fs))
  && forallb (fun f => (0 <? f_id f) && (f_id f <? 2 ^ 29)) (fs_list fs)
  && match fs_kind fs, fs_list fs with KUnit, _ :: _ => false | _, _ => true end.
Definition def_ok (d : def) : bool :=
  match d with
  | DStruct fs => fields_ok fs
  | DEnum vars =>
      nodupb N.eqb (map v_id vars)
      && forallb (fun v => (v_id v <? 2 ^ 32) && fields_ok (v_fields v)) vars
  end.
Definition env_ok : bool := forallb def_ok E.

Definition nonempty {A} (l : list A) : bool := match l with [] => false | _ => true end.

(** [prefix_ok t v]: inside [v], every collection's announced byte length equals the
    length of its encoded content, and none of its elements has an empty encoding; a
    tuple's announced length fits in 64 bits. *)
Fixpoint prefix_ok (t : ty) (v : val) {struct v} : bool :=
  match core t, v with
  | (TVec t' | TSet t' | TArray t' _), VList l =>
      forallb (prefix_ok t') l
      && forallb (fun x => nonempty (encode E false t' x)) l
      && (sumN (map (size E t') l) =? lenN (concat (map (encode E false t') l)))
  | TMap tk tv, VMap l =>
      forallb (fun kv => prefix_ok tk (fst kv) && prefix_ok tv (snd kv)) l
      && forallb (fun kv => nonempty (encode E false tk (fst kv) ++ encode E false tv (snd kv))) l
      && (sumN (map (fun kv => size E tk (fst kv) + size E tv (snd kv)) l)
          =? lenN (concat (map (fun kv => encode E false tk (fst kv) ++ encode E false tv (snd kv)) l)))
  | TOption t', VSome x => prefix_ok t' x
  | TTuple ts, VList l => all2 prefix_ok ts l && (size_seq (size E) ts l <? 2 ^ 64)
  | TExt i args, VRec vs =>
      match nth_error E i with
      | Some (DStruct fs) => all2 prefix_ok (map f_ty (fs_list (inst args fs))) vs
      | _ => true
      end
  | TExt i args, VVar idx vs =>
      match nth_error E i with
      | Some (DEnum vars) =>
          match nth_error vars idx with
          | Some var => all2 prefix_ok (map f_ty (fs_list (inst args (v_fields var)))) vs
          | None => true
          end
      | _ => true
      end
  | _, _ => true
  end.

(** * By how much [size] misses the number of bytes written *)
Section Gap.
Variable g : bool -> ty -> val -> Z.
Fixpoint gap_fields (fs : list field) (vs : list val) {struct vs} : Z :=
  match fs, vs with
  | f :: fs', v :: vs' =>
      ((match f_ty f with
        | TOption t => match v with VSome x => g true t x | _ => 0 end
        | t => g true t v
        end) + gap_fields fs' vs')%Z
  | _, _ => 0%Z
  end.
Fixpoint gap_seq (ts : list ty) (vs : list val) {struct vs} : Z :=
  match ts, vs with
  | t :: ts', v :: vs' => (g false t v + gap_seq ts' vs')%Z
  | _, _ => 0%Z
  end.
End Gap.

Definition sumZ (l : list Z) : Z := fold_right Z.add 0%Z l.

(** Length of the prefix that is written (a byte count) minus the length of the prefix that
    is accounted for (an element count). *)
Definition prefix_gap (bytes count : N) : Z :=
  (Z.of_N (lenN (encode_u64 bytes)) - Z.of_N (size_uint W64 count))%Z.

(** The sum of these differences over all collections, plus the prefix of every tuple
    that is a field, which [size] forgets. *)
Fixpoint gap (root : bool) (t : ty) (v : val) {struct v} : Z :=
  match core t, v with
  | (TVec t' | TSet t' | TArray t' _), VList l =>
      (prefix_gap (sumN (map (size E t') l)) (lenN l) + sumZ (map (gap false t') l))%Z
  | TMap tk tv, VMap l =>
      (prefix_gap (sumN (map (fun kv => size E tk (fst kv) + size E tv (snd kv))%N l)) (lenN l)
       + sumZ (map (fun kv => gap false tk (fst kv) + gap false tv (snd kv)) l))%Z
  | TOption t', VSome x => gap false t' x
  | TTuple ts, VList l =>
      ((if root && is_tuple t then Z.of_N (lenN (encode_u64 (size_seq (size E) ts l))) else 0)
       + gap_seq gap ts l)%Z
  | TExt i args, VRec vs =>
      match nth_error E i with
      | Some (DStruct fs) => gap_fields gap (fs_list (inst args fs)) vs
      | _ => 0%Z
      end
  | TExt i args, VVar idx vs =>
      match nth_error E i with
      | Some (DEnum vars) =>
          match nth_error vars idx with
          | Some var => gap_fields gap (fs_list (inst args (v_fields var))) vs
          | None => 0%Z
          end
      | _ => 0%Z
      end
  | _, _ => 0%Z
  end.
End WithEnv.
