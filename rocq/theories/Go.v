(** Semantics of the Go code that crates/mabo-go generates for a schema.

    The emitted code calls into the Go packages github.com/dnaka91/mabo-go and
    .../mabo-go/buf, which are not part of this repository.  They are therefore a parameter of
    the model: [go_buf] has one component per runtime function the generator emits a call to,
    with the parameters the emitted call passes, and every theorem quantifies over it.

    The generator's output does not always compile.  Where the intention is evident the model
    gives the code the intended meaning (a reading in the generator's favour):
    - decode.rs L334-349: [return value.Decode(r)] in a function with three results;
    - decode.rs L290-313: the undeclared variable [tuple];
    Types for which the generator panics, and type parameters (whose values have no methods in
    Go, because the parameter is declared as [any]), have no program: [Panic].

    Simplifications: references are resolved and aliases expanded, as in [Codec]; runtime
    functions with a callback for each element are given the list of the callbacks already
    applied to the elements (their Go types are generic in the element). *)
From Verif Require Import Base Varint Wire Codec.
Local Open Scope N_scope.

(** [func (w []byte) []byte] *)
Definition writer := list N -> list N.

(** The collection functions: [EncodeVec], [EncodeHashSet], [EncodeArray<n>]. *)
Inductive seq_kind := SqVec | SqSet | SqArray (n : nat).

Record go_buf := GoBuf {
  (* EncodeBool .. EncodeF64, EncodeString, EncodeBytes: encode.rs L126-144; the bytes appended *)
  gb_prim : ty -> val -> list N;
  (* encode.rs L145-162, L209-226, L293-313 *)
  gb_seq : seq_kind -> list writer -> writer;
  (* EncodeHashMap: encode.rs L163-208 *)
  gb_map : list (writer * writer) -> writer;
  (* EncodeOption: encode.rs L227-244 *)
  gb_option : option writer -> writer;
  (* EncodeField(w, id, func): encode.rs L95-106 *)
  gb_field : N -> writer -> writer;
  (* EncodeFieldOption(w, id, &v, func): encode.rs L81-94 *)
  gb_field_option : N -> option writer -> writer;
  (* EndMarker *)
  gb_end : N;
  (* DecodeID: decode.rs L36, returns the id and the remaining bytes *)
  gd_id : dec N;
  (* DecodeBool .. DecodeBytes and DecodeNonZeroU8 .. DecodeNonZeroBytes *)
  gd_prim : ty -> dec val;
  gd_non_zero_prim : ty -> dec val;
  gd_seq : seq_kind -> dec val -> dec (list val);
  gd_non_zero_seq : seq_kind -> dec val -> dec (list val);
  gd_map : dec val -> dec val -> dec (list (val * val));
  gd_non_zero_map : dec val -> dec val -> dec (list (val * val));
  gd_option : dec val -> dec (option val)
}.

(** Types written by one call. *)
Definition go_prim (t : ty) : bool :=
  match t with
  | TBool | TU8 | TI8 | TUInt _ | TSInt _ | TF32 | TF64
  | TString | TStringRef | TBoxString | TBytes | TBytesRef | TBoxBytes => true
  | _ => false
  end.

(** encode.rs L245-272 and decode.rs L242-289: inner types of [non_zero<..>]; anything else
    is a [todo!()]. *)
Definition go_nz (t : ty) : bool :=
  match t with
  | TU8 | TI8 | TUInt _ | TSInt _ | TString | TStringRef | TBytes | TBytesRef
  | TVec _ | TMap _ _ | TSet _ => true
  | _ => false
  end.

(** Whether the generator gets through [RenderType] of encode.rs L119-317 and decode.rs
    L176-351 without running into a [todo!()]. *)
Fixpoint go_renders (t : ty) : bool :=
  match t with
  | TVec t' | TSet t' | TOption t' => go_renders t'
  | TMap k v => go_renders k && go_renders v
  | TNonZero t' => go_nz t' && go_renders t'
  | TTuple ts => (2 <=? length ts)%nat && (length ts <=? 12)%nat && forallb go_renders ts
  | TArray t' n => (1 <=? n)%nat && (n <=? 32)%nat && go_renders t'
  | _ => true
  end.

(** encode.rs L245-272: [{name}.Get()] is written like the inner type. *)
Definition go_inner (t : ty) : ty := match t with TNonZero t' => t' | _ => t end.

Section WithBuf.
Variable R : go_buf.
Variable E : env.

(** * Encode *)
Section Fields.
Variable enc : ty -> val -> writer.

(** encode.rs L80-107: one statement [w = buf.EncodeField..(w, id, ..)] per field. *)
Fixpoint go_fields (fs : list field) (vs : list val) (w : list N) {struct vs} : list N :=
  match fs, vs with
  | f :: fs', v :: vs' =>
      go_fields fs' vs'
        match f_ty f with
        | TOption t =>
            gb_field_option R (f_id f) (match v with VSome x => Some (enc t x) | _ => None end) w
        | t => gb_field R (f_id f) (enc t v) w
        end
  | _, _ => w
  end.

(** encode.rs L72-111 [RenderFields]. *)
Definition go_body (fs : fields) (vs : list val) (w : list N) : list N :=
  match fs_kind fs with
  | KUnit => w
  | _ => go_fields (fs_list fs) vs w ++ gb_prim R (TUInt W32) (VInt (Z.of_N (gb_end R)))
  end.

(** encode.rs L273-292: [w = ..] for every element of a tuple. *)
Fixpoint go_tuple (ts : list ty) (vs : list val) (w : list N) {struct vs} : list N :=
  match ts, vs with
  | t :: ts', v :: vs' => go_tuple ts' vs' (enc t v w)
  | _, _ => w
  end.
End Fields.

(** encode.rs L119-317 [RenderType]; the [Encode] methods of encode.rs L12-37 [RenderStruct]
    and L39-70 [RenderEnumVariant], which ends with [return nil]. *)
Fixpoint go_enc (t : ty) (v : val) {struct v} : writer := fun w =>
  match go_inner t, v with
  | TVec t', VList l => gb_seq R SqVec (map (go_enc t') l) w
  | TSet t', VList l => gb_seq R SqSet (map (go_enc t') l) w
  | TArray t' n, VList l => gb_seq R (SqArray n) (map (go_enc t') l) w
  | TMap tk tv, VMap l => gb_map R (map (fun kv => (go_enc tk (fst kv), go_enc tv (snd kv))) l) w
  | TOption t', VSome x => gb_option R (Some (go_enc t' x)) w
  | TOption t', VNone => gb_option R None w
  | TTuple ts, VList l => go_tuple go_enc ts l w
  | TExt i args, VRec vs =>
      match nth_error E i with
      | Some (DStruct fs) => go_body go_enc (inst args fs) vs w
      | _ => w
      end
  | TExt i args, VVar idx vs =>
      match nth_error E i with
      | Some (DEnum vars) =>
          match nth_error vars idx with
          | Some var => let _ := go_body go_enc (inst args (v_fields var)) vs w in []
          | None => w
          end
      | _ => w
      end
  | t', _ => w ++ gb_prim R t' v
  end.

(** * Decode *)

(** decode.rs L35-47: [for len(r) > 0 { .. switch id { .. } }].  An id without a case is
    ignored, and [break] in the case of the end marker leaves the [switch], not the loop. *)
Fixpoint go_loop (d : ty -> dec val) (fs : list field) (fuel : nat) (s : slots) (r : list N)
  : res (slots * list N) :=
  match r with
  | [] => Ok (s, [])
  | _ :: _ =>
      match fuel with
      | O => Diverge
      | S fuel' =>
          do (id, r1) <- gd_id R r;
          match find_field id fs 0 with
          | Some (k, f) => do (v, r2) <- d (f_ty f) r1; go_loop d fs fuel' (set_slot k v s) r2
          | None => go_loop d fs fuel' s r1
          end
      end
  end.

(** decode.rs L112-135 [RenderFoundChecks]: every field must have been found. *)
Fixpoint go_found (kind : fkind) (fs : list field) (s : slots) : res (list val) :=
  match fs, s with
  | f :: fs', o :: s' =>
      match o with
      | Some v => do vs <- go_found kind fs' s'; Ok (v :: vs)
      | None => Err (MissingField (f_id f) (match kind with KNamed => Some (f_name f) | _ => None end))
      end
  | _, _ => Ok []
  end.

(** decode.rs L12-51 [RenderStruct], and L53-98 for a variant. *)
Definition go_dec_body (fuel : nat) (d : ty -> dec val) (fs : fields) : dec (list val) := fun r =>
  do (s, r1) <- go_loop d (fs_list fs) fuel (map (fun _ => None) (fs_list fs)) r;
  do vs <- go_found (fs_kind fs) (fs_list fs) s;
  Ok (vs, r1).

Definition of_option (o : option val) : val := match o with Some v => VSome v | None => VNone end.

(** decode.rs L176-351 [RenderType]. *)
Fixpoint go_dec_ty (ext : nat -> list ty -> dec val) (t : ty) {struct t} : dec val :=
  match t with
  | TVec t' => dmap VList (gd_seq R SqVec (go_dec_ty ext t'))
  | TSet t' => dmap VList (gd_seq R SqSet (go_dec_ty ext t'))
  | TArray t' n => dmap VList (gd_seq R (SqArray n) (go_dec_ty ext t'))
  | TMap tk tv => dmap VMap (gd_map R (go_dec_ty ext tk) (go_dec_ty ext tv))
  | TOption t' => dmap of_option (gd_option R (go_dec_ty ext t'))
  | TNonZero t' =>
      match t' with
      | TVec t'' => dmap VList (gd_non_zero_seq R SqVec (go_dec_ty ext t''))
      | TSet t'' => dmap VList (gd_non_zero_seq R SqSet (go_dec_ty ext t''))
      | TMap tk tv => dmap VMap (gd_non_zero_map R (go_dec_ty ext tk) (go_dec_ty ext tv))
      | TU8 | TI8 | TUInt _ | TSInt _ | TString | TStringRef | TBytes | TBytesRef =>
          gd_non_zero_prim R t'
      | _ => fun _ => Panic
      end
  | TTuple ts => fun r => do (vs, r1) <- decode_seq (go_dec_ty ext) ts r; Ok (VList vs, r1)
  | TExt i args => ext i args
  | TParam _ | TGen _ => fun _ => Panic
  | _ => gd_prim R t
  end.

(** [Decode] of the i-th definition.  [fuel] bounds the nesting of definitions and the number of
    iterations of each loop; running out of it is [Diverge].  An enum's Go type is an interface
    without a [Decode] method (definition.rs L577-603): no program. *)
Fixpoint go_ext (fuel : nat) (i : nat) (args : list ty) : dec val := fun r =>
  match fuel with
  | O => Diverge
  | S fuel' =>
      match nth_error E i with
      | Some (DStruct fs) => dmap VRec (go_dec_body fuel (go_dec_ty (go_ext fuel')) (inst args fs)) r
      | _ => Panic
      end
  end.

(** [Decode] of one variant of an enum: decode.rs L53-98. *)
Definition go_variant (fuel : nat) (var : variant) (args : list ty) : dec (list val) :=
  go_dec_body fuel (go_dec_ty (go_ext fuel)) (inst args (v_fields var)).
End WithBuf.
