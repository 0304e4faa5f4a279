(** What the generated Rust code (RustCode.v) does when it runs.

    Variables are looked up by name, innermost binding first; closures are the ones written in
    place as arguments of the runtime's functions and see the variables around them.  References
    carry no information of their own: [&e] and [*e] evaluate as [e], and so do [.get()] of a
    non-zero type and [.as_ref()] of an option.  [None] (for decoding: [Panic]) stands for code
    that makes no sense, which rustc rejects. *)
From Verif Require Import Base Varint Wire Codec Compiler RustCode.
Local Open Scope N_scope.

Fixpoint find_var {A} (x : ident) (l : list (ident * A)) : option A :=
  match l with
  | [] => None
  | (y, a) :: l' => if list_eqb N.eqb x y then Some a else find_var x l'
  end.

(** The value of a variable: a value of the schema, or the writer [w: &mut impl BufMut]. *)
Inductive rval := RVal (v : val) | RWriter.
Definition renv := list (ident * rval).

(** Expressions denoting values. *)
Fixpoint ev_val (p : renv) (e : expr) : option val :=
  match e with
  | EVar x => match find_var x p with Some (RVal v) => Some v | _ => None end
  | ERef e | EDeref e | EGet e | EAsRef e => ev_val p e
  | EProj i e => match ev_val p e with Some (VList l) => nth_error l i | _ => None end
  | EInt n => Some (VInt (Z.of_N n))
  | EEndMarker => Some (VInt (Z.of_N END_MARKER))
  | _ => None
  end.

(** [size_bool], .. [size_f64] (Wire.v) on values. *)
Definition size_scalar (s : scalar) (v : val) : option N :=
  match s, v with
  | ScBool, VBool _ => Some size_bool
  | ScU8, VInt _ => Some size_u8
  | ScI8, VInt _ => Some size_i8
  | ScU w, VInt z => Some (size_uint w (Z.to_N z))
  | ScI w, VInt z => Some (size_sint w z)
  | ScF32, VBits _ => Some size_f32
  | ScF64, VBits _ => Some size_f64
  | _, _ => None
  end.
(** [encode_bool], .. [encode_f64]. *)
Definition encode_scalar (s : scalar) (v : val) : option (list N) :=
  match s, v with
  | ScBool, VBool b => Some (encode_bool b)
  | ScU8, VInt z => Some (encode_u8 (Z.to_N z))
  | ScI8, VInt z => Some (encode_i8 z)
  | ScU w, VInt z => Some (encode_uint w (Z.to_N z))
  | ScI w, VInt z => Some (encode_sint w z)
  | ScF32, VBits b => Some (encode_f32 b)
  | ScF64, VBits b => Some (encode_f64 b)
  | _, _ => None
  end.
(** [decode_bool], .. [decode_f64]. *)
Definition decode_scalar (s : scalar) : dec val :=
  match s with
  | ScBool => dmap VBool decode_bool
  | ScU8 => dmap dVN decode_u8
  | ScI8 => dmap VInt decode_i8
  | ScU w => dmap dVN (decode_uint w)
  | ScI w => dmap VInt (decode_sint w)
  | ScF32 => dmap VBits decode_f32
  | ScF64 => dmap VBits decode_f64
  end.
(** [decode_non_zero_u8], .. [decode_non_zero_i128]. *)
Definition decode_nz_scalar (s : scalar) : dec val :=
  match s with
  | ScU8 => dmap dVN (decode_non_zero_uint decode_u8)
  | ScI8 => dmap VInt (decode_non_zero_sint decode_i8)
  | ScU w => dmap dVN (decode_non_zero_uint (decode_uint w))
  | ScI w => dmap VInt (decode_non_zero_sint (decode_sint w))
  | _ => fun _ => Panic
  end.

Definition obind {A B} (o : option A) (f : A -> option B) : option B :=
  match o with Some a => f a | None => None end.
Notation "'let?' x := m 'in' f" := (obind m (fun x => f)) (at level 200, x pattern, m at level 100, f at level 200).

(** * Sizes and encoding.  [sz t v] and [en t v] are the trait methods [Size::size] and
    [Encode::encode] of the type [t]. *)
Section Eval.
Variable sz : ty -> val -> option N.

Fixpoint ev_size (p : renv) (e : expr) {struct e} : option N :=
  match e with
  | EInt n => Some n
  | EEndSize => Some END_MARKER_SIZE
  | ERef e | EDeref e => ev_size p e
  | ESizeM t e => let? v := ev_val p e in sz t v
  | ESum es => let? ns := all_opt (ev_size p) es in Some (sumN ns)
  | ECall f args =>
      match f, args with
      | RSize s, [e] => let? v := ev_val p e in size_scalar s v
      | RSizeString, [e] | RSizeBytes _, [e] =>
          match ev_val p e with Some (VBytes l) => Some (size_bytes l) | _ => None end
      | (RSizeVec | RSizeSet | RSizeArray), [e; EClos [x] b] =>
          match ev_val p e with
          | Some (VList l) =>
              let? ns := all_opt (fun v => ev_size ((x, RVal v) :: p) b) l in
              Some (size_vec (fun n => n) ns)
          | _ => None
          end
      | RSizeMap, [e; EClos [x] bk; EClos [y] bv] =>
          match ev_val p e with
          | Some (VMap l) =>
              let? ns := all_opt (fun kv => let? n := ev_size ((x, RVal (fst kv)) :: p) bk in
                                            let? m := ev_size ((y, RVal (snd kv)) :: p) bv in Some (n, m)) l in
              Some (size_hash_map (fun n => n) (fun n => n) ns)
          | _ => None
          end
      | RSizeOption, [e; EClos [x] b] =>
          match ev_val p e with
          | Some (VSome v) => let? n := ev_size ((x, RVal v) :: p) b in Some (size_option (fun n => n) (Some n))
          | Some VNone => Some (size_option (fun n => n) None)
          | _ => None
          end
      | RSizeField, [EInt id; EClos [] b] => let? n := ev_size p b in Some (size_field id n)
      | RSizeFieldOption, [EInt id; e; EClos [x] b] =>
          match ev_val p e with
          | Some (VSome v) =>
              let? n := ev_size ((x, RVal v) :: p) b in Some (size_field_option id (fun n => n) (Some n))
          | Some VNone => Some (size_field_option id (fun n => n) None)
          | _ => None
          end
      | RSizeVariantId, [EInt id] => Some (size_variant_id id)
      | _, _ => None
      end
  | _ => None
  end.

Variable en : ty -> val -> option (list N).

(** The variable is the writer. *)
Definition writer (p : renv) (e : expr) : option unit :=
  match e with
  | EVar x => match find_var x p with Some RWriter => Some tt | _ => None end
  | _ => None
  end.

(** The bytes a statement writes. *)
Fixpoint ev_write (p : renv) (e : expr) {struct e} : option (list N) :=
  match e with
  | ERef e | EDeref e => ev_write p e
  | EEncodeM t e w => let? _ := writer p w in let? v := ev_val p e in en t v
  | ESeq es => let? bs := all_opt (ev_write p) es in Some (concat bs)
  | ECall f args =>
      match f, args with
      | REncode s, [w; e] => let? _ := writer p w in let? v := ev_val p e in encode_scalar s v
      | REncodeString, [w; e] | REncodeBytes _, [w; e] =>
          let? _ := writer p w in
          match ev_val p e with Some (VBytes l) => Some (encode_bytes l) | _ => None end
      | (REncodeVec | REncodeSet | REncodeArray), [w; e; EClos [x] s; EClos [y; z] b] =>
          let? _ := writer p w in
          match ev_val p e with
          | Some (VList l) =>
              let? nbs := all_opt (fun v => let? n := ev_size ((x, RVal v) :: p) s in
                                            let? b := ev_write ((z, RVal v) :: (y, RWriter) :: p) b in Some (n, b)) l in
              Some (encode_vec fst snd nbs)
          | _ => None
          end
      | REncodeMap, [w; e; EClos [xk] sk; EClos [xv] sv; EClos [yk; zk] bk; EClos [yv; zv] bv] =>
          let? _ := writer p w in
          match ev_val p e with
          | Some (VMap l) =>
              let? nbs := all_opt (fun kv =>
                 let? n := ev_size ((xk, RVal (fst kv)) :: p) sk in
                 let? m := ev_size ((xv, RVal (snd kv)) :: p) sv in
                 let? a := ev_write ((zk, RVal (fst kv)) :: (yk, RWriter) :: p) bk in
                 let? b := ev_write ((zv, RVal (snd kv)) :: (yv, RWriter) :: p) bv in
                 Some ((n, a), (m, b))) l in
              Some (encode_hash_map fst fst snd snd nbs)
          | _ => None
          end
      | REncodeOption, [w; e; EClos [y; z] b] =>
          let? _ := writer p w in
          match ev_val p e with
          | Some (VSome v) =>
              let? b := ev_write ((z, RVal v) :: (y, RWriter) :: p) b in Some (encode_option (fun b => b) (Some b))
          | Some VNone => Some (encode_option (fun b => b) None)
          | _ => None
          end
      | REncodeTuple, [w; EClos [] s; EClos [y] b] =>
          let? _ := writer p w in
          let? n := ev_size p s in let? b := ev_write ((y, RWriter) :: p) b in Some (encode_tuple n b)
      | REncodeField, [w; EFieldId id c; EClos [y] b] =>
          let? _ := writer p w in
          let? b := ev_write ((y, RWriter) :: p) b in Some (encode_field (FieldId id c) b)
      | REncodeFieldOption, [w; EFieldId id c; e; EClos [y; z] b] =>
          let? _ := writer p w in
          match ev_val p e with
          | Some (VSome v) =>
              let? b := ev_write ((z, RVal v) :: (y, RWriter) :: p) b in
              Some (encode_field_option (FieldId id c) (fun b => b) (Some b))
          | Some VNone => Some (encode_field_option (FieldId id c) (fun b => b) None)
          | _ => None
          end
      | REncodeVariantId, [w; EVariantId id] => let? _ := writer p w in Some (encode_variant_id id)
      | _, _ => None
      end
  | _ => None
  end.
End Eval.

(** * Decoding *)

(** The value of a variable: the reader [r: &mut impl Buf], a field's variable, or the id that
    was read. *)
Inductive dval := DReader | DSlot (o : option val) | DFieldId (f : field_id).
Definition denv := list (ident * dval).

Section Decode.
(** The trait method [Decode::decode] of a type. *)
Variable de : ty -> dec val.

Definition reading {A} (p : denv) (e : expr) (d : dec A) : dec A :=
  match e with
  | EVar x => match find_var x p with Some DReader => d | _ => fun _ => Panic end
  | _ => fun _ => Panic
  end.

Definition some_val (o : option val) : val := match o with Some v => VSome v | None => VNone end.

Fixpoint ev_dec (p : denv) (e : expr) {struct e} : dec val :=
  match e with
  | EDecodeM t r => reading p r (de t)
  | ETupleOk len es => fun r0 =>
      do (_, r1) <- match len with Some e => ev_dec p e r0 | None => Ok (VNone, r0) end;
      do (vs, r2) <- (fix go (es : list expr) (r : list N) : res (list val * list N) :=
                        match es with
                        | [] => Ok ([], r)
                        | e :: es' => do (v, r1) <- ev_dec p e r; do (vs, r2) <- go es' r1; Ok (v :: vs, r2)
                        end) es r1;
      Ok (VList vs, r2)
  | ECall f args =>
      match f, args with
      | RDecode s, [r] => reading p r (decode_scalar s)
      | RDecodeString, [r] => reading p r (dmap VBytes decode_string)
      | RDecodeBytes _, [r] => reading p r (dmap VBytes decode_bytes)
      | RDecodeVec, [r; EClos [x] b] => reading p r (dmap VList (decode_vec (ev_dec ((x, DReader) :: p) b)))
      | RDecodeMap, [r; EClos [x] bk; EClos [y] bv] =>
          reading p r (dmap VMap (decode_hash_map val_eqb (ev_dec ((x, DReader) :: p) bk) (ev_dec ((y, DReader) :: p) bv)))
      | RDecodeSet, [r; EClos [x] b] => reading p r (dmap VList (decode_hash_set val_eqb (ev_dec ((x, DReader) :: p) b)))
      | RDecodeOption, [r; EClos [x] b] => reading p r (dmap some_val (decode_option (ev_dec ((x, DReader) :: p) b)))
      | RDecodeArray n, [r; EClos [x] b] => reading p r (dmap VList (decode_array n (ev_dec ((x, DReader) :: p) b)))
      | RDecodeNz s, [r] => reading p r (decode_nz_scalar s)
      | RDecodeNzString, [r] => reading p r (dmap VBytes decode_non_zero_string)
      | RDecodeNzBytes _, [r] => reading p r (dmap VBytes decode_non_zero_bytes)
      | RDecodeNzVec, [r; EClos [x] b] => reading p r (dmap VList (decode_non_zero_vec (ev_dec ((x, DReader) :: p) b)))
      | RDecodeNzMap, [r; EClos [x] bk; EClos [y] bv] =>
          reading p r (dmap VMap (decode_non_zero_hash_map val_eqb (ev_dec ((x, DReader) :: p) bk) (ev_dec ((y, DReader) :: p) bv)))
      | RDecodeNzSet, [r; EClos [x] b] =>
          reading p r (dmap VList (decode_non_zero_hash_set val_eqb (ev_dec ((x, DReader) :: p) b)))
      | _, _ => fun _ => Panic
      end
  | _ => fun _ => Panic
  end.

(** [x = Some(v)]: the innermost variable of that name, which must be a field's. *)
Fixpoint assign_var (x : ident) (v : val) (p : denv) : option denv :=
  match p with
  | [] => None
  | (y, a) :: p' =>
      if list_eqb N.eqb x y then match a with DSlot _ => Some ((y, DSlot (Some v)) :: p') | _ => None end
      else option_map (cons (y, a)) (assign_var x v p')
  end.

Fixpoint find_arm (id : N) (arms : list (N * ident * expr)) : option (ident * expr) :=
  match arms with
  | [] => None
  | (n, x, e) :: arms' => if n =? id then Some (x, e) else find_arm id arms'
  end.

(** One turn of the loop per unit of [fuel]; the body of the loop sees [id], which is gone at
    its end. *)
Fixpoint run_loop (l : floop) (fuel : nat) (p : denv) (r : list N) : res (denv * list N) :=
  match fuel with
  | O => Diverge
  | S fuel' =>
      match d_next l with
      | ECall RDecodeId [src] =>
          do (id, r1) <- reading p src decode_id r;
          let p1 := (d_id l, DFieldId id) :: p in
          if fid_value id =? END_MARKER then Ok (p, r1)
          else match find_arm (fid_value id) (d_arms l) with
               | Some (x, e) =>
                   do (v, r2) <- ev_dec p1 e r1;
                   match assign_var x v p1 with
                   | Some (_ :: p') => run_loop l fuel' p' r2
                   | _ => Panic
                   end
               | None =>
                   match d_skip l with
                   | ECall RDecodeSkip [src; EEncodingOf (EVar y)] =>
                       match find_var y p1 with
                       | Some (DFieldId f) =>
                           do (_, r2) <- reading p1 src (fun r => do r' <- decode_skip (fid_enc f) r; Ok (tt, r')) r1;
                           run_loop l fuel' p r2
                       | _ => Panic
                       end
                   | _ => Panic
                   end
               end
      | _ => Panic
      end
  end.

(** [Self { x: x.ok_or(..)?, .. }], in order. *)
Fixpoint build (p : denv) (b : list (ident * option (N * option ident))) : res (list val) :=
  match b with
  | [] => Ok []
  | (x, req) :: b' =>
      match find_var x p with
      | Some (DSlot o) =>
          match req, o with
          | None, _ => do vs <- build p b'; Ok (some_val o :: vs)
          | Some _, Some v => do vs <- build p b'; Ok (v :: vs)
          | Some (id, name), None => Err (MissingField id name)
          end
      | _ => Panic
      end
  end.

(** The variables are declared in order; the last one is the innermost. *)
Definition declare (vars : list (ident * ty)) (p : denv) : denv :=
  fold_left (fun p '(x, _) => (x, DSlot None) :: p) vars p.

(** The loop reads at least one byte per turn ([Codec.loop_fields]), so that one turn more than
    there are bytes is enough. *)
Definition run_body (b : dbody) (p : denv) : dec (list val) := fun r =>
  match b with
  | DUnit => Ok ([], r)
  | DLoop l =>
      do (p', r1) <- run_loop l (S (length r)) (declare (d_vars l) p) r;
      do vs <- build p' (d_build l);
      Ok (vs, r1)
  end.
Fixpoint find_body (id : N) (arms : list (N * dbody)) (k : nat) : option (nat * dbody) :=
  match arms with
  | [] => None
  | (n, b) :: arms' => if n =? id then Some (k, b) else find_body id arms' (S k)
  end.
Definition run_dfun (f : dfun) : dec val := fun r =>
  let p := [(x_r, DReader)] in
  match f with
  | DfStruct b => dmap VRec (run_body b p) r
  | DfEnum (ECall RDecodeVariantId [src]) arms =>
      do (id, r1) <- reading p src decode_variant_id r;
      match find_body id arms 0 with
      | Some (k, b) => dmap (VVar k) (run_body b p) r1
      | None => Err (UnknownVariant id)
      end
  | DfEnum _ _ => Panic
  end.
End Decode.

(** * The trait implementations of the runtime, used at type arguments.
    [Vec<u8>] is an ordinary vector there; there is none for tuples, [std::num::NonZero*] and
    [bytes::Bytes], and none of [Decode] for [mabo::NonZero]. *)
Section Traits.
Variable bt : bytes_type.
(** The generated implementations. *)
Variable adt_size : nat -> list ty -> val -> option N.
Variable adt_encode : nat -> list ty -> val -> option (list N).
Variable adt_decode : nat -> list ty -> dec val.

(** size.rs L148-295. *)
Fixpoint trait_size (t : ty) (v : val) {struct t} : option N :=
  match t, v with
  | (TBool | TU8 | TI8 | TUInt _ | TSInt _ | TF32 | TF64), _ =>
      let? s := scalar_of t in size_scalar s v
  | (TString | TStringRef | TBoxString | TBoxBytes), VBytes l => Some (size_bytes l)
  | (TBytes | TBytesRef), VBytes l =>
      match bt with BVecU8 => Some (size_vec (fun _ => size_u8) l) | BBytes => None end
  | (TVec t' | TSet t' | TArray t' _), VList l =>
      let? ns := all_opt (trait_size t') l in Some (size_vec (fun n => n) ns)
  | TMap tk tv, VMap l =>
      let? ns := all_opt (fun kv => let? n := trait_size tk (fst kv) in let? m := trait_size tv (snd kv) in Some (n, m)) l in
      Some (size_hash_map (fun n => n) (fun n => n) ns)
  | TOption t', VSome v => let? n := trait_size t' v in Some (size_option (fun n => n) (Some n))
  | TOption t', VNone => Some (size_option (fun n => n) None)
  | TNonZero t', _ =>
      match t' with
      | TString | TStringRef | TBytes | TBytesRef | TVec _ | TMap _ _ | TSet _ => trait_size t' v
      | _ => None
      end
  | TExt i args, _ => adt_size i args v
  | TGen t', _ => trait_size t' v
  | _, _ => None
  end.

(** encode.rs L198-352. *)
Fixpoint trait_encode (t : ty) (v : val) {struct t} : option (list N) :=
  match t, v with
  | (TBool | TU8 | TI8 | TUInt _ | TSInt _ | TF32 | TF64), _ =>
      let? s := scalar_of t in encode_scalar s v
  | (TString | TStringRef | TBoxString | TBoxBytes), VBytes l => Some (encode_bytes l)
  | (TBytes | TBytesRef), VBytes l =>
      match bt with BVecU8 => Some (encode_vec (fun _ => size_u8) encode_u8 l) | BBytes => None end
  | (TVec t' | TSet t' | TArray t' _), VList l =>
      let? nbs := all_opt (fun v => let? n := trait_size t' v in let? b := trait_encode t' v in Some (n, b)) l in
      Some (encode_vec fst snd nbs)
  | TMap tk tv, VMap l =>
      let? nbs := all_opt (fun kv =>
         let? n := trait_size tk (fst kv) in let? m := trait_size tv (snd kv) in
         let? a := trait_encode tk (fst kv) in let? b := trait_encode tv (snd kv) in Some ((n, a), (m, b))) l in
      Some (encode_hash_map fst fst snd snd nbs)
  | TOption t', VSome v => let? b := trait_encode t' v in Some (encode_option (fun b => b) (Some b))
  | TOption t', VNone => Some (encode_option (fun b => b) None)
  | TNonZero t', _ =>
      match t' with
      | TString | TStringRef | TBytes | TBytesRef | TVec _ | TMap _ _ | TSet _ => trait_encode t' v
      | _ => None
      end
  | TExt i args, _ => adt_encode i args v
  | TGen t', _ => trait_encode t' v
  | _, _ => None
  end.

(** decode.rs L512-645. *)
Fixpoint trait_decode (t : ty) {struct t} : dec val :=
  match t with
  | TBool => decode_scalar ScBool | TU8 => decode_scalar ScU8 | TI8 => decode_scalar ScI8
  | TUInt w => decode_scalar (ScU w) | TSInt w => decode_scalar (ScI w)
  | TF32 => decode_scalar ScF32 | TF64 => decode_scalar ScF64
  | TString | TStringRef | TBoxString => dmap VBytes decode_string
  | TBoxBytes => dmap VBytes decode_bytes
  | TBytes | TBytesRef =>
      match bt with BVecU8 => dmap VBytes (decode_vec decode_u8) | BBytes => fun _ => Panic end
  | TVec t' => dmap VList (decode_vec (trait_decode t'))
  | TMap tk tv => dmap VMap (decode_hash_map val_eqb (trait_decode tk) (trait_decode tv))
  | TSet t' => dmap VList (decode_hash_set val_eqb (trait_decode t'))
  | TOption t' => dmap some_val (decode_option (trait_decode t'))
  | TArray t' n => dmap VList (decode_array n (trait_decode t'))
  | TExt i args => adt_decode i args
  | TGen t' => trait_decode t'
  | TTuple _ | TNonZero _ | TParam _ => fun _ => Panic
  end.
End Traits.

(** * Whole programs: the generated implementations call each other.  [subst args] gives the
    types that the code of a generic definition sees (Codec.v). *)
Section Program.
Variable bt : bytes_type.
Variable E : env.

(** The arm that is taken and the values its pattern binds. *)
Definition select (d : def) (arms : list arm) (v : val) : option (arm * list val) :=
  match d, v with
  | DStruct _, VRec vs => option_map (fun a => (a, vs)) (nth_error arms 0)
  | DEnum _, VVar i vs => option_map (fun a => (a, vs)) (nth_error arms i)
  | _, _ => None
  end.
Definition bind_names (a : arm) (vs : list val) : renv := combine (a_names a) (map RVal vs).

(** [<Foo<args> as Size>::size(&v)]; [n] bounds the nesting of calls. *)
Fixpoint run_size (n : nat) (i : nat) (args : list ty) (v : val) : option N :=
  match n with
  | O => None
  | S n' =>
      let? d := nth_error E i in
      let? (a, vs) := select d (gen_size_def bt d) v in
      ev_size (fun t => trait_size bt (run_size n') (subst args t)) (bind_names a vs) (a_body a)
  end.
(** [<Foo<args> as Encode>::encode(&v, w)]: what is written to [w]. *)
Fixpoint run_encode (n : nat) (i : nat) (args : list ty) (v : val) : option (list N) :=
  match n with
  | O => None
  | S n' =>
      let? d := nth_error E i in
      let? (a, vs) := select d (gen_encode_def bt d) v in
      ev_write (fun t => trait_size bt (run_size n') (subst args t))
               (fun t => trait_encode bt (run_size n') (run_encode n') (subst args t))
               (bind_names a vs ++ [(x_w, RWriter)]) (a_body a)
  end.
(** [Foo::<args>::decode(r)]. *)
Fixpoint run_decode (n : nat) (i : nat) (args : list ty) : dec val := fun r =>
  match n with
  | O => Diverge
  | S n' =>
      match nth_error E i with
      | Some d => run_dfun (fun t => trait_decode bt (run_decode n') (subst args t)) (gen_decode_def bt d) r
      | None => Panic
      end
  end.
End Program.
