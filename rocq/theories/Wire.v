(** Model of the runtime crate: crates/mabo/src/lib.rs (FieldId, FieldEncoding, VariantId,
    NonZero) and crates/mabo/src/buf/{encode,size,decode}.rs.

    Writers: a function [encode_x(w, v)] appends bytes to [w]; the model returns the
    appended bytes.  Readers: [r: &mut impl Buf] is a contiguous buffer (a [&[u8]] or
    [Bytes]); the model takes the remaining bytes and returns the value together with
    the bytes that remain.  Non-contiguous readers are modelled separately at the end
    ([decode_int_chunked]).  [bytes::buf::Take] over a contiguous reader is the prefix of
    the given length.  [usize] is [u64]. *)
From Verif Require Import Base Varint.
Local Open Scope N_scope.

(** * Field and variant identifiers *)

(** lib.rs L61-74. *)
Inductive fenc := EVarint | ELengthPrefixed | EFixed1 | EFixed4 | EFixed8.

(** lib.rs L62-73: the [repr(u32)] discriminants ([encoding as u32]). *)
Definition fenc_u32 (e : fenc) : N :=
  match e with EVarint => 0 | ELengthPrefixed => 1 | EFixed1 => 2 | EFixed4 => 3 | EFixed8 => 4 end.

(** lib.rs L80-89: [FieldEncoding::from_u32]. *)
Definition fenc_from_u32 (v : N) : option fenc :=
  match N.land v 7 with
  | 0 => Some EVarint
  | 1 => Some ELengthPrefixed
  | 2 => Some EFixed1
  | 3 => Some EFixed4
  | 4 => Some EFixed8
  | _ => None
  end.

(** lib.rs L24-29. *)
Record field_id := FieldId { fid_value : N; fid_enc : fenc }.

(** lib.rs L43-50: [FieldId::from_u32]. *)
Definition fid_from_u32 (v : N) : option field_id :=
  match fenc_from_u32 v with
  | Some e => Some (FieldId (N.shiftr v 3) e)
  | None => None
  end.

(** lib.rs L55-57: [FieldId::into_u32]; [<<] on u32 drops the bits above bit 31. *)
Definition fid_into_u32 (f : field_id) : N :=
  N.lor (N.shiftl (fid_value f) 3 mod 2 ^ 32) (fenc_u32 (fid_enc f)).

(** * Writers *)

(** encode.rs L8-10: [encode_bool] ([u8::from(bool)]). *)
Definition encode_bool (b : bool) : list N := [if b then 1 else 0].

(** encode.rs L13-15: [encode_u8]. *)
Definition encode_u8 (v : N) : list N := [v].

(** encode.rs L18-20: [encode_i8], [put_i8] writes the two's complement byte. *)
Definition encode_i8 (z : Z) : list N := [Z.to_N (z mod 256)].

(** encode.rs L22-38: [encode_u16 .. encode_u128] and [encode_i16 .. encode_i128]. *)
Definition encode_uint (w : width) (v : N) : list N := varint_bytes w v.
Definition encode_sint (w : width) (z : Z) : list N := varint_bytes w (zigzag_encode w z).
Definition encode_u32 := encode_uint W32.
Definition encode_u64 := encode_uint W64.

(** [n] big-endian bytes of [v] ([BufMut::put_f32]/[put_f64] write [to_bits] big-endian). *)
Fixpoint be_bytes (n : nat) (v : N) : list N :=
  match n with
  | O => []
  | S n' => (v / 256 ^ N.of_nat n') mod 256 :: be_bytes n' v
  end.

(** encode.rs L41-48: [encode_f32], [encode_f64]; a float is represented by its bits. *)
Definition encode_f32 (b : N) : list N := be_bytes 4 b.
Definition encode_f64 (b : N) : list N := be_bytes 8 b.

(** encode.rs L51-64: [encode_bytes_std]; [encode_string] and [encode_bytes_bytes] forward
    to it.  A string is represented by its UTF-8 bytes. *)
Definition encode_bytes (v : list N) : list N := encode_u64 (lenN v) ++ v.

(** encode.rs L67-78 [encode_vec], L109-120 [encode_hash_set] and L137-148 [encode_array]
    have the same body; a set is represented by its elements in iteration order. *)
Definition encode_vec {T} (size : T -> N) (enc : T -> list N) (xs : list T) : list N :=
  encode_u64 (sumN (map size xs)) ++ concat (map enc xs).

(** encode.rs L81-106: [encode_hash_map]; a map is its entries in iteration order. *)
Definition encode_hash_map {K V} (size_k : K -> N) (size_v : V -> N)
    (enc_k : K -> list N) (enc_v : V -> list N) (m : list (K * V)) : list N :=
  encode_u64 (sumN (map (fun kv => size_k (fst kv) + size_v (snd kv)) m))
  ++ concat (map (fun kv => enc_k (fst kv) ++ enc_v (snd kv)) m).

(** encode.rs L123-134: [encode_option]. *)
Definition encode_option {T} (enc : T -> list N) (o : option T) : list N :=
  match o with Some v => 1 :: enc v | None => [0] end.

(** encode.rs L152-160: [encode_tuple]. *)
Definition encode_tuple (size : N) (body : list N) : list N := encode_u64 size ++ body.

(** encode.rs L164-172. *)
Definition encode_id (f : field_id) : list N := encode_u32 (fid_into_u32 f).
Definition encode_variant_id (id : N) : list N := encode_u32 id.

(** encode.rs L176-196. *)
Definition encode_field (f : field_id) (body : list N) : list N := encode_id f ++ body.
Definition encode_field_option {T} (f : field_id) (enc : T -> list N) (o : option T) : list N :=
  match o with Some v => encode_id f ++ enc v | None => [] end.

(** * Sizes *)

(** size.rs L8. *)
Definition END_MARKER_SIZE : N := 1.

(** size.rs L27-52: fixed sizes and varint sizes. *)
Definition size_bool : N := 1.
Definition size_u8 : N := 1.
Definition size_i8 : N := 1.
Definition size_f32 : N := 4.
Definition size_f64 : N := 8.
Definition size_uint (w : width) (v : N) : N := size_var w v.
Definition size_sint (w : width) (z : Z) : N := size_var_signed w z.

(** size.rs L56-69: [size_string], [size_bytes_std], [size_bytes_bytes]. *)
Definition size_bytes (v : list N) : N := size_uint W64 (lenN v) + lenN v.

(** size.rs L72-77 [size_vec], L93-98 [size_hash_set], L109-114 [size_array] (whose [N] is
    the number of elements of the array). *)
Definition size_vec {T} (size : T -> N) (xs : list T) : N :=
  size_uint W64 (lenN xs) + sumN (map size xs).

(** size.rs L80-90: [size_hash_map]. *)
Definition size_hash_map {K V} (size_k : K -> N) (size_v : V -> N) (m : list (K * V)) : N :=
  size_uint W64 (lenN m) + sumN (map (fun kv => size_k (fst kv) + size_v (snd kv)) m).

(** size.rs L101-106: [size_option]. *)
Definition size_option {T} (size : T -> N) (o : option T) : N :=
  size_u8 + match o with Some v => size v | None => 0 end.

(** size.rs L119-128; [id << 3] on u32. *)
Definition size_field_id (id : N) : N := size_uint W32 (N.shiftl id 3 mod 2 ^ 32).
Definition size_variant_id (id : N) : N := size_uint W32 id.

(** size.rs L132-146. *)
Definition size_field (id : N) (size : N) : N := size_field_id id + size.
Definition size_field_option {T} (id : N) (size : T -> N) (o : option T) : N :=
  match o with Some v => size_field_id id + size v | None => 0 end.

(** * Readers *)

(** A reader: remaining bytes in, value and remaining bytes out. *)
Definition dec (A : Type) := list N -> res (A * list N).

(** decode.rs L46. *)
Definition END_MARKER : N := 0.

(** decode.rs L48-54: [ensure_size!]. *)
Definition ensure_size {A} (r : list N) (n : N) (k : res A) : res A :=
  if lenN r <? n then Err InsufficientData else k.

(** [Buf::get_u8] on a reader known to be non-empty (it panics otherwise). *)
Definition get_u8 : dec N := fun r =>
  match r with b :: r' => Ok (b, r') | [] => Panic end.

(** decode.rs L61-64, L71-74, L81-84. *)
Definition decode_bool : dec bool := fun r =>
  ensure_size r 1 (do (b, r') <- get_u8 r; Ok (negb (b =? 0), r')).
Definition decode_u8 : dec N := fun r =>
  ensure_size r 1 (get_u8 r).
Definition decode_i8 : dec Z := fun r =>
  ensure_size r 1 (do (b, r') <- get_u8 r;
                   Ok (if b <? 128 then Z.of_N b else (Z.of_N b - 256)%Z, r')).

(** decode.rs L86-108: [decode_int!]; [chunk()] is the whole remaining buffer here. *)
Definition decode_uint (w : width) : dec N := fun r =>
  match decode_arr w r with
  | Some (v, n) => Ok (v, skipn (N.to_nat n) r)
  | None => Err DecodeInt
  end.
Definition decode_sint (w : width) : dec Z := fun r =>
  match decode_arr_signed w r with
  | Some (v, n) => Ok (v, skipn (N.to_nat n) r)
  | None => Err DecodeInt
  end.
Definition decode_u32 := decode_uint W32.
Definition decode_u64 := decode_uint W64.

(** Big-endian number. *)
Definition of_be (l : list N) : N := fold_left (fun a b => a * 256 + b) l 0.

(** decode.rs L115-128: [decode_f32], [decode_f64]. *)
Definition decode_fixed (n : N) : dec N := fun r =>
  ensure_size r n (Ok (of_be (firstn (N.to_nat n) r), skipn (N.to_nat n) r)).
Definition decode_f32 : dec N := decode_fixed 4.
Definition decode_f64 : dec N := decode_fixed 8.

(** decode.rs L145-150 and L157-162: [decode_bytes_std], [decode_bytes_bytes]. *)
Definition decode_bytes : dec (list N) := fun r =>
  do (len, r1) <- decode_u64 r;
  ensure_size r1 len (Ok (firstn (N.to_nat len) r1, skipn (N.to_nat len) r1)).

(** [String::from_utf8]'s check: well-formed byte sequences of the Unicode standard,
    table 3-7. *)
Definition in_range (lo hi b : N) : bool := (lo <=? b) && (b <=? hi).
Definition cont := in_range 128 191.
Fixpoint utf8_ok (l : list N) : bool :=
  match l with
  | [] => true
  | a :: l1 =>
      if a <? 128 then utf8_ok l1
      else match l1 with
      | [] => false
      | b :: l2 =>
          if in_range 194 223 a then cont b && utf8_ok l2
          else match l2 with
          | [] => false
          | c :: l3 =>
              if a =? 224 then in_range 160 191 b && cont c && utf8_ok l3
              else if in_range 225 236 a then cont b && cont c && utf8_ok l3
              else if a =? 237 then in_range 128 159 b && cont c && utf8_ok l3
              else if in_range 238 239 a then cont b && cont c && utf8_ok l3
              else match l3 with
              | [] => false
              | d :: l4 =>
                  if a =? 240 then in_range 144 191 b && cont c && cont d && utf8_ok l4
                  else if in_range 241 243 a then cont b && cont c && cont d && utf8_ok l4
                  else if a =? 244 then in_range 128 143 b && cont c && cont d && utf8_ok l4
                  else false
              end
          end
      end
  end.

(** decode.rs L136-138: [decode_string]. *)
Definition decode_string : dec (list N) := fun r =>
  do (b, r1) <- decode_bytes r;
  if utf8_ok b then Ok (b, r1) else Err NonUtf8.

(** decode.rs L181-183 (and L236-238, L385-387, L444-446): [while r.has_remaining()
    { push(decode(&mut r)?) }].  The closure is deterministic, so an iteration that
    consumes nothing is repeated for ever; [length] iterations are enough otherwise.
    [fuel] counts iterations; running out of it is [Diverge] (lemma [dloop_fuel] shows
    that no larger amount of fuel changes the outcome). *)
Fixpoint dloop {T} (d : dec T) (fuel : nat) (r : list N) : res (list T) :=
  match r with
  | [] => Ok []
  | _ :: _ =>
      match fuel with
      | O => Diverge
      | S f => do (x, r') <- d r; do xs <- dloop d f r'; Ok (x :: xs)
      end
  end.

(** decode.rs L175-185: length, size check, loop over [take(len)]. *)
Definition decode_elems {T} (d : dec T) (r1 : list N) (len : N) : res (list T * list N) :=
  ensure_size r1 len (
    let n := N.to_nat len in
    do xs <- dloop d n (firstn n r1); Ok (xs, skipn n r1)).

(** decode.rs L170-186: [decode_vec]. *)
Definition decode_vec {T} (d : dec T) : dec (list T) := fun r =>
  do (len, r1) <- decode_u64 r; decode_elems d r1 len.

(** [HashMap::insert] on an association list: replace the value of an equal key. *)
Fixpoint map_insert {K V} (eqb : K -> K -> bool) (k : K) (v : V) (m : list (K * V)) : list (K * V) :=
  match m with
  | [] => [(k, v)]
  | (k', v') :: m' => if eqb k k' then (k', v) :: m' else (k', v') :: map_insert eqb k v m'
  end.
Definition map_of {K V} (eqb : K -> K -> bool) (l : list (K * V)) : list (K * V) :=
  fold_left (fun m kv => map_insert eqb (fst kv) (snd kv) m) l [].

(** [HashSet::insert]: keep the element already present. *)
Definition set_insert {K} (eqb : K -> K -> bool) (k : K) (s : list K) : list K :=
  if existsb (eqb k) s then s else s ++ [k].
Definition set_of {K} (eqb : K -> K -> bool) (l : list K) : list K :=
  fold_left (fun s k => set_insert eqb k s) l [].

(** One loop iteration of [decode_hash_map], decode.rs L212: key, then value. *)
Definition dpair {K V} (dk : dec K) (dv : dec V) : dec (K * V) := fun r =>
  do (k, r1) <- dk r; do (v, r2) <- dv r1; Ok ((k, v), r2).

(** decode.rs L194-216: [decode_hash_map]. *)
Definition decode_hash_map {K V} (eqb : K -> K -> bool) (dk : dec K) (dv : dec V)
  : dec (list (K * V)) := fun r =>
  do (l, r1) <- decode_vec (dpair dk dv) r; Ok (map_of eqb l, r1).

(** decode.rs L224-241: [decode_hash_set]. *)
Definition decode_hash_set {K} (eqb : K -> K -> bool) (d : dec K) : dec (list K) := fun r =>
  do (l, r1) <- decode_vec d r; Ok (set_of eqb l, r1).

(** decode.rs L249-256: [decode_option]. *)
Definition decode_option {T} (d : dec T) : dec (option T) := fun r =>
  do (t, r1) <- decode_u8 r;
  if t =? 1 then do (v, r2) <- d r1; Ok (Some v, r2) else Ok (None, r1).

(** decode.rs L277-279: [while r.has_remaining() && vec.len() < N]; [n] is what is left
    of [N].  Returns the elements (the rest of the [Take] is skipped by the caller). *)
Fixpoint darr {T} (d : dec T) (n : nat) (r : list N) : res (list T) :=
  match n, r with
  | S n', _ :: _ => do (x, r') <- d r; do xs <- darr d n' r'; Ok (x :: xs)
  | _, _ => Ok []
  end.

(** decode.rs L265-287: [decode_array]; [vec.try_into().unwrap()] panics unless exactly
    [N] elements were read. *)
Definition decode_array {T} (N' : nat) (d : dec T) : dec (list T) := fun r =>
  do (len, r1) <- decode_u64 r;
  ensure_size r1 len (
    let n := N.to_nat len in
    do xs <- darr d N' (firstn n r1);
    if (length xs =? N')%nat then Ok (xs, skipn n r1) else Panic).

(** decode.rs L297-321: [decode_non_zero_$ty]. *)
Definition decode_non_zero_uint (d : dec N) : dec N := fun r =>
  do (v, r1) <- d r; if v =? 0 then Err EZero else Ok (v, r1).
Definition decode_non_zero_sint (d : dec Z) : dec Z := fun r =>
  do (v, r1) <- d r; if (v =? 0)%Z then Err EZero else Ok (v, r1).

(** lib.rs L174-176: [NonZero::new(..)] followed by [.unwrap()]. *)
Definition nonzero_unwrap {A} (l : list A) (r : list N) : res (list A * list N) :=
  match l with [] => Panic | _ :: _ => Ok (l, r) end.

(** decode.rs L343-349 and L358-364: [decode_non_zero_bytes_std]/[_bytes]. *)
Definition decode_non_zero_bytes : dec (list N) := fun r =>
  do (len, r1) <- decode_u64 r;
  if len =? 0 then Err EZero else
  ensure_size r1 len (nonzero_unwrap (firstn (N.to_nat len) r1) (skipn (N.to_nat len) r1)).

(** decode.rs L330-334: [decode_non_zero_string]. *)
Definition decode_non_zero_string : dec (list N) := fun r =>
  do (b, r1) <- decode_non_zero_bytes r;
  if utf8_ok b then nonzero_unwrap b r1 else Err NonUtf8.

(** decode.rs L373-390: [decode_non_zero_vec]. *)
Definition decode_non_zero_vec {T} (d : dec T) : dec (list T) := fun r =>
  do (len, r1) <- decode_u64 r;
  if len =? 0 then Err EZero else
  do (xs, r2) <- decode_elems d r1 len; nonzero_unwrap xs r2.

(** decode.rs L399-422: [decode_non_zero_hash_map]. *)
Definition decode_non_zero_hash_map {K V} (eqb : K -> K -> bool) (dk : dec K) (dv : dec V)
  : dec (list (K * V)) := fun r =>
  do (len, r1) <- decode_u64 r;
  if len =? 0 then Err EZero else
  do (xs, r2) <- decode_elems (dpair dk dv) r1 len; nonzero_unwrap (map_of eqb xs) r2.

(** decode.rs L431-449: [decode_non_zero_hash_set]. *)
Definition decode_non_zero_hash_set {K} (eqb : K -> K -> bool) (d : dec K) : dec (list K) := fun r =>
  do (len, r1) <- decode_u64 r;
  if len =? 0 then Err EZero else
  do (xs, r2) <- decode_elems d r1 len; nonzero_unwrap (set_of eqb xs) r2.

(** decode.rs L458-460: [decode_id]. *)
Definition decode_id : dec field_id := fun r =>
  do (raw, r1) <- decode_u32 r;
  match fid_from_u32 raw with
  | Some f => Ok (f, r1)
  | None => Err (UnknownEncoding raw)
  end.

(** decode.rs L469-471: [decode_variant_id]. *)
Definition decode_variant_id : dec N := decode_u32.

(** decode.rs L482-487: the varint branch of [decode_skip]. *)
Fixpoint skip_varint (r : list N) : res (list N) :=
  match r with
  | [] => Err InsufficientData
  | b :: r' => if N.land b 128 =? 0 then Ok r' else skip_varint r'
  end.

Definition skip_fixed (n : N) (r : list N) : res (list N) :=
  ensure_size r n (Ok (skipn (N.to_nat n) r)).

(** decode.rs L480-510: [decode_skip]. *)
Definition decode_skip (e : fenc) (r : list N) : res (list N) :=
  match e with
  | EVarint => skip_varint r
  | ELengthPrefixed => do (len, r1) <- decode_u64 r; skip_fixed len r1
  | EFixed1 => skip_fixed 1 r
  | EFixed4 => skip_fixed 4 r
  | EFixed8 => skip_fixed 8 r
  end.

(** * Non-contiguous readers *)

(** A [Buf] made of several chunks (e.g. [Chain], [VecDeque]-like buffers): a list of
    chunks, [chunk()] returns the first non-empty one. *)
Fixpoint chunk (cs : list (list N)) : list N :=
  match cs with
  | [] => []
  | [] :: cs' => chunk cs'
  | c :: _ => c
  end.

(** [Buf::advance(n)] over chunks. *)
Fixpoint advance (n : nat) (cs : list (list N)) : list (list N) :=
  match cs with
  | [] => []
  | c :: cs' => if (n <? length c)%nat then skipn n c :: cs' else advance (n - length c) cs'
  end.

(** decode.rs L95-99 on such a reader. *)
Definition decode_uint_chunked (w : width) (cs : list (list N)) : res (N * list (list N)) :=
  match decode_arr w (chunk cs) with
  | Some (v, n) => Ok (v, advance (N.to_nat n) cs)
  | None => Err DecodeInt
  end.
