(** Property theorems C10-C12, C17, C26, C27: the runtime's wire primitives. *)
From Verif Require Import Base Varint VarintSpec VarintProofs Wire WireProofs Utf8 Codec CodecSpec CodecProofs
  Stable WireMore Demo.
Local Open Scope N_scope.

(** * C10: packing a field number and an encoding class *)
Theorem C10_fieldid_roundtrip : forall (id : N) (e : fenc),
  id < 2 ^ 29 -> fid_from_u32 (fid_into_u32 (FieldId id e)) = Some (FieldId id e).
Proof. exact fid_roundtrip. Qed.
Print Assumptions C10_fieldid_roundtrip.

(** Unpacking fails exactly for the classes 5, 6 and 7, and packing is its inverse. *)
Theorem C10_fieldid_unpack : forall raw : N,
  raw < 2 ^ 32 ->
  (fid_from_u32 raw = None <-> 5 <= raw mod 8)
  /\ (forall f, fid_from_u32 raw = Some f ->
        fid_into_u32 f = raw /\ fid_value f = raw / 8 /\ fenc_u32 (fid_enc f) = raw mod 8).
Proof.
  intros raw H. split.
  - unfold fid_from_u32. rewrite <- fenc_from_none. destruct (fenc_from_u32 raw); split; congruence.
  - intros f Hf. destruct (fid_from_into raw f H Hf) as [Hv Hi]. split; [exact Hi|]. split; [exact Hv|].
    unfold fid_from_u32 in Hf. destruct (fenc_from_u32 raw) as [e|] eqn:E; [|discriminate].
    assert (He : fid_enc f = e) by (injection Hf as Hf; subst f; reflexivity). rewrite He. apply fenc_from_some. exact E.
Qed.
Print Assumptions C10_fieldid_unpack.

Example C10_ex : 12345 < 2 ^ 29 /\ fid_into_u32 (FieldId 12345 EFixed4) = 98763
  /\ fid_from_u32 98763 = Some (FieldId 12345 EFixed4) /\ fid_from_u32 13 = None.
Proof. vm_compute. repeat split. Qed.

(** * C11: which of the u32 field numbers survive packing *)
Theorem C11_fieldid_exact : forall (id : N) (e : fenc),
  id < 2 ^ 32 ->
  (fid_from_u32 (fid_into_u32 (FieldId id e)) = Some (FieldId id e) <-> id < 2 ^ 29).
Proof. exact fid_exact. Qed.
Print Assumptions C11_fieldid_exact.

Theorem C11_large_ids_refuted : ~ (forall (id : N) (e : fenc), id < 2 ^ 32 ->
  fid_from_u32 (fid_into_u32 (FieldId id e)) = Some (FieldId id e)).
Proof. intros H. specialize (H (2 ^ 29) EVarint eq_refl). discriminate H. Qed.
Print Assumptions C11_large_ids_refuted.

(** * C12: primitive values *)
Theorem C12_primitives_roundtrip : forall rest : list N,
  (forall b, decode_bool (encode_bool b ++ rest) = Ok (b, rest))
  /\ (forall v, v < 2 ^ 8 -> decode_u8 (encode_u8 v ++ rest) = Ok (v, rest))
  /\ (forall z, signed_range 8 z -> decode_i8 (encode_i8 z ++ rest) = Ok (z, rest))
  /\ (forall w v, v < 2 ^ bits w -> decode_uint w (encode_uint w v ++ rest) = Ok (v, rest))
  /\ (forall w z, signed_range (bits w) z -> decode_sint w (encode_sint w z ++ rest) = Ok (z, rest))
  /\ (forall v, v < 2 ^ 32 -> decode_f32 (encode_f32 v ++ rest) = Ok (v, rest))
  /\ (forall v, v < 2 ^ 64 -> decode_f64 (encode_f64 v ++ rest) = Ok (v, rest))
  /\ (forall l, lenN l < 2 ^ 64 -> decode_bytes (encode_bytes l ++ rest) = Ok (l, rest))
  /\ (forall l, lenN l < 2 ^ 64 -> utf8_ok l = true -> decode_string (encode_bytes l ++ rest) = Ok (l, rest)).
Proof.
  exact (fun rest =>
    conj (fun b => decode_bool_encode b rest)
   (conj (fun v _ => decode_u8_encode v rest)
   (conj (fun z H => decode_i8_encode z rest H)
   (conj (fun w v H => decode_uint_encode w v rest H)
   (conj (fun w z H => decode_sint_encode w z rest H)
   (conj (fun v H => decode_f32_encode v rest H)
   (conj (fun v H => decode_f64_encode v rest H)
   (conj (fun l H => decode_bytes_encode l rest H)
         (fun l H U => decode_string_encode l rest H U))))))))).
Qed.
Print Assumptions C12_primitives_roundtrip.

Example C12_ex : encode_sint W64 (-5000000000) = [255; 199; 175; 160; 37]
  /\ decode_sint W64 [255; 199; 175; 160; 37; 1] = Ok ((-5000000000)%Z, [1])
  /\ encode_f32 1065353216 = [63; 128; 0; 0]
  /\ encode_bytes [226; 130; 172] = [3; 226; 130; 172] /\ utf8_ok [226; 130; 172] = true.
Proof. vm_compute. repeat split. Qed.

(** * C17: non_zero<T> *)
(** Decoding [non_zero<T>] is decoding [T] with zero and empty values replaced by the
    [Zero] error; in particular a successful decode is never zero or empty. *)
Theorem C17_non_zero : forall (E : env) (root : bool) (t : ty) (r : list N),
  nz_inner t = true ->
  decode E root (TNonZero t) r =
  match decode E root t r with
  | Ok (v, r') => if nonzero_val v then Ok (v, r') else Err EZero
  | other => other
  end.
Proof.
  intros E root t r Hin. rewrite (nz_decode E root t r Hin). unfold nz_spec.
  destruct (decode E root t r) as [[v r']| | |]; reflexivity.
Qed.
Print Assumptions C17_non_zero.

Theorem C17_never_zero : forall (E : env) (root : bool) (t : ty) (r : list N) (v : val) (r' : list N),
  nz_inner t = true -> decode E root (TNonZero t) r = Ok (v, r') ->
  v <> VInt 0 /\ v <> VBytes [] /\ v <> VList [] /\ v <> VMap [].
Proof.
  intros E root t r v r' Hin H. rewrite (nz_decode E root t r Hin) in H. unfold nz_spec in H.
  destruct (decode E root t r) as [[x y]| | |]; try discriminate.
  destruct (nonzero_val x) eqn:Ez; [|discriminate]. injection H as <- <-.
  repeat split; intros ->; discriminate.
Qed.
Print Assumptions C17_never_zero.

Example C17_ex :
  decode demo true (TNonZero (TVec (TUInt W16))) [2; 1; 2; 9] = Ok (VList [VInt 1; VInt 2], [9])
  /\ decode demo true (TNonZero (TVec (TUInt W16))) [0; 9] = Err EZero
  /\ decode demo true (TNonZero (TSInt W32)) [0] = Err EZero
  /\ decode demo true (TNonZero TString) [1; 65] = Ok (VBytes [65], []).
Proof. vm_compute. repeat split. Qed.

(** * C26: collections *)
(** A vec payload decodes to its elements in order. *)
Theorem C26_vec_in_order : forall (T : Type) (d : dec T) (enc : T -> list N) (xs : list T) (rest : list N),
  (forall x, In x xs -> enc x <> []) ->
  (forall x r, In x xs -> d (enc x ++ r) = Ok (x, r)) ->
  lenN (concat (map enc xs)) < 2 ^ 64 ->
  decode_vec d (encode_u64 (lenN (concat (map enc xs))) ++ concat (map enc xs) ++ rest) = Ok (xs, rest).
Proof. exact @vec_payload. Qed.
Print Assumptions C26_vec_in_order.

(** A map payload (keys may repeat) decodes to a map with distinct keys that holds, for
    every key, the last value sent for it. *)
Theorem C26_map_last_value : forall (K V : Type) (eqb : K -> K -> bool) (dk : dec K) (dv : dec V)
    (enc : K * V -> list N) (l : list (K * V)) (rest : list N),
  (forall a b, eqb a b = true <-> a = b) ->
  (forall x, In x l -> enc x <> []) ->
  (forall x r, In x l -> dpair dk dv (enc x ++ r) = Ok (x, r)) ->
  lenN (concat (map enc l)) < 2 ^ 64 ->
  exists m,
    decode_hash_map eqb dk dv (encode_u64 (lenN (concat (map enc l))) ++ concat (map enc l) ++ rest) = Ok (m, rest)
    /\ NoDup (map fst m)
    /\ forall k, lookup eqb k m = last_of eqb k l.
Proof.
  intros K V eqb dk dv enc l rest Heq Hne Hd Hlen. exists (map_of eqb l).
  destruct (map_of_spec eqb Heq l) as [H1 H2]. split; [|split; assumption].
  unfold decode_hash_map. rewrite (vec_payload (dpair dk dv) enc l rest Hne Hd Hlen). reflexivity.
Qed.
Print Assumptions C26_map_last_value.

(** A set payload decodes to its distinct elements. *)
Theorem C26_set_distinct : forall (K : Type) (eqb : K -> K -> bool) (d : dec K)
    (enc : K -> list N) (l : list K) (rest : list N),
  (forall a b, eqb a b = true <-> a = b) ->
  (forall x, In x l -> enc x <> []) ->
  (forall x r, In x l -> d (enc x ++ r) = Ok (x, r)) ->
  lenN (concat (map enc l)) < 2 ^ 64 ->
  exists s,
    decode_hash_set eqb d (encode_u64 (lenN (concat (map enc l))) ++ concat (map enc l) ++ rest) = Ok (s, rest)
    /\ NoDup s /\ forall k, In k s <-> In k l.
Proof.
  intros K eqb d enc l rest Heq Hne Hd Hlen. exists (set_of eqb l).
  destruct (set_of_spec eqb Heq l) as [H1 H2]. split; [|split; assumption].
  unfold decode_hash_set. rewrite (vec_payload d enc l rest Hne Hd Hlen). reflexivity.
Qed.
Print Assumptions C26_set_distinct.

Example C26_ex :
  decode demo true (TMap TU8 TBool) [6; 1; 0; 2; 0; 1; 1] = Ok (VMap [(VInt 1, VBool true); (VInt 2, VBool false)], [])
  /\ decode demo true (TSet TU8) [3; 9; 8; 9] = Ok (VList [VInt 9; VInt 8], [])
  /\ decode_hash_map N.eqb decode_u8 decode_u8 (encode_u64 6 ++ [1; 0; 2; 0; 1; 7] ++ [5])
     = Ok ([(1, 7); (2, 0)], [5]).
Proof. vm_compute. repeat split. Qed.

(** * C27: buffers in several chunks *)
(** If the whole varint lies in the current chunk, chunking does not matter. *)
Theorem C27_chunked_partial : forall (w : width) (cs : list (list N)) (v n : N),
  decode_arr w (chunk cs) = Some (v, n) ->
  decode_uint w (concat cs) = Ok (v, concat (advance (N.to_nat n) cs))
  /\ decode_uint_chunked w cs = Ok (v, advance (N.to_nat n) cs).
Proof. exact chunked_same. Qed.
Print Assumptions C27_chunked_partial.

Example C27_ex : decode_arr W32 (chunk [[]; [172; 2; 5]; [6]]) = Some (300, 2)
  /\ decode_uint_chunked W32 [[]; [172; 2; 5]; [6]] = Ok (300, [[5]; [6]]).
Proof. vm_compute. repeat split. Qed.

(** In general it does: a varint split over two chunks is rejected. *)
Theorem C27_chunking_refuted : exists (w : width) (cs : list (list N)) (v : N) (r : list N),
  decode_uint w (concat cs) = Ok (v, r) /\ decode_uint_chunked w cs = Err DecodeInt.
Proof. exists W32, [[172]; [2; 5]], 300, [5]. vm_compute. split; reflexivity. Qed.
Print Assumptions C27_chunking_refuted.

(** * C53: string fields hold exactly UTF-8 *)
(** A length-prefixed byte string is accepted as a string exactly if it is the UTF-8 encoding of
    some text, and rejected as non-UTF-8 otherwise; every text comes back as itself. *)
Theorem C53_string_exactly_utf8 : forall (b rest : list N), lenN b < 2 ^ 64 ->
  (decode_string (encode_bytes b ++ rest) = Ok (b, rest) <-> Utf8 b)
  /\ (decode_string (encode_bytes b ++ rest) = Err NonUtf8 <-> ~ Utf8 b).
Proof.
  intros b rest Hl. unfold decode_string. rewrite (decode_bytes_encode b rest Hl). cbn [bind].
  pose proof (utf8_ok_iff b) as Hi. destruct (utf8_ok b) eqn:E.
  - assert (Utf8 b) by (apply Hi; reflexivity). split; split; intros; try assumption; try congruence; contradiction.
  - assert (~ Utf8 b) by (intros H; apply Hi in H; discriminate). split; split; intros; try assumption; try congruence; contradiction.
Qed.
Print Assumptions C53_string_exactly_utf8.
(** Every string that any input decodes to is the encoding of exactly one text. *)
Theorem C53_decoded_text : forall (r b r' : list N), decode_string r = Ok (b, r') ->
  exists! cs, Forall unicode_scalar cs /\ b = concat (map utf8_of cs).
Proof.
  intros r b r' H. unfold decode_string in H. destruct (decode_bytes r) as [[b0 r0]| | |]; try discriminate.
  cbn [bind] in H. destruct (utf8_ok b0) eqn:E; [|discriminate]. injection H as -> ->.
  apply utf8_ok_iff in E as (cs & Hcs & Hb). exists cs. split; [auto|].
  intros cs' [Hcs' Hb']. apply utf8_inj; [assumption|assumption|congruence].
Qed.
Print Assumptions C53_decoded_text.
Example C53_ex : decode_string (encode_bytes [206; 187; 240; 159; 166; 128] ++ [7]) = Ok ([206; 187; 240; 159; 166; 128], [7])
  /\ [206; 187; 240; 159; 166; 128] = concat (map utf8_of [955; 129408])
  /\ decode_string (encode_bytes [237; 160; 128]) = Err NonUtf8 /\ ~ Utf8 [237; 160; 128].
Proof.
  repeat split; try reflexivity. rewrite <- utf8_ok_iff. vm_compute. discriminate.
Qed.
