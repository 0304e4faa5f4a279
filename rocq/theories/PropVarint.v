(** Property theorems C01-C09: variable-length integers.
    Every theorem is closed by [exact] of a lemma proved elsewhere. *)
From Verif Require Import Base Varint VarintSpec VarintProofs.
Local Open Scope N_scope.

(** C01 *)
Theorem C01_varint_roundtrip : forall (w : width) (v : N) (rest : list N),
  v < 2 ^ bits w ->
  exists arr len, encode_arr w v = Some (arr, len) /\ length arr = max_size w
    /\ decode_arr w (firstn len arr ++ rest) = Some (v, N.of_nat len).
Proof. exact c01. Qed.
Print Assumptions C01_varint_roundtrip.

Example C01_ex : 300 < 2 ^ bits W16 /\ encode_arr W16 300 = Some ([172; 2; 0], 2%nat)
  /\ decode_arr W16 ([172; 2] ++ [9; 9]) = Some (300, 2).
Proof. vm_compute. repeat split. Qed.

(** C02 *)
Theorem C02_varint_signed_roundtrip : forall (w : width) (z : Z) (rest : list N),
  signed_range (bits w) z ->
  exists arr len, encode_arr_signed w z = Some (arr, len) /\ length arr = max_size w
    /\ decode_arr_signed w (firstn len arr ++ rest) = Some (z, N.of_nat len).
Proof. exact c02. Qed.
Print Assumptions C02_varint_signed_roundtrip.

Example C02_ex : signed_range (bits W32) (-2147483648)
  /\ encode_arr_signed W32 (-2147483648) = Some ([255; 255; 255; 255; 15], 5%nat).
Proof. vm_compute. repeat split; discriminate. Qed.

(** C03 *)
Theorem C03_zigzag_forward : forall (w : width) (z : Z),
  signed_range (bits w) z ->
  zigzag_encode w z = zigzag_spec z /\ zigzag_encode w z < 2 ^ bits w
  /\ zigzag_decode w (zigzag_encode w z) = z.
Proof.
  exact (fun w z H => conj (zigzag_encode_spec w z H)
    (conj (zigzag_encode_range w z H) (zigzag_decode_encode w z H))).
Qed.
Print Assumptions C03_zigzag_forward.

Theorem C03_zigzag_backward : forall (w : width) (u : N),
  u < 2 ^ bits w ->
  signed_range (bits w) (zigzag_decode w u) /\ zigzag_encode w (zigzag_decode w u) = u.
Proof. exact (fun w u H => conj (zigzag_decode_range w u H) (zigzag_encode_decode w u H)). Qed.
Print Assumptions C03_zigzag_backward.

Theorem C03_zigzag_small : forall (w : width) (z : Z),
  signed_range (bits w) z ->
  (length (varint_bytes w (zigzag_encode w z)) = 1%nat <-> (-64 <= z <= 63)%Z).
Proof. exact c03_len. Qed.
Print Assumptions C03_zigzag_small.

Example C03_ex : map (zigzag_encode W16) [0; -1; 1; -2; 32767; -32768]%Z = [0; 1; 2; 3; 65534; 65535].
Proof. reflexivity. Qed.

(** C04 *)
Theorem C04_varint_size : forall (w : width) (v : N),
  v < 2 ^ bits w ->
  exists arr len, encode_arr w v = Some (arr, len)
    /\ N.of_nat len = size_var w v
    /\ (1 <= len <= max_size w)%nat
    /\ v < 128 ^ N.of_nat len
    /\ forall k, (1 <= k)%nat -> v < 128 ^ N.of_nat k -> (len <= k)%nat.
Proof. exact c04. Qed.
Print Assumptions C04_varint_size.

Theorem C04_varint_size_signed : forall (w : width) (z : Z),
  signed_range (bits w) z ->
  exists arr len, encode_arr_signed w z = Some (arr, len)
    /\ N.of_nat len = size_var_signed w z /\ (1 <= len <= max_size w)%nat.
Proof. exact c04_signed. Qed.
Print Assumptions C04_varint_size_signed.

(** The maxima are the ones the documentation gives. *)
Theorem C04_max_sizes : map max_size [W16; W32; W64; W128] = [3; 5; 10; 19]%nat.
Proof. exact eq_refl. Qed.
Print Assumptions C04_max_sizes.

Example C04_ex : map (size_var W64) [127; 128; 16383; 16384; 2 ^ 63 - 1; 2 ^ 63] = [1; 2; 2; 3; 9; 10].
Proof. vm_compute. reflexivity. Qed.

(** C05 *)
Theorem C05_varint_canonical : forall (w : width) (v : N),
  v < 2 ^ bits w ->
  exists arr len, encode_arr w v = Some (arr, len)
    /\ bytes_ok (firstn len arr) = true
    /\ leb_framed (firstn len arr) = true
    /\ leb_canonical (firstn len arr) = true
    /\ leb_value (firstn len arr) = v.
Proof. exact c05. Qed.
Print Assumptions C05_varint_canonical.

(** C06 *)
Theorem C06_varint_decode_bounds : forall (w : width) (buf : list N) (v n : N),
  bytes_ok buf = true -> decode_arr w buf = Some (v, n) ->
  v < 2 ^ bits w /\ 1 <= n /\ n <= N.of_nat (max_size w) /\ n <= lenN buf.
Proof. exact c06_ok. Qed.
Print Assumptions C06_varint_decode_bounds.

Theorem C06_varint_decode_fails_iff : forall (w : width) (buf : list N),
  bytes_ok buf = true ->
  (decode_arr w buf = None <-> forall b, In b (firstn (max_size w) buf) -> 128 <= b).
Proof. exact c06_fail. Qed.
Print Assumptions C06_varint_decode_fails_iff.

Example C06_ex : bytes_ok [255; 200; 1; 7] = true /\ decode_arr W16 [255; 200; 1; 7] = Some (25727, 3)
  /\ decode_arr W16 [128; 128; 128; 0] = None.
Proof. vm_compute. auto. Qed.

(** C07 *)
Theorem C07_varint_prefix_free : forall (w : width) (v1 v2 : N) (r1 r2 : list N),
  v1 < 2 ^ bits w -> v2 < 2 ^ bits w ->
  varint_bytes w v1 ++ r1 = varint_bytes w v2 ++ r2 -> v1 = v2 /\ r1 = r2.
Proof. exact c07. Qed.
Print Assumptions C07_varint_prefix_free.

(** C08 *)
Theorem C08_varint_truncated : forall (w : width) (v : N) (p : list N),
  v < 2 ^ bits w -> strict_prefix p (varint_bytes w v) -> decode_arr w p = None.
Proof. exact c08. Qed.
Print Assumptions C08_varint_truncated.

Example C08_ex : strict_prefix [172] (varint_bytes W16 300) /\ decode_arr W16 [172] = None.
Proof. split; [exists 2, []; reflexivity | reflexivity]. Qed.

(** C09: the exact value returned is the denoted number modulo the width, so numbers
    that do not fit are accepted and silently reduced; the claim itself is refuted at
    every width. *)
Theorem C09_varint_decode_exact : forall (w : width) (buf : list N),
  bytes_ok buf = true ->
  decode_arr w buf =
  match leb_split buf with
  | Some (p, _) => if (length p <=? max_size w)%nat
                   then Some (leb_value p mod 2 ^ bits w, lenN p) else None
  | None => None
  end.
Proof. exact decode_arr_spec. Qed.
Print Assumptions C09_varint_decode_exact.

Theorem C09_overlong_refuted : forall w : width,
  exists buf v n, bytes_ok buf = true /\ leb_framed buf = true
    /\ 2 ^ bits w <= leb_value buf
    /\ decode_arr w buf = Some (v, n) /\ v <> leb_value buf.
Proof. exact c09_refuted. Qed.
Print Assumptions C09_overlong_refuted.
