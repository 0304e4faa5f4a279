(** Model of crates/mabo-benches/src/varint.rs (without its tests): the integer encodings that are compared with the runtime's.  They write to the front of a
    buffer and leave the rest of it.  [None] is a panic ([assert!], or [panic!("bad input")]). *)
From Verif Require Import Base Varint.
Local Open Scope N_scope.

(** [to_le_bytes] and [from_le_bytes] of [n] bytes. *)
Fixpoint to_le (n : nat) (v : N) : list N := match n with O => [] | S n' => v mod 256 :: to_le n' (v / 256) end.
Fixpoint of_le (l : list N) : N := match l with [] => 0 | b :: l' => b + 256 * of_le l' end.
(** [std::mem::size_of]. *)
Definition nbytes (w : width) : nat := match w with W16 => 2 | W32 => 4 | W64 => 8 | W128 => 16 end.
(** [assert!(buf.len() > n)]. *)
Definition longer {A} (n : nat) (buf : list N) (r : option A) : option A := if (n <? length buf)%nat then r else None.

(** * postcard, L1-86 *)
(** L8-19, the loop over the [n] cells left of [take]. *)
Fixpoint post_put (n : nat) (v : N) (buf : list N) : list N :=
  match n, buf with
  | S n', _ :: buf' => let b := v mod 256 in if v <? 128 then b :: buf' else N.lor b 128 :: post_put n' (N.shiftr v 7) buf'
  | _, _ => buf
  end.
(** L2-5 [max_size::<u128>]. *)
Definition post_max : nat := N.to_nat ((16 * 8 + 7) / 7).
Definition post_encode (v : N) (buf : list N) : option (list N) := if (post_max <=? length buf)%nat then Some (post_put post_max v buf) else None.
(** L34-47. *)
Fixpoint post_get (n : nat) (i : N) (acc : N) (buf : list N) : option N :=
  match n, buf with
  | S n', b :: r =>
      let acc' := N.lor acc (N.shiftl (N.land b 127) (7 * i) mod modulus W128) in
      if N.land b 128 =? 0 then Some acc' else post_get n' (i + 1) acc' r
  | _, _ => None
  end.
Definition post_decode (buf : list N) : option N := if (post_max <=? length buf)%nat then post_get post_max 0 0 buf else None.
(** L22-31, L50-58: the zigzag functions are those of the runtime, varint.rs L11-20. *)
Definition post_encode_i (z : Z) (buf : list N) : option (list N) := post_encode (zigzag_encode W128 z) buf.
Definition post_decode_i (buf : list N) : option Z := option_map (zigzag_decode W128) (post_decode buf).

(** * bincode, L88-367 *)
(** L94-202: the first byte and the number of bytes behind it of the branches; the last branch is the [else]. *)
Definition bin_classes (w : width) : list (N * nat) :=
  match w with
  | W16 => [(251, 2%nat)] | W32 => [(251, 2%nat); (252, 4%nat)] | W64 => [(251, 2%nat); (252, 4%nat); (253, 8%nat)]
  | W128 => [(251, 2%nat); (252, 4%nat); (253, 8%nat); (254, 16%nat)]
  end.
Fixpoint bin_put (cs : list (N * nat)) (v : N) (buf : list N) : list N :=
  match cs with
  | [] => buf
  | [(t, n)] => t :: to_le n v ++ skipn n (skipn 1 buf)
  | (t, n) :: cs' => if v <? 2 ^ (8 * N.of_nat n) then t :: to_le n v ++ skipn n (skipn 1 buf) else bin_put cs' v buf
  end.
Definition bin_encode (w : width) (v : N) (buf : list N) : option (list N) :=
  longer (nbytes w) buf (Some (if v <=? 250 then v mod 256 :: skipn 1 buf else bin_put (bin_classes w) v buf)).
(** L105-114 etc.: [!(value as uN) * 2 + 1] or [(value as uN) * 2]; neither overflows. *)
Definition bin_zigzag (w : width) (z : Z) : N :=
  let u := Z.to_N (z mod Z.of_N (modulus w)) in if (z <? 0)%Z then (modulus w - 1 - u) * 2 + 1 else u * 2.
Definition bin_encode_i (w : width) (z : Z) (buf : list N) : option (list N) := bin_encode w (bin_zigzag w z) buf.
(** L205-325. *)
Definition bin_decode (w : width) (buf : list N) : option N :=
  longer (nbytes w) buf
    match buf with
    | b :: r => if b <=? 250 then Some b else option_map (fun c => of_le (firstn (snd c) r)) (find (fun c => fst c =? b) (bin_classes w))
    | [] => None
    end.
(** L220-227 etc.: [(value / 2) as iN] or [!(value / 2) as iN]. *)
Definition bin_unzigzag (w : width) (u : N) : Z :=
  if u mod 2 =? 0 then swrap w (Z.of_N (u / 2)) else swrap w (Z.of_N (modulus w - 1 - u / 2)).
Definition bin_decode_i (w : width) (buf : list N) : option Z := option_map (bin_unzigzag w) (bin_decode w buf).

(** * vu128, L369-537 *)
(** The literals [$len_mask], L417-420 and L432-435. *)
Definition len_mask (w : width) : N := match w with W16 => 1 | W32 => 3 | W64 => 7 | W128 => 15 end.
(** L374-387 [encode!]. *)
Definition vu_encode (w : width) (v : N) (buf : list N) : option (list N) :=
  longer (nbytes w) buf
    (Some (if v <? 240 then v :: skipn 1 buf
           else N.lor 240 (N.lxor (N.shiftr (leading_zeros w v) 3 mod 256) (len_mask w)) :: to_le (nbytes w) v ++ skipn (nbytes w) (skipn 1 buf))).
(** L389-405 [decode!]. *)
Definition vu_decode (w : width) (buf : list N) : option N :=
  longer (nbytes w) buf
    match buf with
    | b :: r => Some (if b <? 240 then b else N.land (of_le (firstn (nbytes w) r)) (N.shiftr (modulus w - 1) (N.lxor (N.land (N.land b 15) (len_mask w)) (len_mask w))))
    | [] => None
    end.
(** L407-416 [encode_u8], L422-431 [decode_u8]. *)
Definition vu_encode_u8 (v : N) (buf : list N) : option (list N) :=
  longer 1 buf (Some (if v <? 240 then v :: skipn 1 buf else 240 :: v :: skipn 2 buf)).
Definition vu_decode_u8 (buf : list N) : option N :=
  longer 1 buf match buf with b :: c :: _ => Some (if b <? 15 then b else c) | _ => None end.
(** L437-452 [encode_i!], L454-468 [decode_i!]: [(value >> s) ^ (value << 1)] is the zigzag of the runtime with its two halves exchanged. *)
Definition vu_zigzag (w : width) (z : Z) : N :=
  Z.to_N (Z.lxor (Z.shiftr z (Z.of_N (bits w) - 1) mod Z.of_N (modulus w)) (swrap w (Z.shiftl z 1) mod Z.of_N (modulus w)))%Z.
Definition vu_encode_i (w : width) (z : Z) (buf : list N) : option (list N) := vu_encode w (vu_zigzag w z) buf.
Definition vu_decode_i (w : width) (buf : list N) : option Z := option_map (zigzag_decode w) (vu_decode w buf).
(** The same for 8 bits (L470, L476). *)
Definition vu_encode_i8 (z : Z) (buf : list N) : option (list N) :=
  vu_encode_u8 (Z.to_N (Z.lxor (Z.shiftr z 7 mod 256) (Z.shiftl z 1 mod 256))) buf.
Definition vu_decode_i8 (buf : list N) : option Z :=
  option_map (fun u => let h := Z.of_N (N.shiftr u 1) in Z.lxor h (- Z.of_N (N.land u 1))) (vu_decode_u8 buf).
(** L482-506: floats, given as their bits; [swap_bytes]. *)
Definition swap_bytes (n : nat) (v : N) : N := of_le (rev (to_le n v)).
Definition vu_encode_f (w : width) (v : N) (buf : list N) : option (list N) := vu_encode w (swap_bytes (nbytes w) v) buf.
Definition vu_decode_f (w : width) (buf : list N) : option N := option_map (swap_bytes (nbytes w)) (vu_decode w buf).
