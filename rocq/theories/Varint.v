(** Model of crates/mabo/src/varint.rs (whole file, except its tests). *)
From Verif Require Import Base.
Local Open Scope N_scope.

(** The integer widths the [varint!] and [zigzag!] macros are instantiated with:
    varint.rs L44-49 and L193. *)
Inductive width := W16 | W32 | W64 | W128.

(** [std::mem::size_of::<T>() * 8]. *)
Definition bits (w : width) : N :=
  match w with W16 => 16 | W32 => 32 | W64 => 64 | W128 => 128 end.

(** [uN::MAX + 1]. *)
Definition modulus (w : width) : N := 2 ^ bits w.

(** [a.div_ceil(b)] on [usize] (b <> 0). *)
Definition div_ceil (a b : N) : N := (a + b - 1) / b.

(** varint.rs L53-55: [max_size]. *)
Definition max_size (w : width) : nat := N.to_nat (div_ceil (bits w) 7).

(** [u32::leading_zeros] etc. for a value that fits the width. *)
Definition leading_zeros (w : width) (v : N) : N := bits w - N.size v.

(** varint.rs L58-68: [size::<T>(leading_zeros)] with its local [max]. *)
Definition size_lz (w : width) (lz : N) : N :=
  let b := div_ceil (bits w - lz) 7 in
  if b <? 1 then 1 else b.

(** varint.rs L79-90: the loop of [encode_$ty] over the [n] remaining slots of the
    zero-initialised array.  Result: the array (from this slot on) and the number
    of bytes used from here on.  [None] is the [debug_assert_eq!(value, 0)] of L89
    firing. *)
Fixpoint venc (n : nat) (v : N) : option (list N * nat) :=
  match n with
  | O => if v =? 0 then Some ([], O) else None
  | S n' =>
      let b := N.land v 255 in
      if v <? 128 then Some (b :: repeat 0 n', 1%nat)
      else match venc n' (N.shiftr v 7) with
           | Some (r, len) => Some (N.lor b 128 :: r, S len)
           | None => None
           end
  end.

(** varint.rs L76-91: [encode_$ty(value) -> ([u8; MAX], usize)]. *)
Definition encode_arr (w : width) (v : N) : option (list N * nat) :=
  venc (max_size w) v.

(** varint.rs L102-110: the loop of [decode_$ty].  [n] is what is left of
    [take(max_size)], [i] the index, [acc] the accumulated [value]; [<<] on a
    fixed-width unsigned integer drops the bits above the width. *)
Fixpoint vdec (w : width) (n : nat) (i : N) (acc : N) (buf : list N) : option (N * N) :=
  match n, buf with
  | S n', b :: r =>
      let acc' := N.lor acc (N.shiftl (N.land b 127) (7 * i) mod modulus w) in
      if N.land b 128 =? 0 then Some (acc', i + 1)
      else vdec w n' (i + 1) acc' r
  | _, _ => None
  end.

(** varint.rs L100-111: [decode_$ty(buf) -> Result<($ty, usize), DecodeIntError>]. *)
Definition decode_arr (w : width) (buf : list N) : option (N * N) :=
  vdec w (max_size w) 0 0 buf.

(** varint.rs L116-118: [size_$ty(value)]. *)
Definition size_var (w : width) (v : N) : N := size_lz w (leading_zeros w v).

(** Two's complement reinterpretation of the low [bits w] bits of [z] as signed
    ([as $from], and the wrap of [<<] on a signed integer). *)
Definition swrap (w : width) (z : Z) : Z :=
  let m := Z.of_N (modulus w) in
  let u := (z mod m)%Z in
  if (u <? m / 2)%Z then u else (u - m)%Z.

(** varint.rs L11-13: [zigzag_encode_$from]: [((value << 1) ^ (value >> (BITS-1))) as $to]. *)
Definition zigzag_encode (w : width) (z : Z) : N :=
  Z.to_N (Z.lxor (swrap w (Z.shiftl z 1)) (Z.shiftr z (Z.of_N (bits w) - 1))
          mod Z.of_N (modulus w))%Z.

(** varint.rs L18-20: [zigzag_decode_$from]: [((value >> 1) as $from) ^ (-((value & 1) as $from))]. *)
Definition zigzag_decode (w : width) (u : N) : Z :=
  Z.lxor (swrap w (Z.of_N (N.shiftr u 1))) (- Z.of_N (N.land u 1)).

(** varint.rs L123-125, L134-136, L141-143: the signed variants. *)
Definition encode_arr_signed (w : width) (z : Z) : option (list N * nat) :=
  encode_arr w (zigzag_encode w z).
Definition decode_arr_signed (w : width) (buf : list N) : option (Z * N) :=
  match decode_arr w buf with
  | Some (v, n) => Some (zigzag_decode w v, n)
  | None => None
  end.
Definition size_var_signed (w : width) (z : Z) : N :=
  size_lz w (leading_zeros w (zigzag_encode w z)).

(** crates/mabo/src/buf/encode.rs L22-38 ([encode_int!]): the bytes put into the writer,
    [&buf[..len]] of what the varint encoder returned.  The [None] branch is the debug
    assertion; the theorems show it is unreachable for values of the width. *)
Definition varint_bytes (w : width) (v : N) : list N :=
  match encode_arr w v with
  | Some (arr, len) => firstn len arr
  | None => []
  end.
