(** Lemmas about the varint model. *)
From Verif Require Import Base Varint VarintSpec.
Local Open Scope N_scope.

(** * Bit facts *)

Lemma land_127 b : N.land b 127 = b mod 128.
Proof. change 127 with (N.ones 7). rewrite N.land_ones. reflexivity. Qed.

Lemma land_255 b : N.land b 255 = b mod 256.
Proof. change 255 with (N.ones 8). rewrite N.land_ones. reflexivity. Qed.

Lemma land_1 b : N.land b 1 = b mod 2.
Proof. change 1 with (N.ones 1). rewrite N.land_ones. reflexivity. Qed.

Lemma shiftr_7 b : N.shiftr b 7 = b / 128.
Proof. rewrite N.shiftr_div_pow2. reflexivity. Qed.

Lemma testbit_small a k n : a < 2 ^ k -> k <= n -> N.testbit a n = false.
Proof.
  intros Ha Hk. rewrite <- (N.mod_small a (2 ^ k)) by exact Ha.
  apply N.mod_pow2_bits_high. exact Hk.
Qed.

Lemma lor_add a b k : a < 2 ^ k -> N.lor a (b * 2 ^ k) = a + b * 2 ^ k.
Proof.
  intros Ha. rewrite <- N.shiftl_mul_pow2.
  assert (H : N.land a (N.shiftl b k) = 0).
  { apply N.bits_inj. intro n. rewrite N.land_spec, N.bits_0.
    destruct (N.lt_ge_cases n k) as [Hn|Hn].
    - rewrite N.shiftl_spec_low by exact Hn. apply andb_false_r.
    - rewrite (testbit_small a k n Ha Hn). reflexivity. }
  rewrite <- N.lxor_lor by exact H. symmetry. apply N.add_nocarry_lxor. exact H.
Qed.

Lemma land_128_zero b : b < 256 -> (N.land b 128 =? 0) = (b <? 128).
Proof.
  intros Hb. replace 128 with (N.shiftl 1 7) at 1 by reflexivity.
  assert (H : N.land b (N.shiftl 1 7) = N.shiftl (N.land (N.shiftr b 7) 1) 7).
  { apply N.bits_inj. intro n. rewrite N.land_spec.
    destruct (N.lt_ge_cases n 7) as [Hn|Hn].
    - rewrite !N.shiftl_spec_low by exact Hn. apply andb_false_r.
    - rewrite !N.shiftl_spec_high' by exact Hn.
      rewrite N.land_spec, N.shiftr_spec by lia.
      replace (n - 7 + 7) with n by lia. reflexivity. }
  rewrite H, land_1.
  rewrite N.shiftl_mul_pow2, N.shiftr_div_pow2.
  change (2 ^ 7) with 128.
  destruct (N.ltb_spec b 128); apply N.eqb_eq || apply N.eqb_neq; lia.
Qed.

Lemma lor_128 b : b < 256 -> N.lor b 128 = b mod 128 + 128.
Proof.
  intros Hb.
  assert (H : N.lor b 128 = N.lor (b mod 128) 128).
  { apply N.bits_inj. intro n. rewrite !N.lor_spec.
    destruct (N.eq_dec n 7) as [->|Hn].
    - replace (N.testbit 128 7) with true by reflexivity. rewrite !orb_true_r. reflexivity.
    - change 128 with (2 ^ 7). rewrite N.pow2_bits_false by lia. rewrite !orb_false_r.
      destruct (N.lt_ge_cases n 7).
      + rewrite N.mod_pow2_bits_low by lia. reflexivity.
      + rewrite N.mod_pow2_bits_high by lia.
        apply testbit_small with (k := 8); [exact Hb | lia]. }
  rewrite H. replace 128 with (1 * 2 ^ 7) at 2 by reflexivity.
  rewrite lor_add; [reflexivity | apply N.mod_lt; discriminate].
Qed.

(** * Encoder *)

Lemma leb_framed_cons b x l :
  leb_framed (b :: x :: l) = (128 <=? b) && (b <? 256) && leb_framed (x :: l).
Proof. reflexivity. Qed.

Definition pow128 (n : nat) : N := 128 ^ N.of_nat n.

Lemma pow128_S n : pow128 (S n) = 128 * pow128 n.
Proof. unfold pow128. rewrite Nat2N.inj_succ, N.pow_succ_r'. reflexivity. Qed.

Lemma pow128_pos n : 1 <= pow128 n.
Proof. induction n; [reflexivity|]. rewrite pow128_S. lia. Qed.

Lemma venc_spec n : forall v, v < pow128 n -> (n > 0)%nat ->
  exists l, venc n v = Some (l ++ repeat 0 (n - length l), length l)
    /\ (1 <= length l <= n)%nat
    /\ leb_value l = v /\ leb_framed l = true /\ leb_canonical l = true
    /\ bytes_ok l = true
    /\ v < pow128 (length l)
    /\ ((length l = 1)%nat \/ pow128 (length l - 1) <= v).
Proof.
  induction n as [|n IH]; intros v Hv Hn; [lia|]. cbn [venc].
  destruct (N.ltb_spec v 128) as [Hs|Hs].
  - exists [v]. cbn [length app]. rewrite land_255.
    rewrite (N.mod_small v 256) by lia.
    replace (S n - 1)%nat with n by lia.
    repeat split; cbn [leb_value leb_framed leb_canonical bytes_ok forallb]; try lia.
    + unfold byte_ok. lia.
    + unfold pow128. cbn. lia.
  - assert (n > 0)%nat as Hn'.
    { destruct n; [|lia]. unfold pow128 in Hv. cbn in Hv. lia. }
    rewrite pow128_S in Hv.
    destruct (IH (N.shiftr v 7)) as (l & He & Hl & Hval & Hfr & Hcan & Hok & Hub & Hlb);
      [rewrite shiftr_7; lia | exact Hn' |].
    rewrite He. exists (N.lor (N.land v 255) 128 :: l).
    rewrite land_255, lor_128 by lia. rewrite shiftr_7 in *.
    cbn [length app]. replace (S n - S (length l))%nat with (n - length l)%nat by lia.
    destruct l as [|x l]; [cbn in Hl; lia|].
    split; [reflexivity|]. split; [lia|]. split; [|split; [|split; [|split; [|split]]]].
    + cbn [leb_value] in *. lia.
    + rewrite leb_framed_cons, Hfr. lia.
    + destruct l as [|y l].
      * cbn [leb_canonical last leb_value leb_framed] in *. cbn.
        destruct (N.eqb_spec x 0); [|reflexivity]. lia.
      * exact Hcan.
    + unfold bytes_ok in *. cbn [forallb] in *. rewrite Hok, andb_true_r. unfold byte_ok. lia.
    + rewrite pow128_S. lia.
    + right. replace (S (length (x :: l)) - 1)%nat with (S (length (x :: l) - 1))
        by (cbn [length]; lia).
      rewrite pow128_S. destruct Hlb as [Hlb|Hlb].
      * rewrite Hlb. cbn. lia.
      * lia.
Qed.

Lemma modulus_pow128 w : modulus w <= pow128 (max_size w).
Proof. destruct w; vm_compute; discriminate. Qed.

Lemma max_size_pos w : (max_size w > 0)%nat.
Proof. destruct w; cbv; lia. Qed.

Lemma encode_arr_spec w v : v < modulus w ->
  exists l, encode_arr w v = Some (l ++ repeat 0 (max_size w - length l), length l)
    /\ (1 <= length l <= max_size w)%nat
    /\ leb_value l = v /\ leb_framed l = true /\ leb_canonical l = true
    /\ bytes_ok l = true
    /\ v < pow128 (length l)
    /\ ((length l = 1)%nat \/ pow128 (length l - 1) <= v).
Proof.
  intros Hv. apply venc_spec; [|apply max_size_pos].
  eapply N.lt_le_trans; [exact Hv | apply modulus_pow128].
Qed.

(** * Decoder *)

Lemma leb_split_framed buf p q :
  bytes_ok buf = true -> leb_split buf = Some (p, q) ->
  buf = p ++ q /\ leb_framed p = true /\ (1 <= length p)%nat.
Proof.
  revert p q. induction buf as [|b buf IH]; intros p q Hok H; [discriminate|].
  cbn [bytes_ok forallb] in Hok. apply andb_true_iff in Hok as [Hb Hok]. unfold byte_ok in Hb.
  cbn [leb_split] in H. destruct (N.ltb_spec b 128) as [Hs|Hs].
  - injection H as <- <-. cbn. repeat split; try lia.
  - destruct (leb_split buf) as [[p' q']|] eqn:E; [|discriminate].
    injection H as <- <-. destruct (IH p' q' Hok eq_refl) as (-> & Hf & Hl).
    repeat split; [|cbn; lia].
    destruct p' as [|x p']; [discriminate|]. rewrite leb_framed_cons, Hf. lia.
Qed.

Lemma framed_split l rest : leb_framed l = true -> leb_split (l ++ rest) = Some (l, rest).
Proof.
  induction l as [|b l IH]; intros H; [discriminate|].
  cbn [app leb_split]. destruct l as [|c l].
  - cbn [leb_framed] in H. rewrite H. reflexivity.
  - rewrite leb_framed_cons in H. apply andb_true_iff in H as [Hb H].
    destruct (N.ltb_spec b 128); [lia|]. rewrite IH by exact H. reflexivity.
Qed.

Lemma leb_value_bound l : leb_value l < pow128 (length l).
Proof.
  induction l as [|b l IH]; [reflexivity|]. cbn [leb_value length]. rewrite pow128_S. lia.
Qed.

Lemma shift_ok w (i : nat) : (i < max_size w)%nat -> 7 * N.of_nat i < bits w.
Proof.
  destruct w;
  [change (max_size W16) with 3%nat | change (max_size W32) with 5%nat
  | change (max_size W64) with 10%nat | change (max_size W128) with 19%nat];
  cbn [bits]; lia.
Qed.

Lemma pow2_7 (i : nat) : 2 ^ (7 * N.of_nat i) = pow128 i.
Proof. unfold pow128. rewrite N.pow_mul_r. reflexivity. Qed.

Lemma vdec_step w (i : nat) acc x :
  (i < max_size w)%nat -> acc < pow128 i -> acc < modulus w -> x < 128 ->
  N.lor acc (N.shiftl x (7 * N.of_nat i) mod modulus w)
  = (acc + pow128 i * x) mod modulus w.
Proof.
  intros Hi Ha Hm Hx.
  pose proof (shift_ok w i Hi) as Hs.
  assert (HM : modulus w = pow128 i * 2 ^ (bits w - 7 * N.of_nat i)).
  { unfold modulus. rewrite <- pow2_7, <- N.pow_add_r. f_equal. lia. }
  pose proof (pow128_pos i) as Hp.
  assert (Hk : 2 ^ (bits w - 7 * N.of_nat i) <> 0) by (apply N.pow_nonzero; lia).
  rewrite N.shiftl_mul_pow2, pow2_7, HM.
  rewrite (N.mul_comm x (pow128 i)).
  rewrite N.mul_mod_distr_l by lia.
  replace (N.lor acc (pow128 i * (x mod 2 ^ (bits w - 7 * N.of_nat i))))
    with (acc + pow128 i * (x mod 2 ^ (bits w - 7 * N.of_nat i))).
  2:{ rewrite (N.mul_comm (pow128 i)), <- pow2_7. symmetry. apply lor_add.
      rewrite pow2_7. exact Ha. }
  (* (acc + p*x) mod (p*k) = acc + p * (x mod k) *)
  set (k := 2 ^ (bits w - 7 * N.of_nat i)) in *.
  rewrite N.mod_mul_r by lia.
  replace ((acc + pow128 i * x) mod pow128 i) with acc.
  2:{ rewrite N.mul_comm, N.mod_add by lia. symmetry. apply N.mod_small. exact Ha. }
  replace ((acc + pow128 i * x) / pow128 i) with x.
  2:{ rewrite N.mul_comm, N.div_add by lia. rewrite N.div_small by exact Ha. reflexivity. }
  lia.
Qed.

Lemma vdec_spec w n : forall i acc buf,
  bytes_ok buf = true ->
  (i + n = max_size w)%nat -> acc < pow128 i -> acc < modulus w ->
  vdec w n (N.of_nat i) acc buf =
  match leb_split buf with
  | Some (p, _) =>
      if (length p <=? n)%nat
      then Some ((acc + pow128 i * leb_value p) mod modulus w, N.of_nat i + lenN p)
      else None
  | None => None
  end.
Proof.
  assert (HM0 : modulus w <> 0) by (destruct w; discriminate).
  induction n as [|n IH]; intros i acc buf Hok Hin Ha Hm.
  - cbn [vdec]. destruct (leb_split buf) as [[p q]|] eqn:E; [|reflexivity].
    destruct (leb_split_framed _ _ _ Hok E) as (_ & _ & Hl).
    destruct (Nat.leb_spec (length p) 0); [lia|reflexivity].
  - destruct buf as [|b r]; [reflexivity|].
    cbn [bytes_ok forallb] in Hok. apply andb_true_iff in Hok as [Hb Hok].
    unfold byte_ok in Hb.
    cbn [vdec leb_split]. rewrite land_128_zero by lia.
    rewrite land_127. rewrite vdec_step by (try lia; apply N.mod_lt; discriminate).
    destruct (N.ltb_spec b 128) as [Hs|Hs].
    + cbn [length Nat.leb leb_value lenN]. unfold lenN. cbn [length].
      rewrite N.mul_0_r, N.add_0_r. reflexivity.
    + replace (N.of_nat i + 1) with (N.of_nat (S i)) by lia.
      rewrite IH.
      * destruct (leb_split r) as [[p q]|]; [|reflexivity].
        cbn [length Nat.leb]. destruct (Nat.leb (length p) n); [|reflexivity].
        f_equal. f_equal.
        -- rewrite N.add_mod_idemp_l by exact HM0. f_equal.
           cbn [leb_value]. rewrite pow128_S. lia.
        -- unfold lenN. cbn [length]. lia.
      * exact Hok.
      * lia.
      * eapply N.le_lt_trans; [apply N.mod_le; exact HM0|]. rewrite pow128_S.
        pose proof (N.mod_lt b 128 ltac:(discriminate)). nia.
      * apply N.mod_lt. exact HM0.
Qed.

(** Complete characterisation of the decoder. *)
Lemma decode_arr_spec w buf : bytes_ok buf = true ->
  decode_arr w buf =
  match leb_split buf with
  | Some (p, _) =>
      if (length p <=? max_size w)%nat
      then Some (leb_value p mod modulus w, lenN p) else None
  | None => None
  end.
Proof.
  intros Hok. unfold decode_arr. change 0 with (N.of_nat 0) at 1.
  rewrite vdec_spec; [|exact Hok|reflexivity|cbv; reflexivity|destruct w; reflexivity].
  destruct (leb_split buf) as [[p q]|]; [|reflexivity].
  unfold pow128. cbn [N.of_nat N.pow]. rewrite N.mul_1_l, !N.add_0_l. reflexivity.
Qed.

Lemma varint_bytes_spec w v : v < modulus w ->
  leb_value (varint_bytes w v) = v
  /\ leb_framed (varint_bytes w v) = true
  /\ leb_canonical (varint_bytes w v) = true
  /\ bytes_ok (varint_bytes w v) = true
  /\ (1 <= length (varint_bytes w v) <= max_size w)%nat
  /\ v < pow128 (length (varint_bytes w v))
  /\ ((length (varint_bytes w v) = 1)%nat \/ pow128 (length (varint_bytes w v) - 1) <= v).
Proof.
  intros Hv. destruct (encode_arr_spec w v Hv) as (l & He & Hl & H1 & H2 & H3 & H4 & H5 & H6).
  unfold varint_bytes. rewrite He, firstn_app, Nat.sub_diag, firstn_all. cbn [firstn].
  rewrite app_nil_r. tauto.
Qed.

Lemma bytes_ok_app a b : bytes_ok (a ++ b) = bytes_ok a && bytes_ok b.
Proof. apply forallb_app. Qed.

Lemma varint_roundtrip w v rest : v < modulus w -> bytes_ok rest = true ->
  decode_arr w (varint_bytes w v ++ rest) = Some (v, lenN (varint_bytes w v)).
Proof.
  intros Hv Hr. destruct (varint_bytes_spec w v Hv) as (H1 & H2 & H3 & H4 & H5 & _).
  rewrite decode_arr_spec by (rewrite bytes_ok_app, H4; exact Hr).
  rewrite framed_split by exact H2.
  destruct (Nat.leb_spec (length (varint_bytes w v)) (max_size w)); [|lia].
  rewrite H1, N.mod_small by exact Hv. reflexivity.
Qed.

(** The decoder looks at nothing behind the terminating byte, so trailing data may be
    anything (also data that is not bytes of the model). *)
Lemma vdec_app w n : forall i acc p rest,
  leb_framed p = true -> vdec w n i acc (p ++ rest) = vdec w n i acc p.
Proof.
  induction n as [|n IH]; intros i acc p rest Hf; [reflexivity|].
  destruct p as [|b p]; [discriminate|]. cbn [app vdec].
  destruct p as [|c p].
  - cbn [leb_framed] in Hf. rewrite land_128_zero by lia. rewrite Hf. reflexivity.
  - rewrite leb_framed_cons in Hf. apply andb_true_iff in Hf as [Hb Hf].
    destruct (N.land b 128 =? 0); [reflexivity|]. apply IH. exact Hf.
Qed.

Lemma varint_roundtrip_any w v rest : v < modulus w ->
  decode_arr w (varint_bytes w v ++ rest) = Some (v, lenN (varint_bytes w v)).
Proof.
  intros Hv. destruct (varint_bytes_spec w v Hv) as (_ & Hf & _).
  unfold decode_arr. rewrite vdec_app by exact Hf.
  pose proof (varint_roundtrip w v [] Hv eq_refl) as H. rewrite app_nil_r in H. exact H.
Qed.

(** * Size *)

Lemma size_bound v : v < 2 ^ N.size v.
Proof. apply N.size_gt. Qed.

Lemma pow128_mono a b : (a <= b)%nat -> pow128 a <= pow128 b.
Proof. intros H. unfold pow128. apply N.pow_le_mono_r; [discriminate|lia]. Qed.

Lemma pow128_strict a b : (a < b)%nat -> pow128 a < pow128 b.
Proof. intros H. unfold pow128. apply N.pow_lt_mono_r; [reflexivity|lia]. Qed.

(** [div_ceil (N.size v) 7] is the number of 7-bit groups. *)
Lemma size_le_bits w v : v < modulus w -> N.size v <= bits w.
Proof.
  intros Hv. destruct (N.eq_dec v 0) as [->|H0]; [cbn; lia|].
  rewrite N.size_log2 by exact H0.
  apply N.le_succ_l. apply N.log2_lt_pow2; [lia|]. exact Hv.
Qed.

Lemma size_var_groups w v : v < modulus w ->
  size_var w v = N.max 1 (div_ceil (N.size v) 7).
Proof.
  intros Hv. unfold size_var, size_lz, leading_zeros.
  pose proof (size_le_bits w v Hv).
  replace (bits w - (bits w - N.size v)) with (N.size v) by lia.
  destruct (N.ltb_spec (div_ceil (N.size v) 7) 1); lia.
Qed.

Lemma groups_unique v n : v <> 0 -> (n >= 1)%nat ->
  v < pow128 n -> ((n = 1)%nat \/ pow128 (n - 1) <= v) ->
  div_ceil (N.size v) 7 = N.of_nat n.
Proof.
  intros H0 Hn Hub Hlb. unfold div_ceil.
  rewrite N.size_log2 by exact H0.
  assert (Hl : N.log2 v < 7 * N.of_nat n).
  { apply N.log2_lt_pow2; [lia|]. rewrite pow2_7. exact Hub. }
  assert (Hg : 7 * N.of_nat (n - 1) <= N.log2 v).
  { destruct Hlb as [->|Hlb]; [cbn; lia|].
    apply N.log2_le_pow2; [lia|]. rewrite pow2_7. exact Hlb. }
  lia.
Qed.

Lemma varint_size w v : v < modulus w -> lenN (varint_bytes w v) = size_var w v.
Proof.
  intros Hv. rewrite size_var_groups by exact Hv.
  destruct (varint_bytes_spec w v Hv) as (_ & _ & _ & _ & H5 & H6 & H7).
  unfold lenN. destruct (N.eq_dec v 0) as [->|H0].
  - destruct H7 as [->|H7]; [reflexivity|].
    pose proof (pow128_pos (length (varint_bytes w 0) - 1)). lia.
  - rewrite (groups_unique v (length (varint_bytes w v))); [lia|exact H0|lia|exact H6|exact H7].
Qed.

(** * Zigzag *)

Lemma modulus_Z w : Z.of_N (modulus w) = (2 * 2 ^ (Z.of_N (bits w) - 1))%Z.
Proof. destruct w; reflexivity. Qed.

Lemma lxor_m1 x : Z.lxor x (-1) = (- x - 1)%Z.
Proof. rewrite Z.lxor_m1_r. unfold Z.lnot. lia. Qed.

Lemma swrap_mod w z : (swrap w z mod Z.of_N (modulus w) = z mod Z.of_N (modulus w))%Z.
Proof.
  unfold swrap. set (m := Z.of_N (modulus w)).
  assert (m > 0)%Z by (subst m; destruct w; reflexivity).
  destruct (z mod m <? m / 2)%Z.
  - apply Z.mod_mod. lia.
  - replace (z mod m - m)%Z with (z mod m + (-1) * m)%Z by lia.
    rewrite Z.mod_add by lia. apply Z.mod_mod. lia.
Qed.

Lemma swrap_id w z : signed_range (bits w) z -> swrap w z = z.
Proof.
  unfold signed_range, swrap. rewrite modulus_Z.
  set (h := (2 ^ (Z.of_N (bits w) - 1))%Z).
  assert (h > 0)%Z by (subst h; destruct w; reflexivity).
  intros Hz. replace (2 * h / 2)%Z with h by (rewrite Z.mul_comm, Z.div_mul; lia).
  destruct (Z.lt_ge_cases z 0).
  - replace (z mod (2 * h))%Z with (z + 2 * h)%Z.
    2:{ apply Z.mod_unique with (q := (-1)%Z); lia. }
    destruct (Z.ltb_spec (z + 2 * h) h); lia.
  - rewrite Z.mod_small by lia. destruct (Z.ltb_spec z h); lia.
Qed.

Lemma zigzag_encode_spec w z : signed_range (bits w) z -> zigzag_encode w z = zigzag_spec z.
Proof.
  intros Hz. unfold zigzag_encode, zigzag_spec.
  assert (Hh : (2 ^ (Z.of_N (bits w) - 1) > 0)%Z) by (destruct w; reflexivity).
  rewrite Z.shiftl_mul_pow2 by lia. rewrite Z.shiftr_div_pow2 by (destruct w; cbn; lia).
  pose proof (modulus_Z w) as HM. unfold signed_range in Hz.
  set (h := (2 ^ (Z.of_N (bits w) - 1))%Z) in *.
  change (2 ^ 1)%Z with 2%Z.
  assert (Hmpos : (Z.of_N (modulus w) > 0)%Z) by lia.
  destruct (Z.leb_spec 0 z) as [H0|H0].
  - rewrite Z.div_small by lia. rewrite Z.lxor_0_r, swrap_mod.
    rewrite Z.mod_small by lia. f_equal. lia.
  - replace (z / h)%Z with (-1)%Z.
    2:{ apply Z.div_unique with (r := (z + h)%Z); lia. }
    rewrite lxor_m1. f_equal.
    pose proof (swrap_mod w (z * 2)) as Hs.
    set (s := swrap w (z * 2)) in *.
    replace (- s - 1)%Z with ((-1) * s + (-1))%Z by lia.
    rewrite <- Z.add_mod_idemp_l, <- Z.mul_mod_idemp_r by lia.
    rewrite Hs. rewrite Z.mul_mod_idemp_r, Z.add_mod_idemp_l by lia.
    rewrite Z.mod_small by lia. lia.
Qed.

Lemma zigzag_spec_range w z : signed_range (bits w) z -> zigzag_spec z < modulus w.
Proof.
  unfold signed_range, zigzag_spec. pose proof (modulus_Z w) as HM.
  set (h := (2 ^ (Z.of_N (bits w) - 1))%Z) in *. intros Hz.
  destruct (Z.leb_spec 0 z); lia.
Qed.

Lemma zigzag_encode_range w z : signed_range (bits w) z -> zigzag_encode w z < modulus w.
Proof. intros H. rewrite zigzag_encode_spec by exact H. apply zigzag_spec_range. exact H. Qed.

Lemma zigzag_decode_spec w u : u < modulus w ->
  zigzag_decode w u = (if N.even u then Z.of_N (u / 2) else - Z.of_N (u / 2) - 1)%Z.
Proof.
  intros Hu. unfold zigzag_decode.
  rewrite land_1. rewrite N.shiftr_div_pow2. change (2 ^ 1) with 2.
  rewrite swrap_id.
  2:{ unfold signed_range. pose proof (modulus_Z w) as HM.
      set (h := (2 ^ (Z.of_N (bits w) - 1))%Z) in *. lia. }
  destruct (N.even u) eqn:E.
  - apply N.even_spec in E. destruct E as [k ->].
    replace (2 * k mod 2) with 0 by (rewrite N.mul_comm, N.mod_mul; lia).
    rewrite Z.lxor_0_r. reflexivity.
  - assert (E' : N.odd u = true) by (rewrite <- N.negb_even, E; reflexivity).
    apply N.odd_spec in E'. destruct E' as [k ->].
    replace ((2 * k + 1) mod 2) with 1 by (rewrite N.add_comm, N.mul_comm, N.mod_add by lia; reflexivity).
    apply lxor_m1.
Qed.

Lemma zigzag_decode_encode w z : signed_range (bits w) z ->
  zigzag_decode w (zigzag_encode w z) = z.
Proof.
  intros Hz. rewrite zigzag_decode_spec by (apply zigzag_encode_range; exact Hz).
  rewrite zigzag_encode_spec by exact Hz. unfold zigzag_spec.
  destruct (Z.leb_spec 0 z) as [H|H].
  - replace (Z.to_N (2 * z)) with (2 * Z.to_N z) by lia.
    rewrite N.even_mul. cbn [N.even orb].
    rewrite (N.mul_comm 2), N.div_mul by discriminate. lia.
  - replace (Z.to_N (-2 * z - 1)) with (2 * Z.to_N (- z - 1) + 1) by lia.
    rewrite N.even_add, N.even_mul. cbn [N.even orb Bool.eqb].
    replace ((2 * Z.to_N (- z - 1) + 1) / 2) with (Z.to_N (- z - 1)) by lia. lia.
Qed.

Lemma zigzag_decode_range w u : u < modulus w -> signed_range (bits w) (zigzag_decode w u).
Proof.
  intros Hu. rewrite zigzag_decode_spec by exact Hu. unfold signed_range.
  pose proof (modulus_Z w) as HM. set (h := (2 ^ (Z.of_N (bits w) - 1))%Z) in *.
  destruct (N.even u); lia.
Qed.

Lemma zigzag_encode_decode w u : u < modulus w -> zigzag_encode w (zigzag_decode w u) = u.
Proof.
  intros Hu. rewrite zigzag_encode_spec by (apply zigzag_decode_range; exact Hu).
  rewrite zigzag_decode_spec by exact Hu. unfold zigzag_spec.
  destruct (N.even u) eqn:E.
  - apply N.even_spec in E. destruct E as [k ->].
    rewrite (N.mul_comm 2), N.div_mul by discriminate.
    destruct (Z.leb_spec 0 (Z.of_N k)); lia.
  - assert (E' : N.odd u = true) by (rewrite <- N.negb_even, E; reflexivity).
    apply N.odd_spec in E'. destruct E' as [k ->].
    replace ((2 * k + 1) / 2) with k by lia.
    destruct (Z.leb_spec 0 (- Z.of_N k - 1)); lia.
Qed.

(** * Prefixes *)

Lemma framed_prefix_free p r q s :
  leb_framed p = true -> leb_framed q = true -> p ++ r = q ++ s -> p = q /\ r = s.
Proof.
  intros Hp Hq H. pose proof (framed_split p r Hp) as E1.
  rewrite H in E1. rewrite framed_split in E1 by exact Hq.
  injection E1 as <- <-. auto.
Qed.

Lemma framed_strict_prefix l p : leb_framed l = true -> strict_prefix p l -> leb_split p = None.
Proof.
  revert p. induction l as [|b l IH]; intros p Hf (x & r & H); [discriminate|].
  destruct p as [|c p]; [reflexivity|]. injection H as -> H.
  destruct l as [|d l]; [destruct p; discriminate|].
  rewrite leb_framed_cons in Hf. apply andb_true_iff in Hf as [Hb Hf].
  cbn [leb_split]. destruct (N.ltb_spec c 128); [lia|].
  rewrite IH; [reflexivity|exact Hf|]. exists x, r. exact H.
Qed.

(** * Statements used by the property file *)

Lemma encode_arr_bytes w v : v < modulus w ->
  exists arr, encode_arr w v = Some (arr, length (varint_bytes w v))
    /\ length arr = max_size w
    /\ firstn (length (varint_bytes w v)) arr = varint_bytes w v.
Proof.
  intros Hv. destruct (encode_arr_spec w v Hv) as (l & He & Hl & _).
  assert (Hb : varint_bytes w v = l).
  { unfold varint_bytes. rewrite He, firstn_app, Nat.sub_diag, firstn_all. cbn [firstn].
    apply app_nil_r. }
  rewrite Hb. eexists. split; [exact He|]. split.
  - rewrite app_length, repeat_length. lia.
  - rewrite firstn_app, Nat.sub_diag, firstn_all. cbn [firstn]. apply app_nil_r.
Qed.

Lemma c01 w v rest : v < 2 ^ bits w ->
  exists arr len, encode_arr w v = Some (arr, len) /\ length arr = max_size w
    /\ decode_arr w (firstn len arr ++ rest) = Some (v, N.of_nat len).
Proof.
  intros Hv. destruct (encode_arr_bytes w v Hv) as (arr & He & Ha & Hf).
  exists arr, (length (varint_bytes w v)). rewrite Hf.
  repeat split; [exact He|exact Ha|]. apply varint_roundtrip_any. exact Hv.
Qed.

Lemma c02 w z rest : signed_range (bits w) z ->
  exists arr len, encode_arr_signed w z = Some (arr, len) /\ length arr = max_size w
    /\ decode_arr_signed w (firstn len arr ++ rest) = Some (z, N.of_nat len).
Proof.
  intros Hz. destruct (c01 w (zigzag_encode w z) rest (zigzag_encode_range w z Hz))
    as (arr & len & He & Ha & Hd).
  exists arr, len. repeat split; [exact He|exact Ha|].
  unfold decode_arr_signed. rewrite Hd, zigzag_decode_encode by exact Hz. reflexivity.
Qed.

Lemma c03_len w z : signed_range (bits w) z ->
  (length (varint_bytes w (zigzag_encode w z)) = 1%nat <-> (-64 <= z <= 63)%Z).
Proof.
  intros Hz. destruct (varint_bytes_spec w _ (zigzag_encode_range w z Hz))
    as (_ & _ & _ & _ & Hl & Hub & Hlb).
  rewrite zigzag_encode_spec in * by exact Hz.
  set (n := length (varint_bytes w (zigzag_spec z))) in *.
  assert (H1 : zigzag_spec z < 128 <-> (-64 <= z <= 63)%Z).
  { unfold zigzag_spec. destruct (Z.leb_spec 0 z); lia. }
  rewrite <- H1. split.
  - intros Hn. rewrite Hn in Hub. exact Hub.
  - intros Hs. destruct Hlb as [H|H]; [exact H|].
    destruct (Nat.eq_dec n 1) as [E|E]; [exact E|].
    assert (pow128 1 <= pow128 (n - 1)) by (apply pow128_mono; lia).
    change (pow128 1) with 128 in *. lia.
Qed.

Lemma c04 w v : v < 2 ^ bits w ->
  exists arr len, encode_arr w v = Some (arr, len)
    /\ N.of_nat len = size_var w v
    /\ (1 <= len <= max_size w)%nat
    /\ v < 128 ^ N.of_nat len
    /\ forall k, (1 <= k)%nat -> v < 128 ^ N.of_nat k -> (len <= k)%nat.
Proof.
  intros Hv. destruct (encode_arr_bytes w v Hv) as (arr & He & _).
  destruct (varint_bytes_spec w v Hv) as (_ & _ & _ & _ & Hl & Hub & Hlb).
  exists arr, (length (varint_bytes w v)). split; [exact He|].
  split; [apply varint_size; exact Hv|]. split; [exact Hl|]. split; [exact Hub|].
  intros k Hk Hvk. destruct Hlb as [H|H]; [lia|].
  destruct (le_gt_dec (length (varint_bytes w v)) k) as [|Hgt]; [assumption|exfalso].
  assert (pow128 k <= pow128 (length (varint_bytes w v) - 1)) by (apply pow128_mono; lia).
  unfold pow128 in *. lia.
Qed.

Lemma c04_signed w z : signed_range (bits w) z ->
  exists arr len, encode_arr_signed w z = Some (arr, len)
    /\ N.of_nat len = size_var_signed w z /\ (1 <= len <= max_size w)%nat.
Proof.
  intros Hz. destruct (c04 w _ (zigzag_encode_range w z Hz)) as (arr & len & He & Hs & Hl & _).
  exists arr, len. split; [exact He|]. split; [exact Hs|exact Hl].
Qed.

Lemma c05 w v : v < 2 ^ bits w ->
  exists arr len, encode_arr w v = Some (arr, len)
    /\ bytes_ok (firstn len arr) = true
    /\ leb_framed (firstn len arr) = true
    /\ leb_canonical (firstn len arr) = true
    /\ leb_value (firstn len arr) = v.
Proof.
  intros Hv. destruct (encode_arr_bytes w v Hv) as (arr & He & _ & Hf).
  destruct (varint_bytes_spec w v Hv) as (H1 & H2 & H3 & H4 & _).
  exists arr, (length (varint_bytes w v)). rewrite Hf. auto.
Qed.

Lemma leb_split_none l : leb_split l = None <-> forall b, In b l -> 128 <= b.
Proof.
  induction l as [|b l IH]; cbn [leb_split].
  - split; [intros _ b []|reflexivity].
  - destruct (N.ltb_spec b 128) as [Hs|Hs].
    + split; [discriminate|]. intros H. specialize (H b (or_introl eq_refl)). lia.
    + destruct (leb_split l) as [[p q]|].
      * split; [discriminate|]. intros H. assert (E : @None (list N * list N) = None) by reflexivity.
        destruct IH as [_ IH]. discriminate IH. intros x Hx. apply H. right. exact Hx.
      * split; [|reflexivity]. intros _ x [<-|Hx]; [exact Hs|]. apply IH; [reflexivity|exact Hx].
Qed.

Lemma leb_split_firstn n l p q : leb_split l = Some (p, q) -> (n < length p)%nat ->
  forall b, In b (firstn n l) -> 128 <= b.
Proof.
  revert n p q. induction l as [|c l IH]; intros n p q H Hn b Hb; [discriminate|].
  cbn [leb_split] in H. destruct n as [|n]; [destruct Hb|].
  destruct (N.ltb_spec c 128) as [Hs|Hs].
  - injection H as <- <-. cbn in Hn. lia.
  - destruct (leb_split l) as [[p' q']|] eqn:E; [|discriminate]. injection H as <- <-.
    cbn [firstn] in Hb. destruct Hb as [<-|Hb]; [exact Hs|].
    apply (IH n p' q' eq_refl); [cbn in Hn; lia|exact Hb].
Qed.

Lemma c06_ok w buf v n : bytes_ok buf = true -> decode_arr w buf = Some (v, n) ->
  v < 2 ^ bits w /\ 1 <= n /\ n <= N.of_nat (max_size w) /\ n <= lenN buf.
Proof.
  intros Hok H. rewrite decode_arr_spec in H by exact Hok.
  destruct (leb_split buf) as [[p q]|] eqn:E; [|discriminate].
  destruct (leb_split_framed _ _ _ Hok E) as (-> & _ & Hl).
  destruct (Nat.leb_spec (length p) (max_size w)); [|discriminate].
  injection H as <- <-. unfold lenN. rewrite app_length.
  repeat split; try lia. apply N.mod_lt. destruct w; discriminate.
Qed.

Lemma c06_fail w buf : bytes_ok buf = true ->
  (decode_arr w buf = None <-> forall b, In b (firstn (max_size w) buf) -> 128 <= b).
Proof.
  intros Hok. rewrite decode_arr_spec by exact Hok.
  destruct (leb_split buf) as [[p q]|] eqn:E.
  - destruct (leb_split_framed _ _ _ Hok E) as (Hbuf & Hf & Hl).
    destruct (Nat.leb_spec (length p) (max_size w)) as [Hle|Hgt].
    + split; [discriminate|]. intros H. exfalso.
      assert (Hin : leb_split (firstn (max_size w) buf) = Some (p, firstn (max_size w - length p) q)).
      { rewrite Hbuf, firstn_app, firstn_all2 by exact Hle. apply framed_split. exact Hf. }
      pose proof (proj2 (leb_split_none _) H) as Hn. rewrite Hin in Hn. discriminate.
    + split; [|reflexivity]. intros _. apply (leb_split_firstn _ _ p q E). exact Hgt.
  - split; [|reflexivity]. intros _ b Hb. apply (proj1 (leb_split_none buf) E).
    rewrite <- (firstn_skipn (max_size w) buf). apply in_or_app. left. exact Hb.
Qed.

Lemma c07 w v1 v2 r1 r2 : v1 < 2 ^ bits w -> v2 < 2 ^ bits w ->
  varint_bytes w v1 ++ r1 = varint_bytes w v2 ++ r2 -> v1 = v2 /\ r1 = r2.
Proof.
  intros H1 H2 H.
  destruct (varint_bytes_spec w v1 H1) as (Hv1 & Hf1 & _).
  destruct (varint_bytes_spec w v2 H2) as (Hv2 & Hf2 & _).
  destruct (framed_prefix_free _ _ _ _ Hf1 Hf2 H) as [E ->]. split; [|reflexivity].
  rewrite <- Hv1, <- Hv2, E. reflexivity.
Qed.

Lemma bytes_ok_prefix p l : bytes_ok l = true -> strict_prefix p l -> bytes_ok p = true.
Proof.
  intros H (x & r & ->). rewrite bytes_ok_app in H. apply andb_true_iff in H. tauto.
Qed.

Lemma c08 w v p : v < 2 ^ bits w -> strict_prefix p (varint_bytes w v) -> decode_arr w p = None.
Proof.
  intros Hv Hp. destruct (varint_bytes_spec w v Hv) as (_ & Hf & _ & Hok & _).
  rewrite decode_arr_spec by (eapply bytes_ok_prefix; eassumption).
  rewrite (framed_strict_prefix _ _ Hf Hp). reflexivity.
Qed.

Lemma c09_refuted w : exists buf v n, bytes_ok buf = true /\ leb_framed buf = true
    /\ 2 ^ bits w <= leb_value buf
    /\ decode_arr w buf = Some (v, n) /\ v <> leb_value buf.
Proof.
  destruct w.
  - exists [255;255;127], 65535, 3. vm_compute. repeat split; discriminate.
  - exists [255;255;255;255;127], 4294967295, 5. vm_compute. repeat split; discriminate.
  - exists [255;255;255;255;255;255;255;255;255;127], 18446744073709551615, 10.
    vm_compute. repeat split; discriminate.
  - exists [255;255;255;255;255;255;255;255;255;255;255;255;255;255;255;255;255;255;127],
      340282366920938463463374607431768211455, 19.
    vm_compute. repeat split; discriminate.
Qed.
