(** C87: the integer encodings of the benchmark crate. *)
From Verif Require Import Base Varint VarintSpec VarintProofs Bench.
Local Open Scope N_scope.

(** * Bytes *)
Lemma to_le_len n : forall v, length (to_le n v) = n.
Proof. induction n as [|n IH]; intros v; cbn [to_le length]; [reflexivity|]. rewrite IH. reflexivity. Qed.
Lemma pow256 n : 2 ^ (8 * N.of_nat (S n)) = 256 * 2 ^ (8 * N.of_nat n).
Proof. replace (8 * N.of_nat (S n)) with (8 + 8 * N.of_nat n) by lia. rewrite N.pow_add_r. reflexivity. Qed.
Lemma of_to_le n : forall v, v < 2 ^ (8 * N.of_nat n) -> of_le (to_le n v) = v.
Proof.
  induction n as [|n IH]; intros v H; [cbn in H |- *; lia|]. rewrite pow256 in H. cbn [to_le of_le]. rewrite IH; [pose proof (N.div_mod v 256); lia|]. apply N.div_lt_upper_bound; lia.
Qed.
Lemma to_of_le l : Forall (fun b => b < 256) l -> to_le (length l) (of_le l) = l.
Proof.
  induction 1 as [|b l Hb Hl IH]; [reflexivity|]. cbn [length to_le of_le].
  replace ((b + 256 * of_le l) mod 256) with b by (rewrite N.add_comm, N.mul_comm, N.add_comm, N.mod_add, N.mod_small; lia).
  replace ((b + 256 * of_le l) / 256) with (of_le l) by (rewrite (N.mul_comm 256), N.div_add, N.div_small by lia; lia). rewrite IH. reflexivity.
Qed.
Lemma to_le_bytes n : forall v, Forall (fun b => b < 256) (to_le n v).
Proof. induction n as [|n IH]; intros v; cbn [to_le]; constructor; [apply N.mod_lt; discriminate|apply IH]. Qed.
Lemma of_le_bound l : Forall (fun b => b < 256) l -> of_le l < 2 ^ (8 * N.of_nat (length l)).
Proof. induction 1 as [|b l Hb Hl IH]; [cbn; lia|]. cbn [of_le length]. rewrite pow256. lia. Qed.
Lemma swap_swap n v : v < 2 ^ (8 * N.of_nat n) -> swap_bytes n (swap_bytes n v) = v.
Proof.
  intros H. unfold swap_bytes. set (l := rev (to_le n v)). assert (Hl : length l = n) by (unfold l; rewrite rev_length; apply to_le_len).
  rewrite <- Hl at 1. rewrite to_of_le by (apply Forall_rev, to_le_bytes). unfold l. rewrite rev_involutive. apply of_to_le. exact H.
Qed.
Lemma swap_bound n v : swap_bytes n v < 2 ^ (8 * N.of_nat n).
Proof. unfold swap_bytes. pose proof (of_le_bound (rev (to_le n v)) (Forall_rev (to_le_bytes n v))) as H. rewrite rev_length, to_le_len in H. exact H. Qed.
Lemma modulus_bytes w : modulus w = 2 ^ (8 * N.of_nat (nbytes w)).
Proof. destruct w; reflexivity. Qed.
Lemma longer_ok {A} n buf (r : option A) : (n < length buf)%nat -> longer n buf r = r.
Proof. intros H. unfold longer. destruct (Nat.ltb_spec n (length buf)); [reflexivity|lia]. Qed.
Lemma longer_short {A} n buf (r : option A) : (length buf <= n)%nat -> longer n buf r = None.
Proof. intros H. unfold longer. destruct (Nat.ltb_spec n (length buf)); [lia|reflexivity]. Qed.

Lemma skipn_skipn {A} a : forall b (l : list A), skipn a (skipn b l) = skipn (b + a) l.
Proof. intros b. induction b as [|b IH]; intros l; [reflexivity|]. destruct l as [|x l]; [cbn; apply skipn_nil|]. cbn [skipn Nat.add]. apply IH. Qed.

(** * postcard *)
Lemma post_put_venc n : forall v buf arr len, (n <= length buf)%nat -> venc n v = Some (arr, len) -> post_put n v buf = firstn len arr ++ skipn len buf.
Proof.
  induction n as [|n IH]; intros v buf arr len Hl H; cbn [venc] in H.
  - destruct (v =? 0); [|discriminate]. injection H as <- <-. reflexivity.
  - destruct buf as [|c buf]; [cbn in Hl; lia|]. cbn [post_put]. rewrite land_255 in H. destruct (v <? 128).
    + injection H as <- <-. reflexivity.
    + destruct (venc n (N.shiftr v 7)) as [[r k]|] eqn:E; [|discriminate]. injection H as <- <-. cbn [firstn skipn app]. f_equal. apply IH; [cbn in Hl; lia|exact E].
Qed.
Lemma post_get_vdec n : forall i acc buf, post_get n i acc buf = option_map fst (vdec W128 n i acc buf).
Proof. induction n as [|n IH]; intros i acc buf; [reflexivity|]. destruct buf as [|b r]; [reflexivity|]. cbn [post_get vdec]. destruct (N.land b 128 =? 0); [reflexivity|apply IH]. Qed.
Lemma post_encode_bytes v buf : v < 2 ^ 128 -> (19 <= length buf)%nat -> post_encode v buf = Some (varint_bytes W128 v ++ skipn (length (varint_bytes W128 v)) buf).
Proof.
  intros Hv Hl. unfold post_encode. change post_max with 19%nat. destruct (Nat.leb_spec 19 (length buf)); [|lia]. f_equal.
  destruct (encode_arr_spec W128 v Hv) as (l & He & _). pose proof He as He'. unfold encode_arr in He. change (max_size W128) with 19%nat in He.
  rewrite (post_put_venc 19 v buf _ _ Hl He). unfold varint_bytes. rewrite He'. f_equal. f_equal. rewrite firstn_length, app_length. lia.
Qed.

(** * Theorems *)

(** Writing and reading: whatever is in the buffer before, an encoder changes no byte behind those it needs, keeps the buffer's length, and the decoder gives the number back. *)
Definition round_trips {A} (encode : A -> list N -> option (list N)) (decode : list N -> option A) (space : nat) (a : A) : Prop :=
  forall buf, (space <= length buf)%nat ->
  exists buf', encode a buf = Some buf' /\ length buf' = length buf /\ skipn space buf' = skipn space buf /\ decode buf' = Some a.

Theorem C87_postcard : forall v, v < 2 ^ 128 ->
  round_trips post_encode post_decode 19 v
  /\ forall buf, (19 <= length buf)%nat -> post_encode v buf = Some (varint_bytes W128 v ++ skipn (length (varint_bytes W128 v)) buf).
Proof.
  intros v Hv. split; [|intros buf; exact (post_encode_bytes v buf Hv)]. intros buf Hl. destruct (varint_bytes_spec W128 v Hv) as (_ & _ & _ & _ & Hlen & _). change (max_size W128) with 19%nat in Hlen.
  eexists. split; [exact (post_encode_bytes v buf Hv Hl)|]. split; [rewrite app_length, skipn_length; lia|]. split.
  - rewrite skipn_app, skipn_skipn, (skipn_all2 (varint_bytes W128 v)) by lia. cbn [app]. f_equal. lia.
  - unfold post_decode. change post_max with 19%nat. destruct (Nat.leb_spec 19 (length (varint_bytes W128 v ++ skipn (length (varint_bytes W128 v)) buf))) as [_|H]; [|rewrite app_length, skipn_length in H; lia].
    rewrite post_get_vdec. change (vdec W128 19 0 0) with (decode_arr W128). rewrite varint_roundtrip_any by exact Hv. reflexivity.
Qed.
Print Assumptions C87_postcard.
Lemma trips_map {A B} (encode : A -> list N -> option (list N)) decode space (f : B -> A) (g : A -> B) b : g (f b) = b -> round_trips encode decode space (f b) ->
  round_trips (fun b => encode (f b)) (fun buf => option_map g (decode buf)) space b.
Proof. intros Hg H buf Hl. destruct (H buf Hl) as (buf' & H1 & H2 & H3 & H4). exists buf'. rewrite H4. cbn [option_map]. rewrite Hg. auto. Qed.
Theorem C87_postcard_signed : forall z, signed_range 128 z -> round_trips post_encode_i post_decode_i 19 z.
Proof.
  intros z Hz. apply (trips_map post_encode post_decode 19 (zigzag_encode W128) (zigzag_decode W128)); [exact (zigzag_decode_encode W128 z Hz)|]. apply C87_postcard. exact (zigzag_encode_range W128 z Hz).
Qed.
Print Assumptions C87_postcard_signed.

Lemma put_frame n (l buf : list N) : length l = n -> (n < length buf)%nat -> length (l ++ skipn n buf) = length buf.
Proof. intros H Hl. rewrite app_length, skipn_length. lia. Qed.
Lemma skipn_put k (l buf : list N) : (length l <= k)%nat -> skipn k (l ++ skipn (length l) buf) = skipn k buf.
Proof. intros H. rewrite skipn_app, skipn_all2 by exact H. cbn [app]. rewrite skipn_skipn. f_equal. lia. Qed.
Lemma put_classes cs v buf : forall tag n, (exists pre post, cs = pre ++ (tag, n) :: post /\ Forall (fun c => 2 ^ (8 * N.of_nat (snd c)) <= v) pre /\ (post = [] \/ v < 2 ^ (8 * N.of_nat n))) ->
  bin_put cs v buf = tag :: to_le n v ++ skipn n (skipn 1 buf).
Proof.
  intros tag n (pre & post & -> & Hp & Hq). induction Hp as [|[t k] pre Hk Hp IH].
  - cbn [app bin_put]. destruct post; [reflexivity|]. destruct Hq as [?|Hq]; [discriminate|]. destruct (N.ltb_spec v (2 ^ (8 * N.of_nat n))); [reflexivity|lia].
  - cbn [app bin_put]. cbn [snd] in Hk. destruct (pre ++ (tag, n) :: post) eqn:E; [destruct pre; discriminate|]. destruct (N.ltb_spec v (2 ^ (8 * N.of_nat k))); [lia|exact IH].
Qed.
Lemma class_of w v : 250 < v -> v < modulus w -> exists tag n, In (tag, n) (bin_classes w) /\ (n <= nbytes w)%nat /\ v < 2 ^ (8 * N.of_nat n) /\ (forall c, In c (bin_classes w) -> fst c = tag -> c = (tag, n)) /\ 250 < tag < 255
  /\ forall buf, bin_put (bin_classes w) v buf = tag :: to_le n v ++ skipn n (skipn 1 buf).
Proof.
  intros H1 H2. rewrite modulus_bytes in H2.
  assert (G : forall pre tag n post, bin_classes w = pre ++ (tag, n) :: post -> Forall (fun c => 2 ^ (8 * N.of_nat (snd c)) <= v) pre -> v < 2 ^ (8 * N.of_nat n) ->
    (n <= nbytes w)%nat -> (forall c, In c (bin_classes w) -> fst c = tag -> c = (tag, n)) -> 250 < tag < 255 ->
    exists tag n, In (tag, n) (bin_classes w) /\ (n <= nbytes w)%nat /\ v < 2 ^ (8 * N.of_nat n) /\ (forall c, In c (bin_classes w) -> fst c = tag -> c = (tag, n)) /\ 250 < tag < 255
      /\ forall buf, bin_put (bin_classes w) v buf = tag :: to_le n v ++ skipn n (skipn 1 buf)).
  { intros pre tag n post E Hp Hq Hn Hu Ht. exists tag, n. split; [rewrite E; apply in_elt|]. repeat split; auto; try apply Ht. intros buf. rewrite E. apply put_classes. exists pre, post. auto. }
  assert (D : forall c, In c (bin_classes w) -> forall tag n, In (tag, n) (bin_classes w) -> fst c = tag -> c = (tag, n)).
  { intros [a b] Hc tag n Hn Ht. cbn [fst] in Ht. subst tag. destruct w; cbn in Hc, Hn; intuition congruence. }
  destruct (N.lt_ge_cases v (2 ^ (8 * N.of_nat 2))) as [L1|L1].
  { destruct w; (eapply (G [] 251 2%nat _ eq_refl); [constructor|exact L1|cbn; lia|intros c Hc; apply (D c Hc); cbn; auto|lia]). }
  destruct w; [cbn [nbytes] in H2; lia|..];
    (destruct (N.lt_ge_cases v (2 ^ (8 * N.of_nat 4))) as [L2|L2]; [eapply (G [(251, 2%nat)] 252 4%nat _ eq_refl); [repeat constructor; exact L1|exact L2|cbn; lia|intros c Hc; apply (D c Hc); cbn; auto|lia]|]);
    try (cbn [nbytes] in H2; lia);
    (destruct (N.lt_ge_cases v (2 ^ (8 * N.of_nat 8))) as [L3|L3]; [eapply (G [(251, 2%nat); (252, 4%nat)] 253 8%nat _ eq_refl); [repeat constructor; assumption|exact L3|cbn; lia|intros c Hc; apply (D c Hc); cbn; auto|lia]|]);
    try (cbn [nbytes] in H2; lia).
  eapply (G [(251, 2%nat); (252, 4%nat); (253, 8%nat)] 254 16%nat [] eq_refl); [repeat constructor; assumption|exact H2|cbn; lia|intros c Hc; apply (D c Hc); cbn; auto|lia].
Qed.
Theorem C87_bincode : forall w v, v < 2 ^ bits w -> round_trips (bin_encode w) (bin_decode w) (nbytes w + 1) v.
Proof.
  intros w v Hv buf Hl. unfold bin_encode, bin_decode. rewrite longer_ok by lia. destruct buf as [|c buf]; [cbn in Hl; lia|]. cbn [length] in Hl. cbn [skipn].
  destruct (N.leb_spec v 250) as [L|L].
  - eexists. split; [reflexivity|]. cbn [length]. split; [reflexivity|]. split; [rewrite Nat.add_1_r; reflexivity|]. rewrite longer_ok by (cbn [length]; lia). rewrite N.mod_small by lia. destruct (N.leb_spec v 250); [reflexivity|lia].
  - destruct (class_of w v L Hv) as (tag & n & Hin & Hn & Hb & Hu & Ht & Hput). rewrite Hput. cbn [skipn]. eexists. split; [reflexivity|].
    assert (Hlen : length (to_le n v ++ skipn n buf) = length buf) by (rewrite app_length, skipn_length, to_le_len; lia). split; [cbn [length]; rewrite Hlen; reflexivity|]. split.
    + rewrite Nat.add_1_r. cbn [skipn]. rewrite <- (to_le_len n v) at 2. apply skipn_put. rewrite to_le_len. exact Hn.
    + rewrite longer_ok by (cbn [length]; rewrite Hlen; lia). destruct (N.leb_spec tag 250); [lia|]. destruct (find (fun c0 => fst c0 =? tag) (bin_classes w)) as [c0|] eqn:E.
      * apply find_some in E as [Hc Hf]. apply N.eqb_eq in Hf. rewrite (Hu c0 Hc Hf). cbn [option_map snd]. rewrite firstn_app, to_le_len, Nat.sub_diag. cbn [firstn]. rewrite app_nil_r, firstn_all2 by (rewrite to_le_len; lia).
        rewrite of_to_le by exact Hb. reflexivity.
      * exfalso. pose proof (find_none _ _ E (tag, n) Hin) as Hf. cbn [fst] in Hf. rewrite N.eqb_refl in Hf. discriminate.
Qed.
Print Assumptions C87_bincode.
Lemma bin_zigzag_spec w z : signed_range (bits w) z -> bin_zigzag w z = zigzag_spec z.
Proof.
  intros Hz. unfold bin_zigzag, zigzag_spec. pose proof (modulus_Z w) as HM. unfold signed_range in Hz. set (h := (2 ^ (Z.of_N (bits w) - 1))%Z) in *. destruct (Z.ltb_spec z 0).
  - destruct (Z.leb_spec 0 z); [lia|]. replace (z mod Z.of_N (modulus w))%Z with (z + Z.of_N (modulus w))%Z by (apply Z.mod_unique with (q := (-1)%Z); lia). lia.
  - destruct (Z.leb_spec 0 z); [|lia]. rewrite Z.mod_small by lia. lia.
Qed.
Lemma bin_unzigzag_spec w u : u < modulus w -> bin_unzigzag w u = zigzag_decode w u.
Proof.
  intros Hu. rewrite zigzag_decode_spec by exact Hu. unfold bin_unzigzag. pose proof (modulus_Z w) as HM. assert (Hh : (0 < 2 ^ (Z.of_N (bits w) - 1))%Z) by (destruct w; reflexivity).
  replace (u mod 2 =? 0) with (N.even u). 2:{ destruct (N.even u) eqn:E; symmetry; [apply N.even_spec in E as [k ->]; apply N.eqb_eq; lia|]. apply N.eqb_neq. intros H. assert (N.even u = true) by (apply N.even_spec; exists (u / 2); lia). congruence. }
  destruct (N.even u).
  - apply swrap_id. unfold signed_range. lia.
  - assert (Hs : swrap w (Z.of_N (modulus w - 1 - u / 2)) = swrap w (- Z.of_N (u / 2) - 1)).
    { unfold swrap. replace (Z.of_N (modulus w - 1 - u / 2)) with (- Z.of_N (u / 2) - 1 + 1 * Z.of_N (modulus w))%Z by lia. rewrite Z.mod_add by lia. reflexivity. }
    rewrite Hs. apply swrap_id. unfold signed_range. lia.
Qed.
Theorem C87_bincode_signed : forall w z, signed_range (bits w) z -> round_trips (bin_encode_i w) (bin_decode_i w) (nbytes w + 1) z.
Proof.
  intros w z Hz. pose proof (zigzag_spec_range w z Hz) as Hr. apply (trips_map (bin_encode w) (bin_decode w) (nbytes w + 1) (bin_zigzag w) (bin_unzigzag w)).
  - rewrite bin_zigzag_spec by exact Hz. rewrite bin_unzigzag_spec by exact Hr. rewrite <- (zigzag_encode_spec w z Hz). exact (zigzag_decode_encode w z Hz).
  - apply C87_bincode. rewrite bin_zigzag_spec by exact Hz. exact Hr.
Qed.
Print Assumptions C87_bincode_signed.

(** vu128 *)
Lemma vu_mask w z : z <= len_mask w -> N.lxor (N.land (N.land (N.lor 240 (N.lxor (z mod 256) (len_mask w))) 15) (len_mask w)) (len_mask w) = z
  /\ N.shiftr (modulus w - 1) z = N.ones (bits w - z) /\ 240 <= N.lor 240 (N.lxor (z mod 256) (len_mask w)).
Proof.
  intros H. assert (Hn : exists n : nat, z = N.of_nat n /\ (n <= 15)%nat) by (exists (N.to_nat z); destruct w; cbn [len_mask] in H; lia). destruct Hn as (n & -> & Hn).
  do 16 (destruct n as [|n]; [destruct w; cbn [len_mask] in H; try lia; repeat split; try reflexivity; discriminate|]). lia.
Qed.
Lemma size_ge8 v : 240 <= v -> 8 <= N.size v.
Proof. intros H. destruct (N.le_gt_cases 8 (N.size v)) as [L|L]; [exact L|]. pose proof (size_bound v) as Hb. assert (2 ^ N.size v <= 2 ^ 7) by (apply N.pow_le_mono_r; lia). change (2 ^ 7) with 128 in H0. lia. Qed.
Theorem C87_vu128 : forall w v, v < 2 ^ bits w -> round_trips (vu_encode w) (vu_decode w) (nbytes w + 1) v.
Proof.
  intros w v Hv buf Hl. unfold vu_encode, vu_decode. rewrite longer_ok by lia. destruct buf as [|c buf]; [cbn in Hl; lia|]. cbn [length] in Hl. cbn [skipn].
  destruct (N.ltb_spec v 240) as [L|L].
  - eexists. split; [reflexivity|]. cbn [length]. split; [reflexivity|]. split; [rewrite Nat.add_1_r; reflexivity|]. rewrite longer_ok by (cbn [length]; lia). destruct (N.ltb_spec v 240); [reflexivity|lia].
  - eexists. split; [reflexivity|]. assert (Hlen : length (to_le (nbytes w) v ++ skipn (nbytes w) buf) = length buf) by (rewrite app_length, skipn_length, to_le_len; lia).
    split; [cbn [length]; rewrite Hlen; reflexivity|]. split.
    + rewrite Nat.add_1_r. cbn [skipn]. pose proof (skipn_put (nbytes w) (to_le (nbytes w) v) buf) as Hsk. rewrite to_le_len in Hsk. apply Hsk. lia.
    + rewrite longer_ok by (cbn [length]; rewrite Hlen; lia). pose proof (size_ge8 v L) as Hs. pose proof (size_le_bits w v Hv) as Hsb.
      assert (Hz : N.shiftr (leading_zeros w v) 3 <= len_mask w). { rewrite N.shiftr_div_pow2. change (2 ^ 3) with 8. unfold leading_zeros. destruct w; cbn [bits len_mask] in *; lia. }
      destruct (vu_mask w _ Hz) as (M1 & M2 & M3). destruct (N.ltb_spec (N.lor 240 (N.lxor (N.shiftr (leading_zeros w v) 3 mod 256) (len_mask w))) 240); [lia|]. rewrite M1, M2.
      rewrite firstn_app, to_le_len, Nat.sub_diag. cbn [firstn]. rewrite app_nil_r, firstn_all2 by (rewrite to_le_len; lia). rewrite of_to_le by (rewrite <- modulus_bytes; exact Hv).
      rewrite N.land_ones. rewrite N.mod_small; [reflexivity|]. eapply N.lt_le_trans; [apply size_bound|]. apply N.pow_le_mono_r; [discriminate|]. rewrite N.shiftr_div_pow2. change (2 ^ 3) with 8. unfold leading_zeros. lia.
Qed.
Print Assumptions C87_vu128.
Lemma lxor_mod a b k : (0 <= k)%Z -> (Z.lxor (a mod 2 ^ k) (b mod 2 ^ k) = Z.lxor b a mod 2 ^ k)%Z.
Proof.
  intros Hk. rewrite <- !Z.land_ones by exact Hk. apply Z.bits_inj'. intros n Hn. rewrite !Z.lxor_spec, !Z.land_spec, Z.lxor_spec. destruct (Z.testbit a n), (Z.testbit b n), (Z.testbit (Z.ones k) n); reflexivity.
Qed.
Lemma vu_zigzag_eq w z : vu_zigzag w z = zigzag_encode w z.
Proof. unfold vu_zigzag, zigzag_encode. f_equal. assert (E : Z.of_N (modulus w) = (2 ^ Z.of_N (bits w))%Z) by (destruct w; reflexivity). rewrite E. apply lxor_mod. lia. Qed.
Theorem C87_vu128_signed : forall w z, signed_range (bits w) z -> round_trips (vu_encode_i w) (vu_decode_i w) (nbytes w + 1) z.
Proof.
  intros w z Hz. apply (trips_map (vu_encode w) (vu_decode w) (nbytes w + 1) (vu_zigzag w) (zigzag_decode w)); rewrite vu_zigzag_eq; [exact (zigzag_decode_encode w z Hz)|]. apply C87_vu128. exact (zigzag_encode_range w z Hz).
Qed.
Print Assumptions C87_vu128_signed.
(** Floats, by their bits. *)
Theorem C87_vu128_floats : forall w v, v < 2 ^ bits w -> round_trips (vu_encode_f w) (vu_decode_f w) (nbytes w + 1) v.
Proof.
  intros w v Hv. apply (trips_map (vu_encode w) (vu_decode w) (nbytes w + 1) (swap_bytes (nbytes w)) (swap_bytes (nbytes w))).
  - apply swap_swap. rewrite <- modulus_bytes. exact Hv.
  - apply C87_vu128. change (2 ^ bits w) with (modulus w). rewrite modulus_bytes. apply swap_bound.
Qed.
Print Assumptions C87_vu128_floats.

(** The 8-bit decoder compares with 0x0f where it should compare with 0xf0: the numbers 15 to 239 are lost. *)
Theorem C87_u8_refuted : forall v c d rest, v < 256 ->
  exists buf, vu_encode_u8 v (c :: d :: rest) = Some buf /\ (vu_decode_u8 buf = Some v <-> v < 15 \/ 240 <= v \/ v = d).
Proof.
  intros v c d rest Hv. unfold vu_encode_u8. rewrite longer_ok by (cbn [length]; lia). cbn [skipn]. eexists. split; [reflexivity|]. unfold vu_decode_u8. destruct (N.ltb_spec v 240) as [L|L].
  - rewrite longer_ok by (cbn [length]; lia). destruct (N.ltb_spec v 15); split; intros Hx; try reflexivity; try (left; assumption).
    + right. right. congruence.
    + f_equal. lia.
  - rewrite longer_ok by (cbn [length]; lia). cbn. split; [lia|reflexivity].
Qed.
Print Assumptions C87_u8_refuted.
Definition zig8 (z : Z) : N := Z.to_N (if (z <? 0)%Z then -2 * z - 1 else 2 * z)%Z.
Definition unzig8 (u : N) : Z := let h := Z.of_N (N.shiftr u 1) in Z.lxor h (- Z.of_N (N.land u 1)).
Lemma i8_all : forallb (fun k => let z := (Z.of_nat k - 128)%Z in
  (Z.to_N (Z.lxor (Z.shiftr z 7 mod 256) (Z.shiftl z 1 mod 256)) =? zig8 z) && (unzig8 (zig8 z) =? z)%Z && (zig8 (unzig8 (N.of_nat k)) =? N.of_nat k)) (seq 0 256) = true.
Proof. vm_compute. reflexivity. Qed.
(** The same numbers, as the encodings of signed ones, with 8 bits: [z] is lost unless it is among 0, -1, 1, -2, .., 7 or 120, -121, .., 127, -128. *)
Theorem C87_i8_refuted : forall z c d rest, (-128 <= z < 128)%Z ->
  exists buf, vu_encode_i8 z (c :: d :: rest) = Some buf
  /\ (d < 256 -> (vu_decode_i8 buf = Some z <-> (-7 <= z <= 7 \/ 120 <= z \/ z <= -121)%Z \/ d = Z.to_N (if z <? 0 then -2 * z - 1 else 2 * z)%Z)).
Proof.
  intros z c d rest Hz. pose proof i8_all as A. rewrite forallb_forall in A. assert (A1 := A (Z.to_nat (z + 128)) ltac:(apply in_seq; lia)). cbv beta zeta in A1. replace (Z.of_nat (Z.to_nat (z + 128)) - 128)%Z with z in A1 by lia.
  apply andb_true_iff in A1 as [A1 _]. apply andb_true_iff in A1 as [A1 A2]. apply N.eqb_eq in A1. apply Z.eqb_eq in A2.
  unfold vu_encode_i8. rewrite A1. fold (zig8 z). assert (Hu : zig8 z < 256) by (unfold zig8; destruct (Z.ltb_spec z 0); lia). destruct (C87_u8_refuted (zig8 z) c d rest Hu) as (buf & Hb & Hd). exists buf. split; [exact Hb|]. intros Hd8.
  unfold vu_decode_i8. fold unzig8. assert (E : option_map unzig8 (vu_decode_u8 buf) = Some z <-> vu_decode_u8 buf = Some (zig8 z)).
  { assert (Hlt : forall u, vu_decode_u8 buf = Some u -> u < 256).
    { revert Hb. unfold vu_encode_u8. rewrite longer_ok by (cbn [length]; lia). intros E; injection E as <-. unfold vu_decode_u8. intros u. destruct (zig8 z <? 240); rewrite longer_ok by (cbn [length skipn]; lia); cbn [skipn].
      - destruct (N.ltb_spec (zig8 z) 15); intros E; injection E as <-; lia.
      - change (240 <? 15) with false. cbv iota. intros E; injection E as <-. lia. }
    split.
    - destruct (vu_decode_u8 buf) as [u|] eqn:Eu; [|discriminate]. cbn [option_map]. intros E. injection E as E. f_equal. specialize (Hlt u eq_refl). assert (A3 := A (N.to_nat u) ltac:(apply in_seq; lia)). cbv beta zeta in A3.
      apply andb_true_iff in A3 as [_ A3]. apply N.eqb_eq in A3. rewrite N2Nat.id in A3. rewrite E in A3. symmetry. exact A3.
    - intros ->. cbn [option_map]. rewrite A2. reflexivity. }
  change (option_map _ (vu_decode_u8 buf)) with (option_map unzig8 (vu_decode_u8 buf)). rewrite E, Hd. unfold zig8. destruct (Z.ltb_spec z 0); split; intros [H1|H1]; try (left; lia); try (right; lia); destruct H1 as [H1|H1]; lia || (left; lia) || (right; lia).
Qed.
Print Assumptions C87_i8_refuted.

(** A buffer that is too short makes every encoder and decoder panic. *)
Theorem C87_short : forall w v z buf, (length buf <= nbytes w)%nat ->
  bin_encode w v buf = None /\ bin_encode_i w z buf = None /\ bin_decode w buf = None /\ vu_encode w v buf = None /\ vu_encode_i w z buf = None /\ vu_decode w buf = None.
Proof. intros w v z buf H. unfold bin_encode_i, vu_encode_i, bin_encode, vu_encode, bin_decode, vu_decode. rewrite !longer_short by exact H. repeat split. Qed.
Print Assumptions C87_short.
Example C87_example : bin_encode W32 70000 (repeat 7 6) = Some [252; 112; 17; 1; 0; 7] /\ bin_decode W32 [252; 112; 17; 1; 0; 7] = Some 70000
  /\ vu_encode_i W16 (-300)%Z (repeat 7 3) = Some [241; 87; 2] /\ vu_decode_i W16 [241; 87; 2] = Some (-300)%Z.
Proof. repeat split. Qed.
