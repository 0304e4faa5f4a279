(** Lemmas about the runtime model. *)
From Verif Require Import Base Varint VarintSpec VarintProofs Wire.
Local Open Scope N_scope.

Lemma bind_ok {A B} (m : res A) (f : A -> res B) b :
  bind m f = Ok b -> exists a, m = Ok a /\ f a = Ok b.
Proof. destruct m; cbn; intros H; try discriminate. eauto. Qed.

Lemma lenN_app {A} (a b : list A) : lenN (a ++ b) = lenN a + lenN b.
Proof. unfold lenN. rewrite app_length. lia. Qed.

Lemma lenN_cons {A} (a : A) b : lenN (a :: b) = 1 + lenN b.
Proof. unfold lenN. cbn [length]. lia. Qed.

Lemma firstn_len_app {A} (a b : list A) : firstn (length a) (a ++ b) = a.
Proof. rewrite firstn_app, Nat.sub_diag, firstn_all. cbn. apply app_nil_r. Qed.

Lemma skipn_len_app {A} (a b : list A) : skipn (length a) (a ++ b) = b.
Proof. rewrite skipn_app, Nat.sub_diag, skipn_all. reflexivity. Qed.

Lemma to_nat_lenN {A} (a : list A) : N.to_nat (lenN a) = length a.
Proof. unfold lenN. lia. Qed.

(** * Field ids *)

Lemma fenc_bits v e : v mod 8 = fenc_u32 e -> fenc_from_u32 v = Some e.
Proof.
  intros H. unfold fenc_from_u32. change 7 with (N.ones 3). rewrite N.land_ones.
  change (2 ^ 3) with 8. rewrite H. destruct e; reflexivity.
Qed.

Lemma fid_into_arith id e : id < 2 ^ 29 -> fid_into_u32 (FieldId id e) = id * 8 + fenc_u32 e.
Proof.
  intros H. unfold fid_into_u32. cbn [fid_value fid_enc].
  rewrite N.shiftl_mul_pow2. change (2 ^ 3) with 8.
  rewrite N.mod_small.
  2:{ change (2 ^ 32) with (2 ^ 29 * 8). lia. }
  change 8 with (2 ^ 3). rewrite N.lor_comm, lor_add; [lia|].
  destruct e; reflexivity.
Qed.

Lemma fid_roundtrip id e : id < 2 ^ 29 ->
  fid_from_u32 (fid_into_u32 (FieldId id e)) = Some (FieldId id e).
Proof.
  intros H. rewrite fid_into_arith by exact H. unfold fid_from_u32.
  assert (He : fenc_u32 e < 8) by (destruct e; reflexivity).
  rewrite (fenc_bits _ e) by lia.
  rewrite N.shiftr_div_pow2. change (2 ^ 3) with 8.
  do 2 f_equal. lia.
Qed.

Lemma fid_into_lt f : fid_value f < 2 ^ 29 -> fid_into_u32 f < 2 ^ 32.
Proof.
  destruct f as [id e]. cbn [fid_value]. intros H. rewrite fid_into_arith by exact H.
  assert (He : fenc_u32 e < 8) by (destruct e; reflexivity).
  change (2 ^ 32) with (2 ^ 29 * 8). lia.
Qed.

Lemma fenc_from_none v : fenc_from_u32 v = None <-> 5 <= v mod 8.
Proof.
  unfold fenc_from_u32. change 7 with (N.ones 3). rewrite N.land_ones.
  change (2 ^ 3) with 8. pose proof (N.mod_lt v 8 ltac:(discriminate)) as H.
  set (m := v mod 8) in *. clearbody m.
  assert (C : m = 0 \/ m = 1 \/ m = 2 \/ m = 3 \/ m = 4 \/ m = 5 \/ m = 6 \/ m = 7) by lia.
  destruct C as [->|[->|[->|[->|[->|[->|[->| ->]]]]]]];
    split; intros X; try discriminate; try lia; reflexivity.
Qed.

Lemma fenc_from_some v e : fenc_from_u32 v = Some e -> fenc_u32 e = v mod 8.
Proof.
  unfold fenc_from_u32. change 7 with (N.ones 3). rewrite N.land_ones.
  change (2 ^ 3) with 8. pose proof (N.mod_lt v 8 ltac:(discriminate)) as H.
  set (m := v mod 8) in *. clearbody m.
  assert (C : m = 0 \/ m = 1 \/ m = 2 \/ m = 3 \/ m = 4 \/ m = 5 \/ m = 6 \/ m = 7) by lia.
  destruct C as [->|[->|[->|[->|[->|[->|[->| ->]]]]]]]; intros X; try discriminate;
    injection X as <-; reflexivity.
Qed.

Lemma fid_from_into raw f : raw < 2 ^ 32 -> fid_from_u32 raw = Some f ->
  fid_value f = raw / 8 /\ fid_into_u32 f = raw.
Proof.
  intros Hr. unfold fid_from_u32. destruct (fenc_from_u32 raw) as [e|] eqn:E; [|discriminate].
  intros H. assert (Hf : f = FieldId (N.shiftr raw 3) e) by congruence. subst f.
  apply fenc_from_some in E. rewrite N.shiftr_div_pow2. change (2 ^ 3) with 8. cbn [fid_value]. split; [reflexivity|].
  rewrite fid_into_arith.
  - rewrite E. lia.
  - change (2 ^ 32) with (2 ^ 29 * 8) in Hr. lia.
Qed.

(** * Primitive round trips *)

Lemma decode_uint_encode w v rest : v < modulus w ->
  decode_uint w (encode_uint w v ++ rest) = Ok (v, rest).
Proof.
  intros Hv. unfold decode_uint, encode_uint. rewrite varint_roundtrip_any by exact Hv.
  rewrite to_nat_lenN, skipn_len_app. reflexivity.
Qed.

Lemma decode_sint_encode w z rest : signed_range (bits w) z ->
  decode_sint w (encode_sint w z ++ rest) = Ok (z, rest).
Proof.
  intros Hz. unfold decode_sint, encode_sint, decode_arr_signed.
  rewrite varint_roundtrip_any by (apply zigzag_encode_range; exact Hz).
  rewrite zigzag_decode_encode by exact Hz.
  rewrite to_nat_lenN, skipn_len_app. reflexivity.
Qed.

Lemma uint_len w v : v < modulus w -> lenN (encode_uint w v) = size_uint w v.
Proof. apply varint_size. Qed.

Lemma sint_len w z : signed_range (bits w) z -> lenN (encode_sint w z) = size_sint w z.
Proof. intros H. apply varint_size. apply zigzag_encode_range. exact H. Qed.

Lemma encode_uint_nonempty w v : v < modulus w -> encode_uint w v <> [].
Proof.
  intros Hv H. destruct (varint_bytes_spec w v Hv) as (_ & _ & _ & _ & Hl & _).
  unfold encode_uint in H. rewrite H in Hl. cbn in Hl. lia.
Qed.

Lemma decode_bool_encode b rest : decode_bool (encode_bool b ++ rest) = Ok (b, rest).
Proof.
  unfold decode_bool, ensure_size, encode_bool. cbn [app]. rewrite lenN_cons.
  destruct (N.ltb_spec (1 + lenN rest) 1); [lia|]. destruct b; reflexivity.
Qed.

Lemma decode_u8_encode v rest : decode_u8 (encode_u8 v ++ rest) = Ok (v, rest).
Proof.
  unfold decode_u8, ensure_size, encode_u8. cbn [app]. rewrite lenN_cons.
  destruct (N.ltb_spec (1 + lenN rest) 1); [lia|]. reflexivity.
Qed.

Lemma decode_i8_encode z rest : (-128 <= z < 128)%Z ->
  decode_i8 (encode_i8 z ++ rest) = Ok (z, rest).
Proof.
  intros Hz. unfold decode_i8, ensure_size, encode_i8. cbn [app]. rewrite lenN_cons.
  destruct (N.ltb_spec (1 + lenN rest) 1); [lia|]. cbn [get_u8 bind].
  do 2 f_equal. destruct (N.ltb_spec (Z.to_N (z mod 256)) 128); lia.
Qed.

Lemma be_bytes_length n v : length (be_bytes n v) = n.
Proof. induction n; cbn [be_bytes length]; congruence. Qed.

Lemma of_be_app_acc l a : fold_left (fun a b => a * 256 + b) l a
  = a * 256 ^ lenN l + of_be l.
Proof.
  unfold of_be. revert a. induction l as [|b l IH]; intros a; cbn [fold_left].
  - unfold lenN. cbn [length N.of_nat N.pow]. lia.
  - rewrite IH. rewrite (IH (0 * 256 + b)). rewrite lenN_cons, N.pow_add_r. lia.
Qed.

Lemma of_be_bytes n v : of_be (be_bytes n v) = v mod 256 ^ N.of_nat n.
Proof.
  induction n as [|n IH].
  - cbn [be_bytes N.of_nat N.pow]. unfold of_be. cbn. rewrite N.mod_1_r. reflexivity.
  - cbn [be_bytes]. unfold of_be. cbn [fold_left]. rewrite of_be_app_acc, IH.
    unfold lenN. rewrite be_bytes_length.
    rewrite Nat2N.inj_succ, N.pow_succ_r'.
    rewrite (N.mul_comm 256). rewrite N.mod_mul_r; [lia|apply N.pow_nonzero; discriminate|discriminate].
Qed.

Lemma be_bytes_ok n v : bytes_ok (be_bytes n v) = true.
Proof.
  unfold bytes_ok. induction n; cbn [be_bytes forallb]; [reflexivity|].
  rewrite IHn, andb_true_r. unfold byte_ok. lia.
Qed.

Lemma decode_fixed_encode n v rest : v < 256 ^ N.of_nat n ->
  decode_fixed (N.of_nat n) (be_bytes n v ++ rest) = Ok (v, rest).
Proof.
  intros Hv. unfold decode_fixed, ensure_size. rewrite lenN_app.
  assert (Hl : lenN (be_bytes n v) = N.of_nat n) by (unfold lenN; rewrite be_bytes_length; reflexivity).
  destruct (N.ltb_spec (lenN (be_bytes n v) + lenN rest) (N.of_nat n)); [lia|].
  rewrite Nat2N.id. rewrite <- (be_bytes_length n v) at 1 3.
  rewrite firstn_len_app, skipn_len_app, of_be_bytes, N.mod_small by exact Hv. reflexivity.
Qed.

Lemma decode_f32_encode v rest : v < 2 ^ 32 -> decode_f32 (encode_f32 v ++ rest) = Ok (v, rest).
Proof. intros H. apply (decode_fixed_encode 4). exact H. Qed.

Lemma decode_f64_encode v rest : v < 2 ^ 64 -> decode_f64 (encode_f64 v ++ rest) = Ok (v, rest).
Proof. intros H. apply (decode_fixed_encode 8). exact H. Qed.

Lemma decode_u64_encode v rest : v < 2 ^ 64 -> decode_u64 (encode_u64 v ++ rest) = Ok (v, rest).
Proof. apply (decode_uint_encode W64). Qed.

Lemma decode_u32_encode v rest : v < 2 ^ 32 -> decode_u32 (encode_u32 v ++ rest) = Ok (v, rest).
Proof. apply (decode_uint_encode W32). Qed.

Lemma ensure_size_app {A} (a b : list N) (k : res A) : ensure_size (a ++ b) (lenN a) k = k.
Proof. unfold ensure_size. rewrite lenN_app. destruct (N.ltb_spec (lenN a + lenN b) (lenN a)); [lia|reflexivity]. Qed.

Lemma decode_bytes_encode l rest : lenN l < 2 ^ 64 ->
  decode_bytes (encode_bytes l ++ rest) = Ok (l, rest).
Proof.
  intros Hl. unfold decode_bytes, encode_bytes. rewrite <- app_assoc.
  rewrite decode_u64_encode by exact Hl. cbn [bind].
  rewrite ensure_size_app, to_nat_lenN, firstn_len_app, skipn_len_app. reflexivity.
Qed.

Lemma decode_string_encode l rest : lenN l < 2 ^ 64 -> utf8_ok l = true ->
  decode_string (encode_bytes l ++ rest) = Ok (l, rest).
Proof.
  intros Hl Hu. unfold decode_string. rewrite decode_bytes_encode by exact Hl.
  cbn [bind]. rewrite Hu. reflexivity.
Qed.

Lemma size_bytes_len l : lenN l < 2 ^ 64 -> lenN (encode_bytes l) = size_bytes l.
Proof.
  intros H. unfold encode_bytes, size_bytes. rewrite lenN_app.
  change (encode_u64 (lenN l)) with (encode_uint W64 (lenN l)). rewrite uint_len by exact H. reflexivity.
Qed.

Lemma decode_id_encode f rest : fid_value f < 2 ^ 29 -> decode_id (encode_id f ++ rest) = Ok (f, rest).
Proof.
  intros H. unfold decode_id, encode_id.
  rewrite decode_u32_encode by (apply fid_into_lt; exact H). cbn [bind].
  destruct f as [id e]. rewrite fid_roundtrip by exact H. reflexivity.
Qed.

(** * Consumption: every reader returns a suffix of its input *)

Definition suffix (r' r : list N) : Prop := exists c, r = c ++ r'.

Lemma suffix_refl r : suffix r r.
Proof. exists []. reflexivity. Qed.

Lemma suffix_trans a b c : suffix a b -> suffix b c -> suffix a c.
Proof. intros (x & ->) (y & ->). exists (y ++ x). apply app_assoc. Qed.

Lemma suffix_skipn n r : suffix (skipn n r) r.
Proof. exists (firstn n r). symmetry. apply firstn_skipn. Qed.

Lemma suffix_length a b : suffix a b -> (length a <= length b)%nat.
Proof. intros (c & ->). rewrite app_length. lia. Qed.

Definition reader_ok {A} (d : dec A) : Prop :=
  forall r a r', d r = Ok (a, r') -> suffix r' r.

Lemma get_u8_ok : reader_ok get_u8.
Proof. intros [|b r] a r' H; [discriminate|]. injection H as <- <-. exists [b]. reflexivity. Qed.

Lemma ensure_ok {A} r n (k : res A) a : ensure_size r n k = Ok a -> n <= lenN r /\ k = Ok a.
Proof. unfold ensure_size. destruct (N.ltb_spec (lenN r) n); [discriminate|]. auto. Qed.

Lemma decode_bool_ok : reader_ok decode_bool.
Proof.
  intros r a r' H. apply ensure_ok in H as [_ H]. apply bind_ok in H as ([b r1] & H1 & H2).
  injection H2 as <- <-. eapply get_u8_ok; eassumption.
Qed.

Lemma decode_u8_ok : reader_ok decode_u8.
Proof. intros r a r' H. apply ensure_ok in H as [_ H]. eapply get_u8_ok; eassumption. Qed.

Lemma decode_i8_ok : reader_ok decode_i8.
Proof.
  intros r a r' H. apply ensure_ok in H as [_ H]. apply bind_ok in H as ([b r1] & H1 & H2).
  injection H2 as <- <-. eapply get_u8_ok; eassumption.
Qed.

Lemma decode_uint_ok w : reader_ok (decode_uint w).
Proof.
  intros r a r' H. unfold decode_uint in H. destruct (decode_arr w r) as [[v n]|]; [|discriminate].
  injection H as <- <-. apply suffix_skipn.
Qed.

Lemma decode_sint_ok w : reader_ok (decode_sint w).
Proof.
  intros r a r' H. unfold decode_sint in H. destruct (decode_arr_signed w r) as [[v n]|]; [|discriminate].
  injection H as <- <-. apply suffix_skipn.
Qed.

(** A varint consumes at least one byte, whatever the input. *)
Lemma vdec_pos w n : forall i acc buf v k, vdec w n i acc buf = Some (v, k) -> i + 1 <= k /\ buf <> [].
Proof.
  induction n as [|n IH]; intros i acc buf v k H; [discriminate|].
  destruct buf as [|b r]; [discriminate|]. cbn [vdec] in H.
  destruct (N.land b 128 =? 0).
  - injection H as <- <-. split; [lia|discriminate].
  - apply IH in H as [H _]. split; [lia|discriminate].
Qed.

Lemma decode_uint_consumes w r v r' : decode_uint w r = Ok (v, r') -> (length r' < length r)%nat.
Proof.
  unfold decode_uint. destruct (decode_arr w r) as [[x n]|] eqn:E; [|discriminate].
  intros H. injection H as <- <-. apply vdec_pos in E as [H1 H2].
  rewrite skipn_length. destruct r; [congruence|]. cbn [length]. lia.
Qed.

Lemma decode_id_consumes r v r' : decode_id r = Ok (v, r') -> (length r' < length r)%nat.
Proof.
  unfold decode_id. intros H. apply bind_ok in H as ([raw r1] & H1 & H2).
  destruct (fid_from_u32 raw); [|discriminate]. injection H2 as <- <-.
  apply decode_uint_consumes in H1. exact H1.
Qed.

Lemma decode_id_ok : reader_ok decode_id.
Proof.
  intros r a r' H. unfold decode_id in H. apply bind_ok in H as ([raw r1] & H1 & H2).
  destruct (fid_from_u32 raw); [|discriminate]. injection H2 as <- <-.
  eapply (decode_uint_ok W32); exact H1.
Qed.

Lemma decode_fixed_ok n : reader_ok (decode_fixed n).
Proof. intros r a r' H. apply ensure_ok in H as [_ H]. injection H as <- <-. apply suffix_skipn. Qed.

Lemma decode_bytes_ok : reader_ok decode_bytes.
Proof.
  intros r a r' H. unfold decode_bytes in H. apply bind_ok in H as ([len r1] & H1 & H).
  apply ensure_ok in H as [_ H]. injection H as <- <-.
  eapply suffix_trans; [apply suffix_skipn|]. eapply (decode_uint_ok W64); exact H1.
Qed.

Lemma decode_string_ok : reader_ok decode_string.
Proof.
  intros r a r' H. unfold decode_string in H. apply bind_ok in H as ([b r1] & H1 & H).
  destruct (utf8_ok b); [|discriminate]. injection H as <- <-. eapply decode_bytes_ok; exact H1.
Qed.

Lemma decode_elems_rest {T} (d : dec T) r1 len xs r' :
  decode_elems d r1 len = Ok (xs, r') ->
  len <= lenN r1 /\ r' = skipn (N.to_nat len) r1
  /\ dloop d (N.to_nat len) (firstn (N.to_nat len) r1) = Ok xs.
Proof.
  unfold decode_elems. intros H. apply ensure_ok in H as [Hl H].
  apply bind_ok in H as (ys & H1 & H2). injection H2 as <- <-. auto.
Qed.

Lemma decode_vec_ok {T} (d : dec T) : reader_ok (decode_vec d).
Proof.
  intros r a r' H. unfold decode_vec in H. apply bind_ok in H as ([len r1] & H1 & H).
  apply decode_elems_rest in H as (_ & -> & _).
  eapply suffix_trans; [apply suffix_skipn|]. eapply (decode_uint_ok W64); exact H1.
Qed.

Lemma decode_hash_map_ok {K V} eqb (dk : dec K) (dv : dec V) : reader_ok (decode_hash_map eqb dk dv).
Proof.
  intros r a r' H. unfold decode_hash_map in H. apply bind_ok in H as ([l r1] & H1 & H2).
  injection H2 as <- <-. eapply decode_vec_ok; exact H1.
Qed.

Lemma decode_hash_set_ok {K} eqb (d : dec K) : reader_ok (decode_hash_set eqb d).
Proof.
  intros r a r' H. unfold decode_hash_set in H. apply bind_ok in H as ([l r1] & H1 & H2).
  injection H2 as <- <-. eapply decode_vec_ok; exact H1.
Qed.

Lemma decode_option_ok {T} (d : dec T) : reader_ok d -> reader_ok (decode_option d).
Proof.
  intros Hd r a r' H. unfold decode_option in H. apply bind_ok in H as ([t r1] & H1 & H2).
  apply decode_u8_ok in H1. destruct (t =? 1).
  - apply bind_ok in H2 as ([v r2] & H2 & H3). injection H3 as <- <-.
    eapply suffix_trans; [eapply Hd; exact H2|exact H1].
  - injection H2 as <- <-. exact H1.
Qed.

Lemma decode_array_ok {T} n (d : dec T) : reader_ok (decode_array n d).
Proof.
  intros r a r' H. unfold decode_array in H. apply bind_ok in H as ([len r1] & H1 & H).
  apply ensure_ok in H as [Hl H]. cbv zeta in H. apply bind_ok in H as (xs & H2 & H3).
  destruct (length xs =? n)%nat; [|discriminate]. injection H3 as <- <-.
  eapply suffix_trans; [apply suffix_skipn|]. eapply (decode_uint_ok W64); exact H1.
Qed.

Lemma nonzero_unwrap_ok {A} (l : list A) r a r' :
  nonzero_unwrap l r = Ok (a, r') -> a = l /\ r' = r /\ l <> [].
Proof. destruct l; cbn; intros H; [discriminate|]. injection H as <- <-. repeat split. discriminate. Qed.

Lemma decode_non_zero_bytes_ok : reader_ok decode_non_zero_bytes.
Proof.
  intros r a r' H. unfold decode_non_zero_bytes in H. apply bind_ok in H as ([len r1] & H1 & H).
  destruct (len =? 0); [discriminate|]. apply ensure_ok in H as [Hl H].
  apply nonzero_unwrap_ok in H as (_ & -> & _).
  eapply suffix_trans; [apply suffix_skipn|]. eapply (decode_uint_ok W64); exact H1.
Qed.

Lemma decode_non_zero_string_ok : reader_ok decode_non_zero_string.
Proof.
  intros r a r' H. unfold decode_non_zero_string in H. apply bind_ok in H as ([b r1] & H1 & H).
  destruct (utf8_ok b); [|discriminate]. apply nonzero_unwrap_ok in H as (_ & -> & _).
  eapply decode_non_zero_bytes_ok; exact H1.
Qed.

Lemma decode_non_zero_vec_ok {T} (d : dec T) : reader_ok (decode_non_zero_vec d).
Proof.
  intros r a r' H. unfold decode_non_zero_vec in H. apply bind_ok in H as ([len r1] & H1 & H).
  destruct (len =? 0); [discriminate|]. apply bind_ok in H as ([xs r2] & H2 & H).
  apply nonzero_unwrap_ok in H as (_ & -> & _). apply decode_elems_rest in H2 as (_ & -> & _).
  eapply suffix_trans; [apply suffix_skipn|]. eapply (decode_uint_ok W64); exact H1.
Qed.

Lemma decode_non_zero_hash_map_ok {K V} eqb (dk : dec K) (dv : dec V) :
  reader_ok (decode_non_zero_hash_map eqb dk dv).
Proof.
  intros r a r' H. unfold decode_non_zero_hash_map in H. apply bind_ok in H as ([len r1] & H1 & H).
  destruct (len =? 0); [discriminate|]. apply bind_ok in H as ([xs r2] & H2 & H).
  apply nonzero_unwrap_ok in H as (_ & -> & _). apply decode_elems_rest in H2 as (_ & -> & _).
  eapply suffix_trans; [apply suffix_skipn|]. eapply (decode_uint_ok W64); exact H1.
Qed.

Lemma decode_non_zero_hash_set_ok {K} eqb (d : dec K) : reader_ok (decode_non_zero_hash_set eqb d).
Proof.
  intros r a r' H. unfold decode_non_zero_hash_set in H. apply bind_ok in H as ([len r1] & H1 & H).
  destruct (len =? 0); [discriminate|]. apply bind_ok in H as ([xs r2] & H2 & H).
  apply nonzero_unwrap_ok in H as (_ & -> & _). apply decode_elems_rest in H2 as (_ & -> & _).
  eapply suffix_trans; [apply suffix_skipn|]. eapply (decode_uint_ok W64); exact H1.
Qed.

Lemma decode_non_zero_uint_ok d : reader_ok d -> reader_ok (decode_non_zero_uint d).
Proof.
  intros Hd r a r' H. unfold decode_non_zero_uint in H. apply bind_ok in H as ([v r1] & H1 & H).
  destruct (v =? 0); [discriminate|]. injection H as <- <-. eapply Hd; exact H1.
Qed.

Lemma decode_non_zero_sint_ok d : reader_ok d -> reader_ok (decode_non_zero_sint d).
Proof.
  intros Hd r a r' H. unfold decode_non_zero_sint in H. apply bind_ok in H as ([v r1] & H1 & H).
  destruct (v =? 0)%Z; [discriminate|]. injection H as <- <-. eapply Hd; exact H1.
Qed.

Lemma skip_varint_suffix r r' : skip_varint r = Ok r' -> suffix r' r.
Proof.
  revert r'. induction r as [|b r IH]; intros r' H; [discriminate|]. cbn [skip_varint] in H.
  destruct (N.land b 128 =? 0).
  - injection H as <-. exists [b]. reflexivity.
  - apply IH in H as (c & ->). exists (b :: c). reflexivity.
Qed.

Lemma skip_fixed_suffix n r r' : skip_fixed n r = Ok r' -> suffix r' r.
Proof. intros H. apply ensure_ok in H as [_ H]. injection H as <-. apply suffix_skipn. Qed.

Lemma decode_skip_suffix e r r' : decode_skip e r = Ok r' -> suffix r' r.
Proof.
  destruct e; cbn [decode_skip]; intros H.
  - apply skip_varint_suffix. exact H.
  - apply bind_ok in H as ([len r1] & H1 & H). apply ensure_ok in H as [_ H]. injection H as <-.
    eapply suffix_trans; [apply suffix_skipn|]. eapply (decode_uint_ok W64); exact H1.
  - eapply skip_fixed_suffix; exact H.
  - eapply skip_fixed_suffix; exact H.
  - eapply skip_fixed_suffix; exact H.
Qed.

(** * Loops *)

(** More fuel than bytes never changes the outcome of the element loop: [Diverge] means
    the Rust loop does not terminate. *)
Lemma dloop_fuel {T} (d : dec T) : reader_ok d ->
  forall n m r, (length r <= n)%nat -> (length r <= m)%nat -> dloop d n r = dloop d m r.
Proof.
  intros Hd.
  (* a stuck iteration stays stuck *)
  assert (Hstuck : forall n r x, r <> [] -> d r = Ok (x, r) -> dloop d n r = Diverge).
  { intros n r x Hr Hx. induction n as [|n IH]; destruct r as [|b r]; try congruence; cbn [dloop].
    - reflexivity.
    - rewrite Hx. cbn [bind]. rewrite IH. reflexivity. }
  intros n m r. remember (length r) as k eqn:Hk.
  revert n m r Hk. induction k as [k IHk] using lt_wf_ind.
  intros n m r Hk Hn Hm. destruct r as [|b r]; [destruct n, m; reflexivity|].
  cbn [length] in Hk. destruct n as [|n]; [lia|]. destruct m as [|m]; [lia|].
  cbn [dloop]. destruct (d (b :: r)) as [[x r']| | |] eqn:E; try reflexivity. cbn [bind].
  pose proof (Hd _ _ _ E) as Hs. destruct Hs as (c & Hc).
  destruct c as [|c0 c].
  - cbn in Hc. subst r'. rewrite !(Hstuck _ (b :: r) x); [reflexivity|discriminate|exact E|discriminate|exact E].
  - assert (Hl : (length r' < k)%nat).
    { apply (f_equal (@length N)) in Hc. cbn [length app] in Hc. rewrite app_length in Hc. lia. }
    rewrite (IHk (length r') Hl n m r' eq_refl) by lia. reflexivity.
Qed.

Lemma concat_len_ge {T} (enc : T -> list N) xs :
  (forall x, In x xs -> enc x <> []) -> (length xs <= length (concat (map enc xs)))%nat.
Proof.
  induction xs as [|x xs IH]; intros H; [cbn; lia|]. cbn [map concat length]. rewrite app_length.
  specialize (IH (fun y Hy => H y (or_intror Hy))).
  pose proof (H x (or_introl eq_refl)). destruct (enc x); [congruence|]. cbn [length]. lia.
Qed.

Lemma dloop_encode {T} (d : dec T) (enc : T -> list N) B xs : forall n,
  (forall x, In x xs -> enc x <> []) ->
  (forall x rest, In x xs -> (length (enc x ++ rest) <= B)%nat -> d (enc x ++ rest) = Ok (x, rest)) ->
  (length (concat (map enc xs)) <= B)%nat ->
  (length xs <= n)%nat ->
  dloop d n (concat (map enc xs)) = Ok xs.
Proof.
  induction xs as [|x xs IH]; intros n Hne Hd HB Hn; [destruct n; reflexivity|].
  cbn [length] in Hn. destruct n as [|n]; [lia|]. cbn [map concat] in *.
  rewrite app_length in HB.
  pose proof (Hd x (concat (map enc xs)) (or_introl eq_refl)) as Hx.
  rewrite app_length in Hx. specialize (Hx HB).
  pose proof (Hne x (or_introl eq_refl)) as Hx0.
  destruct (enc x ++ concat (map enc xs)) as [|b l] eqn:El.
  { apply app_eq_nil in El as [El _]. congruence. }
  cbn [dloop]. rewrite Hx. cbn [bind].
  rewrite IH; [reflexivity| | | lia | lia].
  - intros y Hy. apply Hne. right. exact Hy.
  - intros y rest Hy. apply Hd. right. exact Hy.
Qed.

Lemma decode_elems_encode {T} (d : dec T) (enc : T -> list N) B xs rest :
  (forall x, In x xs -> enc x <> []) ->
  (forall x rest, In x xs -> (length (enc x ++ rest) <= B)%nat -> d (enc x ++ rest) = Ok (x, rest)) ->
  (length (concat (map enc xs)) <= B)%nat ->
  decode_elems d (concat (map enc xs) ++ rest) (lenN (concat (map enc xs))) = Ok (xs, rest).
Proof.
  intros Hne Hd HB. unfold decode_elems. rewrite ensure_size_app. cbv zeta.
  rewrite to_nat_lenN, firstn_len_app, skipn_len_app.
  rewrite (dloop_encode d enc B); [reflexivity|exact Hne|exact Hd|exact HB|].
  apply concat_len_ge. exact Hne.
Qed.

Lemma darr_encode {T} (d : dec T) (enc : T -> list N) B xs :
  (forall x, In x xs -> enc x <> []) ->
  (forall x rest, In x xs -> (length (enc x ++ rest) <= B)%nat -> d (enc x ++ rest) = Ok (x, rest)) ->
  (length (concat (map enc xs)) <= B)%nat ->
  darr d (length xs) (concat (map enc xs)) = Ok xs.
Proof.
  induction xs as [|x xs IH]; intros Hne Hd HB; [reflexivity|].
  cbn [map concat length] in *. rewrite app_length in HB.
  pose proof (Hd x (concat (map enc xs)) (or_introl eq_refl)) as Hx.
  rewrite app_length in Hx. specialize (Hx HB).
  pose proof (Hne x (or_introl eq_refl)) as Hx0.
  destruct (enc x ++ concat (map enc xs)) as [|b l] eqn:El.
  { apply app_eq_nil in El as [El _]. congruence. }
  cbn [darr]. rewrite Hx. cbn [bind]. rewrite IH; [reflexivity| | | lia].
  - intros y Hy. apply Hne. right. exact Hy.
  - intros y rest Hy. apply Hd. right. exact Hy.
Qed.

(** * Maps and sets *)

Lemma map_insert_fresh {K V} (eqb : K -> K -> bool) k (v : V) m :
  (forall k', In k' (map fst m) -> eqb k k' = false) -> map_insert eqb k v m = m ++ [(k, v)].
Proof.
  induction m as [|[k' v'] m IH]; intros H; [reflexivity|]. cbn [map_insert app].
  rewrite (H k' (or_introl eq_refl)). f_equal. apply IH. intros x Hx. apply H. right. exact Hx.
Qed.

Lemma map_of_nodup {K V} (eqb : K -> K -> bool) (l : list (K * V)) :
  (forall a b, eqb a b = true -> a = b) -> NoDup (map fst l) -> map_of eqb l = l.
Proof.
  intros Heq Hnd. unfold map_of.
  assert (G : forall (l acc : list (K * V)), NoDup (map fst (acc ++ l)) ->
     fold_left (fun m kv => map_insert eqb (fst kv) (snd kv) m) l acc = acc ++ l).
  { clear l Hnd. induction l as [|[k v] l IH]; intros acc H; cbn [fold_left].
    - symmetry. apply app_nil_r.
    - cbn [fst snd]. rewrite map_insert_fresh.
      + rewrite IH; rewrite <- app_assoc; [reflexivity|exact H].
      + intros k' Hk'. destruct (eqb k k') eqn:E; [|reflexivity]. exfalso.
        apply Heq in E. subst k'. rewrite map_app in H. cbn [map fst] in H.
        apply NoDup_remove_2 in H. apply H. apply in_or_app. left. exact Hk'. }
  apply (G l []). exact Hnd.
Qed.

Lemma set_of_nodup {K} (eqb : K -> K -> bool) (l : list K) :
  (forall a b, eqb a b = true -> a = b) -> NoDup l -> set_of eqb l = l.
Proof.
  intros Heq Hnd. unfold set_of.
  assert (G : forall l acc, NoDup (acc ++ l) ->
     fold_left (fun s k => set_insert eqb k s) l acc = acc ++ l).
  { clear l Hnd. induction l as [|k l IH]; intros acc H; cbn [fold_left].
    - symmetry. apply app_nil_r.
    - unfold set_insert at 2. destruct (existsb (eqb k) acc) eqn:E.
      + exfalso. apply existsb_exists in E as (x & Hx & E). apply Heq in E. subst x.
        apply NoDup_remove_2 in H. apply H. apply in_or_app. left. exact Hx.
      + rewrite IH; rewrite <- app_assoc; [reflexivity|exact H]. }
  apply (G l []). exact Hnd.
Qed.
