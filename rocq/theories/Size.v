(** [size] against the number of bytes written, and schema-level conditions for right
    length prefixes. *)
From Verif Require Import Base Varint VarintSpec VarintProofs Wire WireProofs Codec CodecSpec CodecProofs SchemaSpec Safety Stable.
Local Open Scope N_scope.

Lemma size_uint_mono w a b : a <= b -> b < modulus w -> size_uint w a <= size_uint w b.
Proof.
  intros Hab Hb. unfold size_uint, modulus in *.
  destruct (c04 w a ltac:(lia)) as (? & la & _ & <- & Hla & _ & Hmin).
  destruct (c04 w b ltac:(lia)) as (? & lb & _ & <- & Hlb & Hltb & _).
  specialize (Hmin lb ltac:(lia) ltac:(lia)). lia.
Qed.

Lemma size_uint_pos w v : v < modulus w -> 1 <= size_uint w v.
Proof.
  intros H. unfold size_uint. destruct (c04 w v H) as (? & l & _ & <- & Hl & _). lia.
Qed.

Lemma pow128_8 k : (1 <= k)%nat -> exists m, 128 ^ N.of_nat k = 8 * m.
Proof.
  intros H. exists (16 * 128 ^ N.of_nat (k - 1)).
  replace (N.of_nat k) with (1 + N.of_nat (k - 1)) by lia. rewrite N.pow_add_r. change (128 ^ 1) with 128. lia.
Qed.

Lemma size_field_id_len id e : id < 2 ^ 29 -> lenN (encode_id (FieldId id e)) = size_field_id id.
Proof.
  intros H. unfold encode_id, encode_u32, size_field_id.
  rewrite uint_len by (apply fid_into_lt; exact H). rewrite fid_into_arith by exact H.
  rewrite N.shiftl_mul_pow2. change (2 ^ 3) with 8.
  assert (Hm : id * 8 < 2 ^ 32) by (change (2 ^ 32) with (2 ^ 29 * 8); lia).
  rewrite N.mod_small by exact Hm.
  assert (He : fenc_u32 e < 8) by (destruct e; reflexivity).
  assert (Hm2 : id * 8 + fenc_u32 e < 2 ^ 32) by (change (2 ^ 32) with (2 ^ 29 * 8); lia).
  apply N.le_antisymm.
  - unfold size_uint.
    destruct (c04 W32 _ Hm) as (? & la & _ & <- & Hla & Hlta & _).
    destruct (c04 W32 _ Hm2) as (? & lb & _ & <- & Hlb & _ & Hmin).
    specialize (Hmin la ltac:(lia)). destruct (pow128_8 la ltac:(lia)) as [m Hm8]. lia.
  - apply size_uint_mono; [lia|exact Hm2].
Qed.

Lemma sumN_app (a b : list N) : sumN (a ++ b) = sumN a + sumN b.
Proof. unfold sumN. induction a as [|x a IH]; cbn [app fold_right]; [lia|]. rewrite IH. lia. Qed.
Lemma sumN_cons x (l : list N) : sumN (x :: l) = x + sumN l.
Proof. reflexivity. Qed.
Lemma sumZ_cons x l : sumZ (x :: l) = (x + sumZ l)%Z.
Proof. reflexivity. Qed.

Section Main.
Variable E : env.
Hypothesis HE : env_ok E = true.

Definition SG (v : val) : Prop := forall t root,
  typed E t v = true -> lenN (encode E root t v) < 2 ^ 64 ->
  Z.of_N (lenN (encode E root t v)) = (Z.of_N (size E t v) + gap E root t v)%Z.

Definition SG2 (v : val) : Prop := SG v /\ forall x, v = VSome x -> SG x.

Lemma sg_elems t l : Forall SG l -> forallb (typed E t) l = true ->
  lenN (concat (map (encode E false t) l)) < 2 ^ 64 ->
  Z.of_N (lenN (concat (map (encode E false t) l)))
  = (Z.of_N (sumN (map (size E t) l)) + sumZ (map (gap E false t) l))%Z.
Proof.
  induction 1 as [|v l Hv Hl IH]; intros Ht Hlen; [reflexivity|].
  cbn [forallb] in Ht. apply andb_true_iff in Ht as [Htv Ht].
  cbn [map concat] in *. rewrite lenN_app in *. rewrite sumN_cons, sumZ_cons.
  specialize (Hv t false Htv ltac:(lia)). specialize (IH Ht ltac:(lia)). lia.
Qed.

Lemma sg_seq ts : forall l, Forall SG l -> all2 (typed E) ts l = true ->
  lenN (encode_seq (encode E) ts l) < 2 ^ 64 ->
  Z.of_N (lenN (encode_seq (encode E) ts l)) = (Z.of_N (size_seq (size E) ts l) + gap_seq (gap E) ts l)%Z.
Proof.
  induction ts as [|t ts IH]; intros [|v l] Hf Ht Hlen; cbn [all2] in Ht; try discriminate; [reflexivity|].
  inversion Hf as [|? ? Hv Hl]; subst. apply andb_true_iff in Ht as [Htv Ht].
  cbn [encode_seq size_seq gap_seq] in *. rewrite lenN_app in *.
  specialize (Hv t false Htv ltac:(lia)). specialize (IH l Hl Ht ltac:(lia)). lia.
Qed.

Lemma sg_fields fs : forall vs, Forall SG2 vs -> all2 (typed E) (map f_ty fs) vs = true ->
  Forall (fun f => 0 < f_id f /\ f_id f < 2 ^ 29) fs ->
  lenN (encode_fields (encode E) fs vs) < 2 ^ 64 ->
  Z.of_N (lenN (encode_fields (encode E) fs vs))
  = (Z.of_N (size_fields (size E) fs vs) + gap_fields (gap E) fs vs)%Z.
Proof.
  induction fs as [|f fs IH]; intros [|v vs] Hf Ht Hid Hlen; cbn [map all2] in Ht; try discriminate; [reflexivity|].
  inversion Hf as [|? ? [Hv Hvs] Hl]; subst. inversion Hid as [|? ? [_ Hf29] Hid']; subst.
  apply andb_true_iff in Ht as [Htv Ht].
  rewrite encode_fields_cons in *. rewrite lenN_app in *. cbn [size_fields gap_fields].
  specialize (IH vs Hl Ht Hid' ltac:(lia)).
  assert (Hone : forall t x e, SG x -> typed E t x = true ->
    lenN (encode_id (FieldId (f_id f) e) ++ encode E true t x) < 2 ^ 64 ->
    Z.of_N (lenN (encode_id (FieldId (f_id f) e) ++ encode E true t x))
    = (Z.of_N (size_field_id (f_id f) + size E t x) + gap E true t x)%Z).
  { intros t x e Hx Htx Hl'. rewrite lenN_app in *. rewrite size_field_id_len by exact Hf29.
    specialize (Hx t true Htx ltac:(lia)). lia. }
  unfold encode_one in *. unfold encode_field, size_field in *.
  destruct (f_ty f) eqn:Ef;
    try (specialize (Hone _ v (fenc_of (f_ty f)) Hv Htv); rewrite Ef in Hone; specialize (Hone ltac:(lia)); lia).
  destruct v; try discriminate Htv; cbn [encode_field_option size_field_option] in *.
  - change (lenN (@nil N)) with 0 in *. lia.
  - specialize (Hone t v (fenc_of t) (Hvs v eq_refl) Htv ltac:(lia)). lia.
Qed.

Lemma sg_body fs vs : fields_ok fs = true -> Forall SG2 vs ->
  all2 (typed E) (map f_ty (fs_list fs)) vs = true ->
  lenN (encode_body (encode E) fs vs) < 2 ^ 64 ->
  Z.of_N (lenN (encode_body (encode E) fs vs))
  = (Z.of_N (size_body (size E) fs vs) + gap_fields (gap E) (fs_list fs) vs)%Z.
Proof.
  intros Hok Hf Ht Hlen. destruct (fields_ok_ids fs Hok) as (_ & Hids & Hunit).
  unfold encode_body, size_body in *. destruct (fs_kind fs) eqn:Ek.
  1, 2: rewrite lenN_app in *; pose proof (sg_fields (fs_list fs) vs Hf Ht Hids ltac:(lia)) as G;
    change (lenN (encode_u32 END_MARKER)) with 1; unfold END_MARKER_SIZE; lia.
  rewrite (Hunit eq_refl) in *. destruct vs; [reflexivity|discriminate].
Qed.

Lemma gap_gen root t v : gap E root (TGen t) v = gap E false t v.
Proof.
  destruct v; try reflexivity. cbn [gap core is_tuple].
  destruct (core t); try reflexivity. rewrite andb_false_r. reflexivity.
Qed.

Lemma size_gen t v : size E (TGen t) v = size E t v.
Proof. destruct v; reflexivity. Qed.

Lemma encode_core_nz root t v : nz_inner t = true -> encode E root (TNonZero t) v = encode E root t v.
Proof. destruct t; try discriminate; intros _; destruct v; reflexivity. Qed.
Lemma gap_core_nz root t v : nz_inner t = true -> gap E root (TNonZero t) v = gap E root t v.
Proof. destruct t; try discriminate; intros _; destruct v; reflexivity. Qed.
Lemma size_core_nz t v : size E (TNonZero t) v = size E t v.
Proof. destruct v; reflexivity. Qed.

Lemma typed_nz t v : typed E (TNonZero t) v = true -> nz_inner t = true /\ nonzero_val v = true /\ typed E t v = true.
Proof.
  assert (Hh : nz_inner t = true -> head_ok t v = true) by (destruct t; try discriminate; reflexivity).
  intros H.
  assert (Hn : nz_inner t && nonzero_val v = true).
  { destruct v; cbn [typed head_ok] in H; apply andb_true_iff in H as [H _]; exact H. }
  apply andb_true_iff in Hn as [Hn Hz]. split; [exact Hn|]. split; [exact Hz|].
  destruct v; cbn [typed head_ok core] in *; rewrite (Hh Hn); apply andb_true_iff in H as [_ H]; exact H.
Qed.

Ltac nz_case IHt Hty Hlen :=
  apply typed_nz in Hty as (Hin & _ & Hty);
  rewrite encode_core_nz in * by exact Hin; rewrite gap_core_nz by exact Hin; rewrite size_core_nz;
  apply IHt; assumption.
Ltac gen_case IHt Hty Hlen :=
  rewrite encode_gen in *; rewrite gap_gen, size_gen; rewrite typed_gen in Hty; apply IHt; assumption.

Lemma SG_all v : SG2 v.
Proof.
  induction v using val_ind'; (split; [|try discriminate]); try (intros x X; injection X as <-; exact (proj1 IHv)).
  - intros t. induction t; intros root Hty Hlen; try discriminate Hty;
      first [reflexivity | nz_case IHt Hty Hlen | gen_case IHt Hty Hlen].
  - intros t. induction t; intros root Hty Hlen; try discriminate Hty.
    + reflexivity.
    + reflexivity.
    + cbn [typed head_ok core andb] in Hty. apply unsigned_range in Hty as [Hu _].
      cbn [encode size gap core]. rewrite uint_len by exact Hu. lia.
    + cbn [typed head_ok core andb] in Hty. apply in_signed_range in Hty.
      cbn [encode size gap core]. rewrite sint_len by exact Hty. lia.
    + nz_case IHt Hty Hlen.
    + gen_case IHt Hty Hlen.
  - intros t. induction t; intros root Hty Hlen; try discriminate Hty.
    + cbn [encode size gap core]. unfold encode_f32, lenN. rewrite be_bytes_length. reflexivity.
    + cbn [encode size gap core]. unfold encode_f64, lenN. rewrite be_bytes_length. reflexivity.
    + nz_case IHt Hty Hlen.
    + gen_case IHt Hty Hlen.
  - intros t. induction t; intros root Hty Hlen; try discriminate Hty;
      try (cbn [encode size gap core] in *; rewrite size_bytes_len by (apply lenN_encode_bytes; exact Hlen); lia).
    + nz_case IHt Hty Hlen.
    + gen_case IHt Hty Hlen.
  - assert (H' : Forall SG l) by (eapply Forall_impl; [|exact H]; intros a Ha; exact (proj1 Ha)).
    intros t. induction t; intros root Hty Hlen; try discriminate Hty.
    + cbn [typed head_ok core andb] in Hty. cbn [encode size gap core] in *. unfold encode_vec, size_vec, prefix_gap in *.
      rewrite lenN_app in *. pose proof (sg_elems t l H' Hty ltac:(lia)). lia.
    + cbn [typed head_ok core andb] in Hty. apply andb_true_iff in Hty as [Hty _].
      cbn [encode size gap core] in *. unfold encode_vec, size_vec, prefix_gap in *.
      rewrite lenN_app in *. pose proof (sg_elems t l H' Hty ltac:(lia)). lia.
    + nz_case IHt Hty Hlen.
    + cbn [typed head_ok core andb] in Hty. cbn [encode size gap core is_tuple] in *. rewrite andb_true_r in *.
      destruct root.
      * unfold encode_tuple in *. rewrite lenN_app in *. pose proof (sg_seq ts l H' Hty ltac:(lia)). lia.
      * pose proof (sg_seq ts l H' Hty ltac:(lia)). lia.
    + cbn [typed head_ok core andb] in Hty. apply andb_true_iff in Hty as [_ Hty].
      cbn [encode size gap core] in *. unfold encode_vec, size_vec, prefix_gap in *.
      rewrite lenN_app in *. pose proof (sg_elems t l H' Hty ltac:(lia)). lia.
    + gen_case IHt Hty Hlen.
  - intros t. induction t; intros root Hty Hlen; try discriminate Hty.
    + cbn [typed head_ok core andb] in Hty. apply andb_true_iff in Hty as [Hty _].
      cbn [encode size gap core] in *. unfold prefix_gap, encode_hash_map, size_hash_map in *. rewrite lenN_app in *.
      assert (G : Z.of_N (lenN (concat (map (fun kv => encode E false t1 (fst kv) ++ encode E false t2 (snd kv)) l)))
        = (Z.of_N (sumN (map (fun kv => (size E t1 (fst kv) + size E t2 (snd kv))%N) l))
           + sumZ (map (fun kv => gap E false t1 (fst kv) + gap E false t2 (snd kv))%Z l))%Z).
      { assert (Hl : lenN (concat (map (fun kv => encode E false t1 (fst kv) ++ encode E false t2 (snd kv)) l)) < 2 ^ 64) by lia.
        clear Hlen IHt1 IHt2. revert Hty Hl.
        induction H as [|[k v] l [Hk Hv] Hf IH]; intros Hty Hl; [reflexivity|].
        cbn [forallb fst snd] in Hty. apply andb_true_iff in Hty as [Htv Ht]. apply andb_true_iff in Htv as [Htk Htv].
        cbn [map concat fst snd] in *. rewrite !lenN_app in *. rewrite sumN_cons, sumZ_cons.
        pose proof (proj1 Hk t1 false Htk ltac:(lia)). pose proof (proj1 Hv t2 false Htv ltac:(lia)).
        specialize (IH Ht ltac:(lia)). lia. }
      lia.
    + nz_case IHt Hty Hlen.
    + gen_case IHt Hty Hlen.
  - intros t. induction t; intros root Hty Hlen; try discriminate Hty;
      first [reflexivity | nz_case IHt Hty Hlen | gen_case IHt Hty Hlen].
  - destruct IHv as [IHv _]. intros t. induction t; intros root Hty Hlen; try discriminate Hty.
    + cbn [typed head_ok core andb] in Hty. cbn [encode size gap core encode_option size_option] in *.
      rewrite lenN_cons in Hlen |- *. specialize (IHv t false Hty ltac:(lia)). unfold size_option, size_u8. lia.
    + nz_case IHt Hty Hlen.
    + gen_case IHt Hty Hlen.
  - intros t. induction t; intros root Hty Hlen; try discriminate Hty.
    + nz_case IHt Hty Hlen.
    + cbn [typed head_ok core andb] in Hty. cbn [encode size gap core] in *.
      destruct (nth_error E i) as [[fs|vars]|] eqn:Ei; try discriminate.
      apply sg_body; [apply inst_ok; eapply env_struct; [exact HE|exact Ei]|exact H|exact Hty|exact Hlen].
    + gen_case IHt Hty Hlen.
  - intros t. induction t; intros root Hty Hlen; try discriminate Hty.
    + nz_case IHt Hty Hlen.
    + cbn [typed head_ok core andb] in Hty. cbn [encode size gap core] in *.
      destruct (nth_error E i0) as [[fs|vars]|] eqn:Ei; try discriminate.
      destruct (nth_error vars i) as [var|] eqn:Ev; [|discriminate].
      destruct (env_enum E HE _ _ Ei) as [Hnd Hall].
      destruct (Hall var (nth_error_In _ _ Ev)) as [Hid Hfs].
      rewrite lenN_app in *.
      pose proof (sg_body _ vs (inst_ok args _ Hfs) H Hty ltac:(lia)) as G.
      assert (Hvid : lenN (encode_variant_id (v_id var)) = size_variant_id (v_id var))
        by (apply (uint_len W32); exact Hid).
      rewrite Hvid. lia.
    + gen_case IHt Hty Hlen.
Qed.

(** C13: the exact relation. *)
Lemma size_gap root t v : typed E t v = true -> lenN (encode E root t v) < 2 ^ 64 ->
  Z.of_N (lenN (encode E root t v)) = (Z.of_N (size E t v) + gap E root t v)%Z.
Proof. intros. apply (proj1 (SG_all v)); assumption. Qed.

(** * Flat types *)
Variable D : list nat.
Hypothesis HD : flat_defs E D = true.

Lemma payload_subst args t : payload_ty (subst args t) = subst args (payload_ty t).
Proof. destruct t; try reflexivity. cbn [subst payload_ty]. destruct (nth_error args i); reflexivity. Qed.

Lemma is_tuple_subst args t : is_tuple (subst args t) = is_tuple t.
Proof. destruct t; try reflexivity. cbn [subst]. destruct (nth_error args i); reflexivity. Qed.

Lemma one_byte_subst args t : one_byte t = true -> one_byte (subst args t) = true.
Proof. destruct t; try discriminate; try (intros; reflexivity). destruct t; try discriminate; intros; reflexivity. Qed.

Lemma flat_subst args t : forallb (flat_type D) args = true -> flat_type D t = true ->
  flat_type D (subst args t) = true.
Proof.
  intros Ha. apply (all_ty_subst (node_flat D) (node_flat D)).
  - apply Forall_forall. intros a Hin. cbn [all_ty node_flat andb]. rewrite forallb_forall in Ha. apply (Ha a Hin).
  - intros u Hu. destruct u; cbn [subst node_flat] in *; try reflexivity; try discriminate;
      try (apply one_byte_subst; exact Hu); try exact Hu. right. reflexivity.
Qed.

Lemma flat_ext i args d : nth_error E i = Some d -> flat_type D (TExt i args) = true ->
  forall t, In t (def_types d) ->
  flat_type D (subst args t) = true /\ is_tuple (payload_ty (subst args t)) = false.
Proof.
  intros Hi Hf t Ht. unfold flat_type in Hf. cbn [all_ty node_flat] in Hf. apply andb_true_iff in Hf as [Hin Ha].
  apply existsb_exists in Hin as (j & Hj & Ej). apply Nat.eqb_eq in Ej. subst j.
  unfold flat_defs in HD. rewrite forallb_forall in HD. specialize (HD i Hj). rewrite Hi in HD.
  rewrite forallb_forall in HD. specialize (HD t Ht). apply andb_true_iff in HD as [H1 H2]. split.
  - apply flat_subst; [exact Ha|exact H1].
  - rewrite payload_subst, is_tuple_subst. apply negb_true_iff. exact H2.
Qed.

Lemma one_byte_size t v : one_byte t = true -> typed E t v = true -> size E t v = 1 /\ gap E false t v = 0%Z.
Proof.
  intros Ho Ht. destruct t; try discriminate; try (destruct v; try discriminate Ht; split; reflexivity).
  destruct t; try discriminate; apply typed_nz in Ht as (_ & _ & Ht);
    destruct v; try discriminate Ht; split; reflexivity.
Qed.

Lemma one_byte_elems t l : one_byte t = true -> forallb (typed E t) l = true ->
  sumN (map (size E t) l) = lenN l /\ sumZ (map (gap E false t) l) = 0%Z.
Proof.
  intros Ho. induction l as [|v l IH]; intros Ht; [split; reflexivity|].
  cbn [forallb] in Ht. apply andb_true_iff in Ht as [Hv Ht]. destruct (IH Ht) as [I1 I2].
  destruct (one_byte_size t v Ho Hv) as [S1 S2].
  cbn [map]. rewrite sumN_cons, sumZ_cons, lenN_cons, I1, I2, S1, S2. split; reflexivity.
Qed.

Definition F0 (v : val) : Prop := forall t root, typed E t v = true -> flat_type D t = true ->
  lenN (encode E root t v) < 2 ^ 64 ->
  root && is_tuple t = false -> gap E root t v = 0%Z.
Definition F02 (v : val) : Prop := F0 v /\ forall x, v = VSome x -> F0 x.

Lemma f0_seq ts : forall l, Forall F0 l -> all2 (typed E) ts l = true -> forallb (flat_type D) ts = true ->
  lenN (encode_seq (encode E) ts l) < 2 ^ 64 -> gap_seq (gap E) ts l = 0%Z.
Proof.
  induction ts as [|t ts IH]; intros [|v l] Hf Ht Hfl Hlen; cbn [all2] in Ht; try discriminate; [reflexivity|].
  inversion Hf as [|? ? Hv Hl]; subst. apply andb_true_iff in Ht as [Htv Ht].
  cbn [forallb] in Hfl. apply andb_true_iff in Hfl as [Hfv Hfl].
  cbn [encode_seq gap_seq] in *. rewrite lenN_app in Hlen.
  rewrite (Hv t false Htv Hfv ltac:(lia) eq_refl), (IH l Hl Ht Hfl ltac:(lia)). reflexivity.
Qed.

Lemma f0_fields fs : forall vs, Forall F02 vs -> all2 (typed E) (map f_ty fs) vs = true ->
  (forall f, In f fs -> flat_type D (f_ty f) = true /\ is_tuple (payload_ty (f_ty f)) = false) ->
  lenN (encode_fields (encode E) fs vs) < 2 ^ 64 -> gap_fields (gap E) fs vs = 0%Z.
Proof.
  induction fs as [|f fs IH]; intros [|v vs] Hf Ht Hfl Hlen; cbn [map all2] in Ht; try discriminate; [reflexivity|].
  inversion Hf as [|? ? [Hv Hvs] Hl]; subst. apply andb_true_iff in Ht as [Htv Ht].
  destruct (Hfl f (or_introl eq_refl)) as [Hff Hft].
  rewrite encode_fields_cons, lenN_app in Hlen. cbn [gap_fields].
  rewrite (IH vs Hl Ht (fun g Hg => Hfl g (or_intror Hg)) ltac:(lia)).
  unfold encode_one, encode_field, payload_ty in *.
  assert (G : forall t x e, F0 x -> typed E t x = true -> flat_type D t = true -> is_tuple t = false ->
    lenN (encode_id e ++ encode E true t x) < 2 ^ 64 -> gap E true t x = 0%Z).
  { intros t x e Hx H1 H2 H3 H4. rewrite lenN_app in H4. apply Hx; [exact H1|exact H2|lia|]. rewrite H3. reflexivity. }
  destruct (f_ty f) eqn:Ef; try (rewrite (G _ v _ Hv Htv Hff Hft ltac:(apply N.le_lt_trans with (2 := Hlen); apply N.le_add_r)); reflexivity).
  destruct v; try discriminate Htv; [reflexivity|]. cbn [encode_field_option] in Hlen.
  unfold flat_type in Hff. cbn [all_ty node_flat andb] in Hff.
  rewrite (G t v _ (Hvs v eq_refl) Htv Hff Hft ltac:(apply N.le_lt_trans with (2 := Hlen); apply N.le_add_r)). reflexivity.
Qed.

Lemma f0_body fs args d vs : fields_ok fs = true -> Forall F02 vs ->
  all2 (typed E) (map f_ty (fs_list (inst args fs))) vs = true ->
  (forall t, In t (map f_ty (fs_list fs)) -> In t (def_types d)) ->
  (forall t, In t (def_types d) -> flat_type D (subst args t) = true /\ is_tuple (payload_ty (subst args t)) = false) ->
  lenN (encode_body (encode E) (inst args fs) vs) < 2 ^ 64 -> gap_fields (gap E) (fs_list (inst args fs)) vs = 0%Z.
Proof.
  intros Hok Hf Ht Hd Hfl Hlen. destruct (fields_ok_ids _ (inst_ok args _ Hok)) as (_ & _ & Hunit).
  assert (Hfs : forall f, In f (fs_list (inst args fs)) -> flat_type D (f_ty f) = true /\ is_tuple (payload_ty (f_ty f)) = false).
  { intros f Hin. unfold inst in Hin. cbn [fs_list] in Hin. apply in_map_iff in Hin as (g & <- & Hg).
    cbn [subst_field f_ty]. apply Hfl. apply Hd. apply in_map. exact Hg. }
  unfold encode_body in Hlen. destruct (fs_kind (inst args fs)) eqn:Ek.
  1, 2: rewrite lenN_app in Hlen; apply f0_fields; [exact Hf|exact Ht|exact Hfs|lia].
  rewrite (Hunit eq_refl) in *. destruct vs; [reflexivity|discriminate].
Qed.

Lemma flat_nz t : flat_type D (TNonZero t) = true -> flat_type D t = true.
Proof. unfold flat_type. cbn [all_ty node_flat andb]. auto. Qed.
Lemma flat_gen t : flat_type D (TGen t) = true -> flat_type D t = true.
Proof. unfold flat_type. cbn [all_ty node_flat andb]. auto. Qed.
Lemma prefix_gap_same n : n < 2 ^ 64 -> prefix_gap n n = 0%Z.
Proof. intros H. unfold prefix_gap, encode_u64. rewrite uint_len by exact H. lia. Qed.

Lemma gap_flat_all v : F02 v.
Proof.
  assert (nzc : forall t v, (forall root, typed E t v = true -> flat_type D t = true ->
     lenN (encode E root t v) < 2 ^ 64 -> root && is_tuple t = false -> gap E root t v = 0%Z) ->
     forall root, typed E (TNonZero t) v = true -> flat_type D (TNonZero t) = true ->
     lenN (encode E root (TNonZero t) v) < 2 ^ 64 -> gap E root (TNonZero t) v = 0%Z).
  { intros t w IH root Hty Hfl Hlen. apply typed_nz in Hty as (Hin & _ & Hty).
    rewrite encode_core_nz in Hlen by exact Hin. rewrite gap_core_nz by exact Hin. apply flat_nz in Hfl.
    apply IH; try assumption. destruct t; try discriminate Hin; apply andb_false_r. }
  assert (gc : forall t v, (forall root, typed E t v = true -> flat_type D t = true ->
     lenN (encode E root t v) < 2 ^ 64 -> root && is_tuple t = false -> gap E root t v = 0%Z) ->
     forall root, typed E (TGen t) v = true -> flat_type D (TGen t) = true ->
     lenN (encode E root (TGen t) v) < 2 ^ 64 -> gap E root (TGen t) v = 0%Z).
  { intros t w IH root Hty Hfl Hlen. rewrite encode_gen in Hlen. rewrite gap_gen. rewrite typed_gen in Hty.
    apply flat_gen in Hfl. apply IH; try assumption. reflexivity. }
  induction v using val_ind'; (split; [|try discriminate]); try (intros x X; injection X as <-; exact (proj1 IHv)).
  1, 2, 3, 4: intros t; induction t; intros root Hty Hfl Hlen Hroot; try discriminate Hty; try reflexivity;
    first [apply nzc; assumption | apply gc; assumption].
  - assert (H' : Forall F0 l) by (eapply Forall_impl; [|exact H]; intros a Ha; exact (proj1 Ha)).
    assert (Hcol : forall t, one_byte t = true -> forallb (typed E t) l = true ->
      lenN (encode_vec (size E t) (encode E false t) l) < 2 ^ 64 ->
      (prefix_gap (sumN (map (size E t) l)) (lenN l) + sumZ (map (gap E false t) l))%Z = 0%Z).
    { intros t Ho Ht Hlen. destruct (one_byte_elems t l Ho Ht) as [S1 S2]. unfold encode_vec in Hlen.
      rewrite lenN_app in Hlen.
      assert (HSG : Forall SG l) by (apply Forall_forall; intros x _; apply (proj1 (SG_all x))).
      pose proof (sg_elems t l HSG Ht ltac:(lia)) as G. rewrite S1, S2 in *.
      rewrite prefix_gap_same; [reflexivity|lia]. }
    intros t; induction t; intros root Hty Hfl Hlen Hroot; try discriminate Hty.
    + unfold flat_type in Hfl. cbn [all_ty node_flat] in Hfl. apply andb_true_iff in Hfl as [Ho _].
      cbn [typed head_ok core andb] in Hty. cbn [gap core encode] in *. apply Hcol; assumption.
    + unfold flat_type in Hfl. cbn [all_ty node_flat] in Hfl. apply andb_true_iff in Hfl as [Ho _].
      cbn [typed head_ok core andb] in Hty. apply andb_true_iff in Hty as [Hty _].
      cbn [gap core encode] in *. apply Hcol; assumption.
    + apply nzc; assumption.
    + unfold flat_type in Hfl. cbn [all_ty node_flat andb] in Hfl. cbn [typed head_ok core andb] in Hty.
      cbn [gap core encode] in *. rewrite Hroot in *. rewrite (f0_seq ts l H' Hty Hfl Hlen). reflexivity.
    + unfold flat_type in Hfl. cbn [all_ty node_flat] in Hfl. apply andb_true_iff in Hfl as [Ho _].
      cbn [typed head_ok core andb] in Hty. apply andb_true_iff in Hty as [_ Hty].
      cbn [gap core encode] in *. apply Hcol; assumption.
    + apply gc; assumption.
  - intros t; induction t; intros root Hty Hfl Hlen Hroot; try discriminate Hty; try discriminate Hfl;
      first [apply nzc; assumption | apply gc; assumption].
  - intros t; induction t; intros root Hty Hfl Hlen Hroot; try discriminate Hty; try reflexivity;
      first [apply nzc; assumption | apply gc; assumption].
  - intros t; induction t; intros root Hty Hfl Hlen Hroot; try discriminate Hty.
    + unfold flat_type in Hfl. cbn [all_ty node_flat andb] in Hfl. cbn [typed head_ok core andb] in Hty.
      cbn [gap core encode encode_option] in *. rewrite lenN_cons in Hlen.
      apply (proj1 IHv); [exact Hty|exact Hfl|lia|reflexivity].
    + apply nzc; assumption.
    + apply gc; assumption.
  - intros t; induction t; intros root Hty Hfl Hlen Hroot; try discriminate Hty.
    + apply nzc; assumption.
    + cbn [typed head_ok core andb] in Hty. cbn [gap core encode] in *.
      destruct (nth_error E i) as [[fs|vars]|] eqn:Ei; try discriminate.
      eapply f0_body; [eapply env_struct; [exact HE|exact Ei]|exact H|exact Hty| |eapply flat_ext; [exact Ei|exact Hfl]|exact Hlen].
      cbn [def_types]. auto.
    + apply gc; assumption.
  - intros t; induction t; intros root Hty Hfl Hlen Hroot; try discriminate Hty.
    + apply nzc; assumption.
    + cbn [typed head_ok core andb] in Hty. cbn [gap core encode] in *.
      destruct (nth_error E i0) as [[fs|vars]|] eqn:Ei; try discriminate.
      destruct (nth_error vars i) as [var|] eqn:Ev; [|discriminate].
      destruct (env_enum E HE _ _ Ei) as [Hnd Hall].
      destruct (Hall var (nth_error_In _ _ Ev)) as [Hid Hfs]. rewrite lenN_app in Hlen.
      eapply f0_body; [exact Hfs|exact H|exact Hty| |eapply flat_ext; [exact Ei|exact Hfl]|lia].
      cbn [def_types]. intros t Ht. apply in_concat. eexists.
      split; [apply in_map; eapply nth_error_In; exact Ev|exact Ht].
    + apply gc; assumption.
Qed.

(** C13 for flat types. *)
Lemma size_flat root t v : typed E t v = true -> flat_type D t = true ->
  root && is_tuple t = false -> lenN (encode E root t v) < 2 ^ 64 ->
  lenN (encode E root t v) = size E t v.
Proof.
  intros Ht Hf Hr Hlen. pose proof (size_gap root t v Ht Hlen) as G.
  rewrite (proj1 (gap_flat_all v) t root Ht Hf Hlen Hr) in G. lia.
Qed.
End Main.
