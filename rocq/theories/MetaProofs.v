(** Lemmas about the reported wire sizes (C42) and suggested ids (C41). *)
From Verif Require Import Base Varint VarintSpec VarintProofs Wire WireProofs Codec CodecSpec CodecProofs SchemaSpec Safety Stable Size
  Syntax Compiler Lower LowerProofs Meta MetaSpec.
Local Open Scope N_scope.

(** * Ids *)
Lemma max_id_ge ids i : In i ids -> i <= max_id ids.
Proof. induction ids as [|x ids IH]; intros []; cbn [max_id fold_right]; [lia|]. specialize (IH H). unfold max_id in IH. lia. Qed.
Lemma max_id_in ids : max_id ids = 0 \/ In (max_id ids) ids.
Proof.
  induction ids as [|x ids IH]; [left; reflexivity|]. cbn [max_id fold_right]. fold (max_id ids).
  destruct (N.max_spec x (max_id ids)) as [[_ ->]|[_ ->]]; [|right; left; reflexivity].
  destruct IH as [H|H]; [left; exact H|right; right; exact H].
Qed.

(** * Sizes *)
Lemma size_uint_ge1 w v : 1 <= size_uint w v.
Proof. unfold size_uint, size_var, size_lz. destruct (N.ltb_spec (div_ceil (bits w - leading_zeros w v) 7) 1); lia. Qed.
Lemma size_uint_le w v : size_uint w v <= N.of_nat (max_size w).
Proof.
  unfold size_uint, size_var, size_lz, max_size, div_ceil.
  rewrite N2Nat.id. destruct (N.ltb_spec ((bits w - leading_zeros w v + 7 - 1) / 7) 1).
  - destruct w; cbn; lia.
  - apply N.div_le_mono; lia.
Qed.
Lemma meta_varint_size_ok n : n < 2 ^ 32 -> meta_varint_size n = size_uint W64 n.
Proof.
  intros H. unfold meta_varint_size, size_uint, size_var, size_lz, leading_zeros. cbn [bits].
  pose proof (size_le_bits W32 n H) as Hs. cbn [bits] in Hs.
  replace (32 - (32 - N.size n)) with (N.size n) by lia. replace (64 - (64 - N.size n)) with (N.size n) by lia.
  destruct (N.ltb_spec (div_ceil (N.size n) 7) 1); lia.
Qed.

Lemma sum_lower {A} (f : A -> N) (l : list A) a : (forall x, In x l -> a <= f x) -> a * lenN l <= sumN (map f l).
Proof.
  unfold lenN. induction l as [|x l IH]; intros H; cbn [map length].
  - change (sumN []) with 0. lia.
  - rewrite sumN_cons, Nat2N.inj_succ. pose proof (H x (or_introl eq_refl)).
    assert (a * N.of_nat (length l) <= sumN (map f l)) by (apply IH; intros y Hy; apply H; right; exact Hy). nia.
Qed.
Lemma sum_upper {A} (f : A -> N) (l : list A) b : (forall x, In x l -> f x <= b) -> sumN (map f l) <= b * lenN l.
Proof.
  unfold lenN. induction l as [|x l IH]; intros H; cbn [map length].
  - change (sumN []) with 0. lia.
  - rewrite sumN_cons, Nat2N.inj_succ. pose proof (H x (or_introl eq_refl)).
    assert (sumN (map f l) <= b * N.of_nat (length l)) by (apply IH; intros y Hy; apply H; right; exact Hy). nia.
Qed.

Section WithEnv.
Variable E : env.
Variable look : list str -> str -> option nat.
Variable params : list str.
Variable args : list ty.

Lemma typed_array t n v : typed E (TArray t n) v = true -> exists l, v = VList l /\ length l = n /\ forall x, In x l -> typed E t x = true.
Proof.
  destruct v; cbn; try discriminate. intros H. apply andb_true_iff in H as [H1 H2]. apply Nat.eqb_eq in H1.
  exists l. split; [reflexivity|]. split; [exact H1|]. apply forallb_forall. exact H2.
Qed.
Lemma typed_tuple ts v : typed E (TTuple ts) v = true -> exists l, v = VList l /\ all2 (typed E) ts l = true.
Proof. destruct v; cbn; try discriminate. intros H. exists l. auto. Qed.

Lemma wire_prim_bounds p v : typed E (lower_prim p) v = true ->
  w_min (wire_prim p) <= size E (lower_prim p) v /\ below_max (Some (wire_prim p)) (size E (lower_prim p) v).
Proof.
  pose proof (size_uint_ge1) as H1. pose proof size_uint_le as H2.
  assert (H3 : forall w z, 1 <= size_sint w z) by (intros w z; apply (size_uint_ge1 w (zigzag_encode w z))).
  assert (H4 : forall w z, size_sint w z <= N.of_nat (max_size w)) by (intros w z; apply (size_uint_le w (zigzag_encode w z))).
  assert (H5 : forall l, 1 <= size_bytes l) by (intros l; unfold size_bytes; pose proof (H1 W64 (lenN l)); lia).
  destruct p, v; cbn [lower_prim typed core head_ok]; intros Ht; try discriminate Ht; cbn [wire_prim fixed range at_least w_min w_max below_max size core];
    (split; [first [apply H1|apply H3|apply H5|reflexivity|cbv; discriminate]|
             first [exact I|apply (H2 W16)|apply (H2 W32)|apply (H2 W64)|apply (H2 W128)
                   |apply (H4 W16)|apply (H4 W32)|apply (H4 W64)|apply (H4 W128)|reflexivity|cbv; discriminate]]).
Qed.

Lemma lower_types_forall2 ts ts' : all_opt (lower_type look params) ts = Some ts' ->
  Forall2 (fun t t' => lower_type look params t = Some t') ts ts'.
Proof. apply all_opt_forall2. Qed.

(** [size()] lies within the reported bounds. *)
Lemma size_bounds t : forall t' v, u32_arrays t -> lower_type look params t = Some t' -> typed E (subst args t') v = true ->
  above (wire_size t) (size E (subst args t') v) /\ below_max (wire_size t) (size E (subst args t') v).
Proof.
  induction t as [p|t IH|k w IHk IHw|t IH|t IH|t IH|ts IH|t n IH|path name ts IH] using sty_ind2;
    intros t' v Hu Hl Ht; cbn [wire_size above below_max]; cbn [lower_type] in Hl.
  - injection Hl as <-. assert (Hs : subst args (lower_prim p) = lower_prim p) by (destruct p; reflexivity). rewrite Hs in *.
    apply (wire_prim_bounds p v Ht).
  - destruct (lower_type look params t) as [u|]; [|discriminate]. injection Hl as <-. cbn [subst] in *.
    split; [|exact I]. destruct v; try discriminate Ht. cbn [size core at_least w_min]. unfold size_vec.
    pose proof (size_uint_ge1 W64 (lenN l)). lia.
  - destruct (lower_type look params k) as [u|]; [|discriminate]. destruct (lower_type look params w) as [u'|]; [|discriminate].
    injection Hl as <-. cbn [subst] in *. split; [|exact I]. destruct v; try discriminate Ht. cbn [size core at_least w_min]. unfold size_hash_map.
    pose proof (size_uint_ge1 W64 (lenN l)). lia.
  - destruct (lower_type look params t) as [u|]; [|discriminate]. injection Hl as <-. cbn [subst] in *.
    split; [|exact I]. destruct v; try discriminate Ht. cbn [size core at_least w_min]. unfold size_vec.
    pose proof (size_uint_ge1 W64 (lenN l)). lia.
  - destruct (lower_type look params t) as [u|]; [|discriminate]. injection Hl as <-. cbn [subst u32_arrays] in *.
    split; [cbn; lia|]. cbn [w_max]. destruct (obind (wire_size t) w_max) as [m|] eqn:Em; cbn [option_map]; [|exact I].
    unfold obind in Em. destruct v; try discriminate Ht; cbn [size core]; unfold size_option, size_u8; [lia|].
    assert (Hx : typed E (subst args u) v = true) by exact Ht.
    destruct (IH u v Hu eq_refl Hx) as [_ H]. unfold below_max in H. destruct (wire_size t) as [s|]; [|discriminate]. rewrite Em in H. lia.
  - destruct (lower_type look params t) as [u|]; [|discriminate]. injection Hl as <-. cbn [subst u32_arrays] in *.
    split; [cbn; lia|]. cbn [w_max]. destruct (obind (wire_size t) w_max) as [m|] eqn:Em; cbn [option_map]; [|exact I].
    unfold obind in Em. apply typed_nz in Ht as (_ & _ & Ht). rewrite size_core_nz.
    destruct (IH u v Hu eq_refl Ht) as [_ H]. unfold below_max in H. destruct (wire_size t) as [s|]; [|discriminate]. rewrite Em in H. lia.
  - destruct (all_opt (lower_type look params) ts) as [us|] eqn:El; [|discriminate]. injection Hl as <-. cbn [subst] in *.
    apply lower_types_forall2 in El. apply typed_tuple in Ht as (l & -> & Ht). cbn [size core].
    assert (G : sumN (flat_map (fun o => match o with Some s => [w_min s] | None => [] end) (map wire_size ts))
                  <= size_seq (size E) (map (subst args) us) l
               /\ match osum (map (fun o => obind o w_max) (map wire_size ts)) with
                  | Some m => size_seq (size E) (map (subst args) us) l <= m | None => True end).
    { cbn [u32_arrays] in Hu. clear -IH Hu El Ht. revert l Ht IH Hu. induction El as [|t u ts us Htu El IHl]; intros l Ht IH Hu.
      - destruct l; cbn in *; [split; lia|discriminate].
      - destruct l as [|v l]; cbn [map all2] in Ht; [discriminate|]. apply andb_true_iff in Ht as [Hv Ht].
        cbn [fold_right] in Hu. destruct Hu as [Hut Hu].
        destruct (IH t (or_introl eq_refl) u v Hut Htu Hv) as [Ha Hb].
        destruct (IHl l Ht ltac:(intros; apply IH; [right; assumption|assumption..]) Hu) as [H1 H2].
        cbn [map flat_map size_seq]. split.
        + destruct (wire_size t) as [s|]; cbn [app above] in *; [rewrite sumN_cons|]; lia.
        + cbn [osum fold_right]. fold (osum (map (fun o => obind o w_max) (map wire_size ts))).
          unfold below_max in Hb. destruct (wire_size t) as [s|]; cbn [obind]; [|exact I]. destruct (w_max s) as [m|]; cbn [obind]; [|exact I].
          destruct (osum (map (fun o => obind o w_max) (map wire_size ts))) as [m'|]; cbn [obind]; [lia|exact I]. }
    exact G.
  - destruct (lower_type look params t) as [u|]; [|discriminate]. injection Hl as <-. cbn [subst u32_arrays] in *. destruct Hu as [Hn Hu].
    apply typed_array in Ht as (l & -> & Hlen & Ht). cbn [size core]. unfold size_vec.
    assert (Hc : lenN l = n) by (unfold lenN; rewrite Hlen; apply N2Nat.id). rewrite Hc.
    unfold wire_array. rewrite (meta_varint_size_ok n Hn). cbn [w_min w_max]. split.
    + destruct (wire_size t) as [s|] eqn:Es; [|lia].
      assert (w_min s * lenN l <= sumN (map (size E (subst args u)) l)).
      { apply sum_lower. intros x Hx. exact (proj1 (IH u x Hu eq_refl (Ht x Hx))). }
      lia.
    + destruct (wire_size t) as [s|] eqn:Es; cbn [obind option_map]; [|exact I]. destruct (w_max s) as [m|] eqn:Em; cbn [option_map]; [|exact I].
      assert (sumN (map (size E (subst args u)) l) <= m * lenN l).
      { apply sum_upper. intros x Hx. pose proof (proj2 (IH u x Hu eq_refl (Ht x Hx))) as H. unfold below_max in H. rewrite Em in H. exact H. }
      lia.
  - split; exact I.
Qed.

(** * Lower bounds for the bytes written *)
Lemma occupies_size t : forall v, occupies E t = true -> typed E t v = true -> 1 <= size E t v.
Proof.
  induction t as [t Hleaf|t IH|k w IHk IHw|t IH|t IH|t IH|ts IH|t n IH|i as_ IH|t IH] using ty_ind'; intros v Ho Ht.
  - assert (H3 : forall w z, 1 <= size_sint w z) by (intros w z; apply (size_uint_ge1 w (zigzag_encode w z))).
    assert (H5 : forall l, 1 <= size_bytes l) by (intros l; unfold size_bytes; pose proof (size_uint_ge1 W64 (lenN l)); lia).
    destruct t; try discriminate Hleaf; destruct v; try discriminate Ht; cbn [size core];
      first [apply size_uint_ge1|apply H3|apply H5|cbv; discriminate].
  - destruct v; try discriminate Ht. cbn [size core]. unfold size_vec. pose proof (size_uint_ge1 W64 (lenN l)). lia.
  - destruct v; try discriminate Ht. cbn [size core]. unfold size_hash_map. pose proof (size_uint_ge1 W64 (lenN l)). lia.
  - destruct v; try discriminate Ht. cbn [size core]. unfold size_vec. pose proof (size_uint_ge1 W64 (lenN l)). lia.
  - destruct v; try discriminate Ht; cbn [size core]; unfold size_option, size_u8; lia.
  - rewrite size_core_nz. apply typed_nz in Ht as (_ & _ & Ht). apply IH; assumption.
  - apply typed_tuple in Ht as (l & -> & Ht). cbn [size core]. cbn [occupies] in Ho. revert l Ht.
    induction IH as [|t ts Hx IHs IHl]; intros l Ht; [discriminate Ho|]. destruct l as [|v l]; cbn [all2] in Ht; [discriminate|].
    apply andb_true_iff in Ht as [Hv Ht]. cbn [size_seq existsb] in *. apply orb_true_iff in Ho as [Ho|Ho].
    + specialize (Hx v Ho Hv). lia.
    + specialize (IHl Ho l Ht). lia.
  - destruct v; try discriminate Ht. cbn [size core]. unfold size_vec. pose proof (size_uint_ge1 W64 (lenN l)). lia.
  - cbn [occupies] in Ho. destruct v; try discriminate Ht; cbn [size core typed head_ok andb] in *.
    + destruct (nth_error E i) as [[fs|vs']|]; try discriminate. unfold size_body, inst, END_MARKER_SIZE. cbn [fs_kind].
      destruct (fs_kind fs); [lia|lia|discriminate].
    + destruct (nth_error E i) as [[fs|vars]|]; try discriminate. destruct (nth_error vars idx) as [var|]; [|discriminate].
      unfold size_variant_id. pose proof (size_uint_ge1 W32 (v_id var)). lia.
  - rewrite size_gen. rewrite typed_gen in Ht. apply IH; assumption.
Qed.

Lemma encode_u64_len n : n < 2 ^ 64 -> lenN (encode_u64 n) = size_uint W64 n.
Proof. intros H. apply (uint_len W64 n H). Qed.
Lemma concat_lower {A} (f : A -> list N) (l : list A) a : (forall x, In x l -> a <= lenN (f x)) -> a * lenN l <= lenN (concat (map f l)).
Proof.
  intros H. induction l as [|x l IH]; cbn [map concat]; [unfold lenN; cbn; lia|]. rewrite lenN_app.
  pose proof (H x (or_introl eq_refl)). assert (a * lenN l <= lenN (concat (map f l))) by (apply IH; intros y Hy; apply H; right; exact Hy).
  unfold lenN at 1. cbn [length]. rewrite Nat2N.inj_succ. fold (lenN l). nia.
Qed.
Lemma sum_in {A} (f : A -> N) (l : list A) x : In x l -> f x <= sumN (map f l).
Proof. induction l as [|y l IH]; intros []; cbn [map]; rewrite sumN_cons; [subst; lia|]. specialize (IH H). lia. Qed.

Lemma bytes_lower t : forall t' v root, u32_arrays t -> lower_type look params t = Some t' -> typed E (subst args t') v = true ->
  all_ty (node_arrays E) (subst args t') = true -> size E (subst args t') v < 2 ^ 64 ->
  above (wire_size t) (lenN (encode E root (subst args t') v)).
Proof.
  assert (Hb : forall n (l : list N), n < 2 ^ 64 -> 1 <= lenN (encode_u64 n ++ l)).
  { intros n l Hn. rewrite lenN_app, encode_u64_len by exact Hn. pose proof (size_uint_ge1 W64 n). lia. }
  induction t as [p|t IH|k w IHk IHw|t IH|t IH|t IH|ts IH|t n IH|path name ts IH] using sty_ind2;
    intros t' v root Hu Hl Ht Ha Hs; cbn [wire_size above]; cbn [lower_type] in Hl.
  - injection Hl as <-. assert (Hsub : subst args (lower_prim p) = lower_prim p) by (destruct p; reflexivity). rewrite Hsub in *.
    assert (H1 : forall w z, in_unsigned w z = true -> 1 <= lenN (encode_uint w (Z.to_N z))).
    { intros w z Hz. unfold in_unsigned in Hz. rewrite uint_len; [apply size_uint_ge1|]. unfold modulus.
      apply andb_true_iff in Hz as [Hz1 Hz2]. apply Z.leb_le in Hz1. apply Z.ltb_lt in Hz2.
      apply N2Z.inj_lt. rewrite Z2N.id by exact Hz1. rewrite N2Z.inj_pow. exact Hz2. }
    assert (H2 : forall w z, in_signed w z = true -> 1 <= lenN (encode_sint w z)).
    { intros w z Hz. unfold encode_sint. fold (encode_uint w (zigzag_encode w z)). rewrite uint_len; [apply size_uint_ge1|].
      apply zigzag_encode_range. unfold in_signed in Hz. unfold signed_range. lia. }
    destruct p, v; cbn [lower_prim typed core head_ok] in Ht; try discriminate Ht; cbn [wire_prim fixed range at_least w_min lower_prim encode core];
      cbn [size core lower_prim] in Hs;
      first [apply H1; exact Ht|apply H2; exact Ht|cbv; discriminate|idtac];
      try (unfold encode_bytes; apply Hb; unfold size_bytes in Hs; lia).
  - destruct (lower_type look params t) as [u|]; [|discriminate]. injection Hl as <-. cbn [subst] in *.
    destruct v; try discriminate Ht. cbn [size encode core at_least w_min] in *. unfold size_vec in Hs. unfold encode_vec. apply Hb. lia.
  - destruct (lower_type look params k) as [u|]; [|discriminate]. destruct (lower_type look params w) as [u'|]; [|discriminate].
    injection Hl as <-. cbn [subst] in *. destruct v; try discriminate Ht. cbn [size encode core at_least w_min] in *. unfold size_hash_map, encode_hash_map in *. apply Hb. lia.
  - destruct (lower_type look params t) as [u|]; [|discriminate]. injection Hl as <-. cbn [subst] in *.
    destruct v; try discriminate Ht. cbn [size encode core at_least w_min] in *. unfold size_vec in Hs. unfold encode_vec. apply Hb. lia.
  - cbn. lia.
  - cbn. lia.
  - destruct (all_opt (lower_type look params) ts) as [us|] eqn:El; [|discriminate]. injection Hl as <-. cbn [subst] in *.
    apply lower_types_forall2 in El. apply typed_tuple in Ht as (l & -> & Ht).
    assert (G : sumN (flat_map (fun o => match o with Some s => [w_min s] | None => [] end) (map wire_size ts))
                  <= lenN (encode_seq (encode E) (map (subst args) us) l)).
    { cbn [size core] in Hs. cbn [all_ty node_arrays andb] in Ha. cbn [u32_arrays] in Hu. clear root.
      revert l Ht Hs IH Hu Ha. induction El as [|t u ts us Htu El IHl]; intros l Ht Hs IH Hu Ha.
      - cbn. lia.
      - destruct l as [|v l]; cbn [map all2] in Ht; [discriminate|]. apply andb_true_iff in Ht as [Hv Ht].
        cbn [fold_right] in Hu. destruct Hu as [Hut Hu]. cbn [map forallb] in Ha. apply andb_true_iff in Ha as [Ha1 Ha].
        cbn [map flat_map size_seq encode_seq] in *. rewrite lenN_app.
        pose proof (IH t (or_introl eq_refl) u v false Hut Htu Hv Ha1 ltac:(lia)) as Hx.
        specialize (IHl l Ht ltac:(lia) ltac:(intros; apply IH; [right; assumption|assumption..]) Hu Ha).
        destruct (wire_size t) as [s|]; cbn [app above] in *; [rewrite sumN_cons|]; lia. }
    cbn [encode core wire_tuple w_min]. destruct (root && is_tuple (TTuple (map (subst args) us))); [|exact G].
    unfold encode_tuple. rewrite lenN_app. lia.
  - destruct (lower_type look params t) as [u|]; [|discriminate]. injection Hl as <-. cbn [subst u32_arrays] in *. destruct Hu as [Hn Hu].
    apply typed_array in Ht as (l & -> & Hlen & Ht). cbn [size encode core] in *. unfold size_vec in Hs.
    assert (Hc : lenN l = n) by (unfold lenN; rewrite Hlen; apply N2Nat.id).
    cbn [all_ty node_arrays] in Ha. apply andb_true_iff in Ha as [Hocc Ha].
    unfold wire_array. rewrite (meta_varint_size_ok n Hn). cbn [w_min].
    unfold encode_vec. rewrite lenN_app, encode_u64_len by lia.
    assert (H1 : size_uint W64 n <= size_uint W64 (sumN (map (size E (subst args u)) l))).
    { apply size_uint_mono; [|unfold modulus; cbn [bits]; lia].
      pose proof (sum_lower (size E (subst args u)) l 1 (fun x Hx => occupies_size _ x Hocc (Ht x Hx))). lia. }
    assert (H2 : (match wire_size t with Some s => w_min s | None => 0 end) * lenN l <= lenN (concat (map (encode E false (subst args u)) l))).
    { apply concat_lower. intros x Hx. pose proof (sum_in (size E (subst args u)) l x Hx).
      pose proof (IH u x false Hu eq_refl (Ht x Hx) Ha ltac:(lia)) as H'. destruct (wire_size t); cbn [above] in H'; lia. }
    rewrite Hc in H2. lia.
  - exact I.
Qed.
End WithEnv.
