(** The bounds in Codec.v are no bounds: a larger [fuel] or [depth] than the number of bytes that
    are left never changes the outcome. *)
From Verif Require Import Base Varint Wire WireProofs Codec Safety.
Local Open Scope N_scope.

(** The same on short inputs. *)
Definition upto {A} (m : nat) (d d' : dec A) : Prop := forall r, (length r < m)%nat -> d r = d' r.

Lemma dmap_upto {A B} (f : A -> B) m d d' : upto m d d' -> upto m (dmap f d) (dmap f d').
Proof. intros H r Hr. unfold dmap. rewrite H by exact Hr. reflexivity. Qed.
Lemma dloop_upto {T} m (d d' : dec T) : reader_ok d -> upto m d d' -> forall n r, (length r < m)%nat -> dloop d n r = dloop d' n r.
Proof.
  intros Hd H n. induction n as [|n IH]; intros r Hr; destruct r as [|b r]; cbn [dloop]; try reflexivity.
  rewrite <- H by exact Hr. destruct (d (b :: r)) as [[x r']| | |] eqn:Ex; cbn [bind]; try reflexivity.
  rewrite IH; [reflexivity|]. apply Hd in Ex. apply suffix_length in Ex. lia.
Qed.
Lemma decode_elems_upto {T} m (d d' : dec T) : reader_ok d -> upto m d d' -> forall r n, (length r < m)%nat -> decode_elems d r n = decode_elems d' r n.
Proof.
  intros Hd H r n Hr. unfold decode_elems, ensure_size. rewrite (dloop_upto m d d' Hd H); [reflexivity|].
  pose proof (firstn_le_length (N.to_nat n) r). rewrite firstn_length. lia.
Qed.
Lemma after_u64_upto {A} m (k k' : N -> dec A) : (forall n, upto m (k n) (k' n)) ->
  upto m (fun r => do (len, r1) <- decode_u64 r; k len r1) (fun r => do (len, r1) <- decode_u64 r; k' len r1).
Proof.
  intros H r Hr. cbv beta. destruct (decode_u64 r) as [[n r1]| | |] eqn:E; cbn [bind]; try reflexivity. apply H.
  apply (decode_uint_ok W64) in E. apply suffix_length in E. lia.
Qed.
Lemma decode_vec_upto {T} m (d d' : dec T) : reader_ok d -> upto m d d' -> upto m (decode_vec d) (decode_vec d').
Proof.
  intros Hd H. apply (after_u64_upto m (fun len r1 => decode_elems d r1 len) (fun len r1 => decode_elems d' r1 len)).
  intros n r Hr. apply (decode_elems_upto m); assumption.
Qed.
Lemma dpair_upto {K V} m (dk dk' : dec K) (dv dv' : dec V) : reader_ok dk -> upto m dk dk' -> upto m dv dv' -> upto m (dpair dk dv) (dpair dk' dv').
Proof.
  intros Hd Hk Hv r Hr. unfold dpair. rewrite <- Hk by exact Hr. destruct (dk r) as [[k r1]| | |] eqn:E; cbn [bind]; try reflexivity.
  rewrite Hv; [reflexivity|]. apply Hd in E. apply suffix_length in E. lia.
Qed.
Lemma dpair_reader {K V} (dk : dec K) (dv : dec V) : reader_ok dk -> reader_ok dv -> reader_ok (dpair dk dv).
Proof.
  intros Hk Hv r a r' H. unfold dpair in H. apply bind_ok in H as ([k r1] & H1 & H). apply bind_ok in H as ([v r2] & H2 & H). injection H as <- <-.
  eapply suffix_trans; [exact (Hv _ _ _ H2)|exact (Hk _ _ _ H1)].
Qed.
Lemma darr_upto {T} m (d d' : dec T) : reader_ok d -> upto m d d' -> forall n r, (length r < m)%nat -> darr d n r = darr d' n r.
Proof.
  intros Hd H n. induction n as [|n IH]; intros r Hr; destruct r as [|b r]; cbn [darr]; try reflexivity.
  rewrite <- H by exact Hr. destruct (d (b :: r)) as [[x r']| | |] eqn:Ex; cbn [bind]; try reflexivity.
  rewrite IH; [reflexivity|]. apply Hd in Ex. apply suffix_length in Ex. lia.
Qed.
Lemma decode_array_upto {T} m n (d d' : dec T) : reader_ok d -> upto m d d' -> upto m (decode_array n d) (decode_array n d').
Proof.
  intros Hd H. unfold decode_array.
  apply (after_u64_upto m (fun len r1 => ensure_size r1 len (let k := N.to_nat len in do xs <- darr d n (firstn k r1); if (length xs =? n)%nat then Ok (xs, skipn k r1) else Panic))
                          (fun len r1 => ensure_size r1 len (let k := N.to_nat len in do xs <- darr d' n (firstn k r1); if (length xs =? n)%nat then Ok (xs, skipn k r1) else Panic))).
  intros len r Hr. unfold ensure_size. cbv zeta. rewrite (darr_upto m d d' Hd H); [reflexivity|]. rewrite firstn_length. lia.
Qed.
Lemma decode_option_upto {T} m (d d' : dec T) : upto m d d' -> upto m (decode_option d) (decode_option d').
Proof.
  intros H r Hr. unfold decode_option. destruct (decode_u8 r) as [[t r1]| | |] eqn:E; cbn [bind]; try reflexivity. rewrite H; [reflexivity|].
  apply decode_u8_ok in E. apply suffix_length in E. lia.
Qed.
Lemma decode_map_upto {K V} eqb m (dk dk' : dec K) (dv dv' : dec V) : reader_ok dk -> reader_ok dv -> upto m dk dk' -> upto m dv dv' ->
  upto m (decode_hash_map eqb dk dv) (decode_hash_map eqb dk' dv').
Proof.
  intros H1 H2 Hk Hv r Hr. unfold decode_hash_map.
  rewrite (decode_vec_upto m _ _ (dpair_reader _ _ H1 H2) (dpair_upto m _ _ _ _ H1 Hk Hv) r Hr). reflexivity.
Qed.
Lemma decode_set_upto {K} eqb m (d d' : dec K) : reader_ok d -> upto m d d' -> upto m (decode_hash_set eqb d) (decode_hash_set eqb d').
Proof. intros Hd H r Hr. unfold decode_hash_set. rewrite (decode_vec_upto m _ _ Hd H r Hr). reflexivity. Qed.
Lemma decode_nz_vec_upto {T} m (d d' : dec T) : reader_ok d -> upto m d d' -> upto m (decode_non_zero_vec d) (decode_non_zero_vec d').
Proof.
  intros Hd H. apply (after_u64_upto m (fun len r1 => if len =? 0 then Err EZero else do (xs, r2) <- decode_elems d r1 len; nonzero_unwrap xs r2)
                                       (fun len r1 => if len =? 0 then Err EZero else do (xs, r2) <- decode_elems d' r1 len; nonzero_unwrap xs r2)).
  intros n r Hr. cbv beta. rewrite (decode_elems_upto m d d' Hd H r n Hr). reflexivity.
Qed.
Lemma decode_nz_map_upto {K V} eqb m (dk dk' : dec K) (dv dv' : dec V) : reader_ok dk -> reader_ok dv -> upto m dk dk' -> upto m dv dv' ->
  upto m (decode_non_zero_hash_map eqb dk dv) (decode_non_zero_hash_map eqb dk' dv').
Proof.
  intros H1 H2 Hk Hv. apply (after_u64_upto m (fun len r1 => if len =? 0 then Err EZero else do (xs, r2) <- decode_elems (dpair dk dv) r1 len; nonzero_unwrap (map_of eqb xs) r2)
                                       (fun len r1 => if len =? 0 then Err EZero else do (xs, r2) <- decode_elems (dpair dk' dv') r1 len; nonzero_unwrap (map_of eqb xs) r2)).
  intros n r Hr. cbv beta. rewrite (decode_elems_upto m _ _ (dpair_reader _ _ H1 H2) (dpair_upto m _ _ _ _ H1 Hk Hv) r n Hr). reflexivity.
Qed.
Lemma decode_nz_set_upto {K} eqb m (d d' : dec K) : reader_ok d -> upto m d d' -> upto m (decode_non_zero_hash_set eqb d) (decode_non_zero_hash_set eqb d').
Proof.
  intros Hd H. apply (after_u64_upto m (fun len r1 => if len =? 0 then Err EZero else do (xs, r2) <- decode_elems d r1 len; nonzero_unwrap (set_of eqb xs) r2)
                                       (fun len r1 => if len =? 0 then Err EZero else do (xs, r2) <- decode_elems d' r1 len; nonzero_unwrap (set_of eqb xs) r2)).
  intros n r Hr. cbv beta. rewrite (decode_elems_upto m d d' Hd H r n Hr). reflexivity.
Qed.

Lemma decode_seq_upto m (d d' : ty -> dec val) ts : (forall t, In t ts -> reader_ok (d t) /\ upto m (d t) (d' t)) -> upto m (decode_seq d ts) (decode_seq d' ts).
Proof.
  induction ts as [|t ts IH]; intros H r Hr; [reflexivity|]. destruct (H t (or_introl eq_refl)) as [H1 H2]. cbn [decode_seq].
  rewrite <- H2 by exact Hr. destruct (d t r) as [[v r1]| | |] eqn:E; cbn [bind]; try reflexivity.
  rewrite IH; [reflexivity|intros x Hx; apply H; right; exact Hx|]. apply H1 in E. apply suffix_length in E. lia.
Qed.

Lemma dec_ty_upto m ext ext' : (forall i args, reader_ok (ext i args)) -> (forall i args, upto m (ext i args) (ext' i args)) ->
  forall t root, upto m (dec_ty ext root t) (dec_ty ext' root t).
Proof.
  intros Hr He t. pose proof (dec_ty_reader ext Hr) as Hrd.
  assert (Hp : (forall root, upto m (dec_ty ext root t) (dec_ty ext' root t))
    /\ match t with TVec t' | TSet t' => upto m (dec_ty ext false t') (dec_ty ext' false t')
       | TMap k v => upto m (dec_ty ext false k) (dec_ty ext' false k) /\ upto m (dec_ty ext false v) (dec_ty ext' false v) | _ => True end); [|apply Hp].
  induction t as [t Hl|t IH|k v IHk IHv|t IH|t IH|t IH|ts IH|t n IH|i args IH|t IH] using ty_ind';
    (split; [|try exact I; try exact (proj1 IH false); try (split; [exact (proj1 IHk false)|exact (proj1 IHv false)]); destruct t; discriminate Hl || exact I]); intros root.
  - destruct t; try discriminate Hl; intros r _; reflexivity.
  - apply dmap_upto, decode_vec_upto; [apply Hrd|apply IH].
  - apply dmap_upto, decode_map_upto; [apply Hrd|apply Hrd|apply IHk|apply IHv].
  - apply dmap_upto, decode_set_upto; [apply Hrd|apply IH].
  - apply dmap_upto, decode_option_upto, IH.
  - destruct IH as [_ Hin]. cbn [dec_ty]. destruct t; try (intros r _; reflexivity); apply dmap_upto.
    + apply decode_nz_vec_upto; [apply Hrd|exact Hin].
    + apply decode_nz_map_upto; [apply Hrd|apply Hrd|apply Hin|apply Hin].
    + apply decode_nz_set_upto; [apply Hrd|exact Hin].
  - cbn [dec_ty]. intros r Hlen. cbv beta.
    assert (Hs : upto m (decode_seq (dec_ty ext false) ts) (decode_seq (dec_ty ext' false) ts)).
    { apply decode_seq_upto. intros t Ht. split; [apply Hrd|]. rewrite Forall_forall in IH. apply (IH t Ht). }
    destruct root; [|cbn [bind]; rewrite Hs by exact Hlen; reflexivity].
    destruct (decode_u64 r) as [[x r1]| | |] eqn:Ex; cbn [bind]; try reflexivity. rewrite Hs; [reflexivity|].
    apply (decode_uint_ok W64) in Ex. apply suffix_length in Ex. lia.
  - apply dmap_upto, decode_array_upto; [apply Hrd|apply IH].
  - apply He.
  - cbn [dec_ty]. apply IH.
Qed.

(** The loop over the fields. *)
Lemma loop_fields_upto m d d' fs : (forall t, reader_ok (d t)) -> (forall t, upto m (d t) (d' t)) ->
  forall n n' s r, (length r <= m)%nat -> (length r < n)%nat -> (length r < n')%nat -> loop_fields d fs n s r = loop_fields d' fs n' s r.
Proof.
  intros Hd H n. induction n as [|n IH]; intros n' s r Hm Hn Hn'; [lia|]. destruct n' as [|n']; [lia|]. cbn [loop_fields].
  destruct (decode_id r) as [[id r1]| | |] eqn:Ei; cbn [bind]; try reflexivity. apply decode_id_consumes in Ei.
  destruct (fid_value id =? END_MARKER); [reflexivity|]. destruct (find_field (fid_value id) fs 0) as [[k f]|].
  - rewrite <- H by lia. destruct (d (payload_ty (f_ty f)) r1) as [[v r2]| | |] eqn:Ev; cbn [bind]; try reflexivity.
    apply Hd in Ev. apply suffix_length in Ev. apply IH; lia.
  - destruct (decode_skip (fid_enc id) r1) as [r2| | |] eqn:Es; cbn [bind]; try reflexivity. apply decode_skip_suffix in Es. apply suffix_length in Es. apply IH; lia.
Qed.
Theorem loop_fields_fuel d fs n n' s r : (forall t, reader_ok (d t)) -> (length r < n)%nat -> (length r < n')%nat ->
  loop_fields d fs n s r = loop_fields d fs n' s r.
Proof. intros Hd Hn Hn'. apply (loop_fields_upto (length r)); auto. intros t x _. reflexivity. Qed.

Lemma decode_body_upto m d d' fs : (forall t, reader_ok (d t)) -> (forall t, upto m (d t) (d' t)) -> upto (S m) (decode_body d fs) (decode_body d' fs).
Proof.
  intros Hd H r Hr. unfold decode_body. destruct (fs_kind fs); try reflexivity.
  all: rewrite (loop_fields_upto m d d' (fs_list fs) Hd H (S (length r)) (S (length r))) by lia; reflexivity.
Qed.

(** The nesting of definitions. *)
Lemma dec_ext_upto E : forall n n', (n <= n')%nat -> forall i args, upto n (dec_ext E n i args) (dec_ext E n' i args).
Proof.
  induction n as [|n IH]; intros n' Hn i args r Hr; [lia|]. destruct n' as [|n']; [lia|]. cbn [dec_ext].
  assert (Hty : forall t, upto n (dec_ty (dec_ext E n) true t) (dec_ty (dec_ext E n') true t)).
  { intros t. apply dec_ty_upto; [apply dec_ext_reader|apply IH; lia]. }
  assert (Hrd : forall t, reader_ok (dec_ty (dec_ext E n) true t)) by (intros t; apply dec_ty_reader, dec_ext_reader).
  destruct (nth_error E i) as [[fs|vs]|]; [| |reflexivity].
  - apply (dmap_upto VRec (S n)); [|exact Hr]. apply decode_body_upto; assumption.
  - destruct (decode_variant_id r) as [[id r1]| | |] eqn:Ei; cbn [bind]; try reflexivity.
    apply (decode_uint_ok W32) in Ei. apply suffix_length in Ei.
    destruct (find_variant id vs 0) as [[k v]|]; [|reflexivity].
    apply (dmap_upto (VVar k) (S n)); [|lia]. apply decode_body_upto; assumption.
Qed.
Theorem dec_ext_depth E n n' i args r : (length r < n)%nat -> (length r < n')%nat -> dec_ext E n i args r = dec_ext E n' i args r.
Proof.
  intros Hn Hn'. rewrite <- (dec_ext_upto E (S (length r)) n) by lia. rewrite <- (dec_ext_upto E (S (length r)) n') by lia. reflexivity.
Qed.
