(** Decoders on arbitrary bytes: they leave a suffix of the input, terminate, do not panic,
    and what they accept does not depend on the bytes that follow. *)
From Verif Require Import Base Varint VarintSpec VarintProofs Wire WireProofs Codec CodecSpec CodecProofs SchemaSpec.
Local Open Scope N_scope.

(** * Induction on types *)
Definition is_leaf (t : ty) : bool :=
  match t with
  | TVec _ | TMap _ _ | TSet _ | TOption _ | TNonZero _ | TTuple _ | TArray _ _ | TExt _ _ | TGen _ => false
  | _ => true
  end.

Section TyInd.
Variable P : ty -> Prop.
Hypothesis Hleaf : forall t, is_leaf t = true -> P t.
Hypothesis HVec : forall t, P t -> P (TVec t).
Hypothesis HMap : forall k v, P k -> P v -> P (TMap k v).
Hypothesis HSet : forall t, P t -> P (TSet t).
Hypothesis HOption : forall t, P t -> P (TOption t).
Hypothesis HNonZero : forall t, P t -> P (TNonZero t).
Hypothesis HTuple : forall ts, Forall P ts -> P (TTuple ts).
Hypothesis HArray : forall t n, P t -> P (TArray t n).
Hypothesis HExt : forall i args, Forall P args -> P (TExt i args).
Hypothesis HGen : forall t, P t -> P (TGen t).

Fixpoint ty_ind' (t : ty) : P t :=
  let go := fix go (l : list ty) : Forall P l :=
    match l with [] => Forall_nil _ | x :: l' => Forall_cons x (ty_ind' x) (go l') end in
  match t with
  | TVec t' => HVec t' (ty_ind' t')
  | TMap k v => HMap k v (ty_ind' k) (ty_ind' v)
  | TSet t' => HSet t' (ty_ind' t')
  | TOption t' => HOption t' (ty_ind' t')
  | TNonZero t' => HNonZero t' (ty_ind' t')
  | TTuple ts => HTuple ts (go ts)
  | TArray t' n => HArray t' n (ty_ind' t')
  | TExt i args => HExt i args (go args)
  | TGen t' => HGen t' (ty_ind' t')
  | TBool => Hleaf TBool eq_refl | TU8 => Hleaf TU8 eq_refl | TI8 => Hleaf TI8 eq_refl
  | TUInt w => Hleaf (TUInt w) eq_refl | TSInt w => Hleaf (TSInt w) eq_refl
  | TF32 => Hleaf TF32 eq_refl | TF64 => Hleaf TF64 eq_refl
  | TString => Hleaf TString eq_refl | TStringRef => Hleaf TStringRef eq_refl | TBoxString => Hleaf TBoxString eq_refl
  | TBytes => Hleaf TBytes eq_refl | TBytesRef => Hleaf TBytesRef eq_refl | TBoxBytes => Hleaf TBoxBytes eq_refl
  | TParam i => Hleaf (TParam i) eq_refl
  end.
End TyInd.

Lemma all_ty_node p t : all_ty p t = true -> p t = true.
Proof. destruct t; cbn [all_ty]; intros H; apply andb_true_iff in H; tauto. Qed.

(** * Suffixes *)

Lemma dmap_reader {A B} (f : A -> B) d : reader_ok d -> reader_ok (dmap f d).
Proof.
  intros Hd r a r' H. unfold dmap in H. apply bind_ok in H as ([x r1] & H1 & H2).
  injection H2 as <- <-. eapply Hd. exact H1.
Qed.

Lemma decode_seq_reader d ts : (forall t, In t ts -> reader_ok (d t)) -> reader_ok (decode_seq d ts).
Proof.
  induction ts as [|t ts IH]; intros Hd r a r' H; cbn [decode_seq] in H.
  - injection H as <- <-. apply suffix_refl.
  - apply bind_ok in H as ([v r1] & H1 & H). apply bind_ok in H as ([vs r2] & H2 & H).
    injection H as <- <-. eapply suffix_trans.
    + eapply IH; [|exact H2]. intros x Hx. apply Hd. right. exact Hx.
    + eapply Hd; [left; reflexivity|exact H1].
Qed.

Lemma loop_fields_reader d fs : (forall t, reader_ok (d t)) ->
  forall n s r s' r', loop_fields d fs n s r = Ok (s', r') -> suffix r' r.
Proof.
  intros Hd. induction n as [|n IH]; intros s r s' r' H; [discriminate|]. cbn [loop_fields] in H.
  apply bind_ok in H as ([id r1] & H1 & H). apply decode_id_ok in H1.
  destruct (fid_value id =? END_MARKER).
  - injection H as <- <-. exact H1.
  - destruct (find_field (fid_value id) fs 0) as [[k f]|].
    + apply bind_ok in H as ([v r2] & H2 & H). apply IH in H. apply Hd in H2.
      eapply suffix_trans; [exact H|]. eapply suffix_trans; eassumption.
    + apply bind_ok in H as (r2 & H2 & H). apply IH in H. apply decode_skip_suffix in H2.
      eapply suffix_trans; [exact H|]. eapply suffix_trans; eassumption.
Qed.

Lemma decode_body_reader d fs : (forall t, reader_ok (d t)) -> reader_ok (decode_body d fs).
Proof.
  intros Hd r a r' H. unfold decode_body in H.
  destruct (fs_kind fs);
    try (apply bind_ok in H as ([s r1] & H1 & H); apply bind_ok in H as (vs & H2 & H);
         injection H as <- <-; eapply loop_fields_reader; [exact Hd|exact H1]).
  injection H as <- <-. apply suffix_refl.
Qed.

Lemma dec_ty_reader ext : (forall i args, reader_ok (ext i args)) ->
  forall t root, reader_ok (dec_ty ext root t).
Proof.
  intros Hext t. induction t as [t Hl|t IHt|k v IHk IHv|t IHt|t IHt|t IHt|ts IHts|t n IHt|i args IHa|t IHt] using ty_ind'; intros root.
  - destruct t; try discriminate Hl; cbn [dec_ty];
      try (apply dmap_reader;
           first [ apply decode_bool_ok | apply decode_u8_ok | apply decode_i8_ok | apply decode_uint_ok
                 | apply decode_sint_ok | apply decode_fixed_ok | apply decode_string_ok | apply decode_bytes_ok ]).
    intros r a r' H. discriminate.
  - apply dmap_reader. apply decode_vec_ok.
  - apply dmap_reader. apply decode_hash_map_ok.
  - apply dmap_reader. apply decode_hash_set_ok.
  - apply dmap_reader. apply decode_option_ok. apply IHt.
  - cbn [dec_ty]. destruct t; try (intros r a r' H; discriminate); apply dmap_reader;
      first [ apply decode_non_zero_uint_ok; first [apply decode_u8_ok|apply decode_uint_ok]
            | apply decode_non_zero_sint_ok; first [apply decode_i8_ok|apply decode_sint_ok]
            | apply decode_non_zero_string_ok | apply decode_non_zero_bytes_ok
            | apply decode_non_zero_vec_ok | apply decode_non_zero_hash_map_ok
            | apply decode_non_zero_hash_set_ok ].
  - cbn [dec_ty]. intros r a r' H'. apply bind_ok in H' as ([x r1] & H1 & H').
    apply bind_ok in H' as ([vs r2] & H2 & H'). injection H' as <- <-.
    eapply suffix_trans.
    + eapply (decode_seq_reader (dec_ty ext false)); [|exact H2].
      intros t Ht. rewrite Forall_forall in IHts. apply IHts. exact Ht.
    + destruct root; [eapply (decode_uint_ok W64); exact H1|]. injection H1 as <- <-. apply suffix_refl.
  - apply dmap_reader. apply decode_array_ok.
  - apply Hext.
  - cbn [dec_ty]. apply IHt.
Qed.

Lemma dec_ext_reader E depth : forall i args, reader_ok (dec_ext E depth i args).
Proof.
  induction depth as [|depth IH]; intros i args r a r' H; [discriminate|]. cbn [dec_ext] in H.
  destruct (nth_error E i) as [[fs|vars]|]; [| |discriminate].
  - eapply dmap_reader; [|exact H]. apply decode_body_reader. intros t. apply dec_ty_reader. exact IH.
  - apply bind_ok in H as ([id r1] & H1 & H). apply (decode_uint_ok W32) in H1.
    destruct (find_variant id vars 0) as [[k var]|]; [|discriminate].
    eapply suffix_trans; [|exact H1].
    eapply dmap_reader; [|exact H]. apply decode_body_reader. intros t. apply dec_ty_reader. exact IH.
Qed.

Lemma decode_reader E root t : reader_ok (decode E root t).
Proof.
  intros r a r' H. unfold decode in H. eapply dec_ty_reader; [|exact H]. apply dec_ext_reader.
Qed.

(** * Progress: types that occupy bytes consume bytes *)

Definition consumes {A} (d : dec A) : Prop :=
  forall r a r', d r = Ok (a, r') -> (length r' < length r)%nat.

Lemma ensure_skip_len (r : list N) (n : N) : 0 < n -> n <= lenN r -> (length (skipn (N.to_nat n) r) < length r)%nat.
Proof. intros H0 H. rewrite skipn_length. unfold lenN in H. lia. Qed.

Lemma dmap_consumes {A B} (f : A -> B) d : consumes d -> consumes (dmap f d).
Proof.
  intros Hd r a r' H. unfold dmap in H. apply bind_ok in H as ([x r1] & H1 & H2).
  injection H2 as <- <-. eapply Hd. exact H1.
Qed.

Lemma get_u8_consumes : consumes get_u8.
Proof. intros [|b r] a r' H; [discriminate|]. injection H as <- <-. cbn. lia. Qed.

Lemma decode_u8_consumes : consumes decode_u8.
Proof. intros r a r' H. apply ensure_ok in H as [_ H]. eapply get_u8_consumes. exact H. Qed.

Lemma decode_i8_consumes : consumes decode_i8.
Proof.
  intros r a r' H. apply ensure_ok in H as [_ H]. apply bind_ok in H as ([b r1] & H1 & H2).
  injection H2 as <- <-. eapply get_u8_consumes. exact H1.
Qed.

Lemma decode_bool_consumes : consumes decode_bool.
Proof.
  intros r a r' H. apply ensure_ok in H as [_ H]. apply bind_ok in H as ([b r1] & H1 & H2).
  injection H2 as <- <-. eapply get_u8_consumes. exact H1.
Qed.

Lemma decode_sint_consumes w : consumes (decode_sint w).
Proof.
  intros r a r' H. unfold decode_sint, decode_arr_signed in H.
  destruct (decode_arr w r) as [[x n]|] eqn:E; [|discriminate].
  apply (decode_uint_consumes w r x). unfold decode_uint. rewrite E. injection H as <- <-. reflexivity.
Qed.

Lemma decode_fixed_consumes n : 0 < n -> consumes (decode_fixed n).
Proof.
  intros Hn r a r' H. apply ensure_ok in H as [Hl H]. injection H as <- <-.
  apply ensure_skip_len; assumption.
Qed.

(** A reader that starts with a length. *)
Lemma after_u64_consumes {A} (k : N -> dec A) :
  (forall n, reader_ok (k n)) -> consumes (fun r => do (len, r1) <- decode_u64 r; k len r1).
Proof.
  intros Hk r a r' H. apply bind_ok in H as ([len r1] & H1 & H).
  apply decode_uint_consumes in H1. apply Hk in H. apply suffix_length in H. lia.
Qed.

Lemma decode_bytes_consumes : consumes decode_bytes.
Proof.
  apply (after_u64_consumes (fun len r1 => ensure_size r1 len (Ok (firstn (N.to_nat len) r1, skipn (N.to_nat len) r1)))).
  intros n r a r' H. apply ensure_ok in H as [_ H]. injection H as <- <-. apply suffix_skipn.
Qed.

Lemma decode_string_consumes : consumes decode_string.
Proof.
  intros r a r' H. unfold decode_string in H. apply bind_ok in H as ([b r1] & H1 & H).
  destruct (utf8_ok b); [|discriminate]. injection H as <- <-. eapply decode_bytes_consumes; exact H1.
Qed.

Lemma decode_elems_reader {T} (d : dec T) n : reader_ok (fun r => decode_elems d r n).
Proof. intros r a r' H. apply decode_elems_rest in H as (_ & -> & _). apply suffix_skipn. Qed.

Lemma decode_vec_consumes {T} (d : dec T) : consumes (decode_vec d).
Proof. apply (after_u64_consumes (fun len r1 => decode_elems d r1 len)). intros n. apply decode_elems_reader. Qed.

Lemma decode_hash_map_consumes {K V} eqb (dk : dec K) (dv : dec V) : consumes (decode_hash_map eqb dk dv).
Proof.
  intros r a r' H. unfold decode_hash_map in H. apply bind_ok in H as ([b r1] & H1 & H).
  injection H as <- <-. eapply decode_vec_consumes; exact H1.
Qed.

Lemma decode_hash_set_consumes {K} eqb (d : dec K) : consumes (decode_hash_set eqb d).
Proof.
  intros r a r' H. unfold decode_hash_set in H. apply bind_ok in H as ([b r1] & H1 & H).
  injection H as <- <-. eapply decode_vec_consumes; exact H1.
Qed.

Lemma decode_option_consumes {T} (d : dec T) : reader_ok d -> consumes (decode_option d).
Proof.
  intros Hd r a r' H. unfold decode_option in H. apply bind_ok in H as ([t r1] & H1 & H).
  apply decode_u8_consumes in H1. destruct (t =? 1).
  - apply bind_ok in H as ([v r2] & H2 & H3). injection H3 as <- <-.
    apply Hd in H2. apply suffix_length in H2. lia.
  - injection H as <- <-. exact H1.
Qed.

Lemma decode_array_consumes {T} n (d : dec T) : consumes (decode_array n d).
Proof.
  apply (after_u64_consumes (fun len r1 => ensure_size r1 len (
    let m := N.to_nat len in
    do xs <- darr d n (firstn m r1);
    if (length xs =? n)%nat then Ok (xs, skipn m r1) else Panic))).
  intros m r a r' H. apply ensure_ok in H as [_ H]. cbv zeta in H. apply bind_ok in H as (xs & _ & H).
  destruct (length xs =? n)%nat; [|discriminate]. injection H as <- <-. apply suffix_skipn.
Qed.

Lemma decode_non_zero_bytes_consumes : consumes decode_non_zero_bytes.
Proof.
  apply (after_u64_consumes (fun len r1 => if len =? 0 then Err EZero else
    ensure_size r1 len (nonzero_unwrap (firstn (N.to_nat len) r1) (skipn (N.to_nat len) r1)))).
  intros m r a r' H. destruct (m =? 0); [discriminate|]. apply ensure_ok in H as [_ H].
  apply nonzero_unwrap_ok in H as (_ & -> & _). apply suffix_skipn.
Qed.

Lemma decode_non_zero_string_consumes : consumes decode_non_zero_string.
Proof.
  intros r a r' H. unfold decode_non_zero_string in H. apply bind_ok in H as ([b r1] & H1 & H).
  destruct (utf8_ok b); [|discriminate]. apply nonzero_unwrap_ok in H as (_ & -> & _).
  eapply decode_non_zero_bytes_consumes; exact H1.
Qed.

Lemma decode_non_zero_vec_consumes {T} (d : dec T) : consumes (decode_non_zero_vec d).
Proof.
  apply (after_u64_consumes (fun len r1 => if len =? 0 then Err EZero else
    do (xs, r2) <- decode_elems d r1 len; nonzero_unwrap xs r2)).
  intros m r a r' H. destruct (m =? 0); [discriminate|]. apply bind_ok in H as ([xs r2] & H1 & H).
  apply nonzero_unwrap_ok in H as (_ & -> & _). eapply decode_elems_reader. exact H1.
Qed.

Lemma decode_non_zero_hash_map_consumes {K V} eqb (dk : dec K) (dv : dec V) :
  consumes (decode_non_zero_hash_map eqb dk dv).
Proof.
  apply (after_u64_consumes (fun len r1 => if len =? 0 then Err EZero else
    do (xs, r2) <- decode_elems (dpair dk dv) r1 len; nonzero_unwrap (map_of eqb xs) r2)).
  intros m r a r' H. destruct (m =? 0); [discriminate|]. apply bind_ok in H as ([xs r2] & H1 & H).
  apply nonzero_unwrap_ok in H as (_ & -> & _). eapply decode_elems_reader. exact H1.
Qed.

Lemma decode_non_zero_hash_set_consumes {K} eqb (d : dec K) : consumes (decode_non_zero_hash_set eqb d).
Proof.
  apply (after_u64_consumes (fun len r1 => if len =? 0 then Err EZero else
    do (xs, r2) <- decode_elems d r1 len; nonzero_unwrap (set_of eqb xs) r2)).
  intros m r a r' H. destruct (m =? 0); [discriminate|]. apply bind_ok in H as ([xs r2] & H1 & H).
  apply nonzero_unwrap_ok in H as (_ & -> & _). eapply decode_elems_reader. exact H1.
Qed.

Lemma decode_non_zero_uint_consumes d : consumes d -> consumes (decode_non_zero_uint d).
Proof.
  intros Hd r a r' H. unfold decode_non_zero_uint in H. apply bind_ok in H as ([v r1] & H1 & H).
  destruct (v =? 0); [discriminate|]. injection H as <- <-. eapply Hd; exact H1.
Qed.

Lemma decode_non_zero_sint_consumes d : consumes d -> consumes (decode_non_zero_sint d).
Proof.
  intros Hd r a r' H. unfold decode_non_zero_sint in H. apply bind_ok in H as ([v r1] & H1 & H).
  destruct (v =? 0)%Z; [discriminate|]. injection H as <- <-. eapply Hd; exact H1.
Qed.

Lemma loop_fields_consumes d fs : (forall t, reader_ok (d t)) ->
  forall n s r s' r', loop_fields d fs n s r = Ok (s', r') -> (length r' < length r)%nat.
Proof.
  intros Hd [|n] s r s' r' H; [discriminate|]. cbn [loop_fields] in H.
  apply bind_ok in H as ([id r1] & H1 & H). apply decode_id_consumes in H1.
  destruct (fid_value id =? END_MARKER).
  - injection H as <- <-. exact H1.
  - destruct (find_field (fid_value id) fs 0) as [[k f]|].
    + apply bind_ok in H as ([v r2] & H2 & H). apply (loop_fields_reader d fs Hd) in H. apply Hd in H2.
      apply suffix_length in H. apply suffix_length in H2. lia.
    + apply bind_ok in H as (r2 & H2 & H). apply (loop_fields_reader d fs Hd) in H. apply decode_skip_suffix in H2.
      apply suffix_length in H. apply suffix_length in H2. lia.
Qed.

Lemma decode_body_consumes d fs : (forall t, reader_ok (d t)) -> fs_kind fs <> KUnit ->
  consumes (decode_body d fs).
Proof.
  intros Hd Hk r a r' H. unfold decode_body in H.
  destruct (fs_kind fs); try congruence;
    (apply bind_ok in H as ([s r1] & H1 & H); apply bind_ok in H as (vs & H2 & H);
     injection H as <- <-; eapply loop_fields_consumes; [exact Hd|exact H1]).
Qed.

Section Env.
Variable E : env.

(** A decoder for references that consumes whenever the definition is not a unit struct. *)
Definition ext_good (ext : nat -> list ty -> dec val) : Prop :=
  forall i args, reader_ok (ext i args)
    /\ (occupies E (TExt i args) = true -> consumes (ext i args)).

Lemma decode_seq_consumes d ts : (forall t, In t ts -> reader_ok (d t)) ->
  (exists t, In t ts /\ consumes (d t)) -> consumes (decode_seq d ts).
Proof.
  induction ts as [|t ts IH]; intros Hd (u & Hu & Hc) r a r' H; [contradiction|].
  cbn [decode_seq] in H.
  apply bind_ok in H as ([v r1] & H1 & H). apply bind_ok in H as ([vs r2] & H2 & H).
  injection H as <- <-.
  assert (Hs : reader_ok (decode_seq d ts)).
  { apply decode_seq_reader. intros x Hx. apply Hd. right. exact Hx. }
  destruct Hu as [<-|Hu].
  - apply Hc in H1. apply Hs in H2. apply suffix_length in H2. lia.
  - apply (Hd t (or_introl eq_refl)) in H1. apply suffix_length in H1.
    apply IH in H2; [lia| |].
    + intros x Hx. apply Hd. right. exact Hx.
    + exists u. auto.
Qed.

Lemma dec_ty_consumes ext : ext_good ext ->
  forall t root, occupies E t = true -> consumes (dec_ty ext root t).
Proof.
  intros Hext. assert (Hr : forall t root, reader_ok (dec_ty ext root t))
    by (intros; apply dec_ty_reader; intros; apply Hext).
  intros t. induction t as [t Hl|t IHt|k v IHk IHv|t IHt|t IHt|t IHt|ts IHts|t n IHt|i args IHa|t IHt] using ty_ind'; intros root Ho.
  - destruct t; try discriminate Hl; cbn [dec_ty];
      try (apply dmap_consumes;
           first [ apply decode_bool_consumes | apply decode_u8_consumes | apply decode_i8_consumes
                 | intros r0 a0 r0'; apply decode_uint_consumes | apply decode_sint_consumes
                 | apply decode_fixed_consumes; reflexivity
                 | apply decode_string_consumes | apply decode_bytes_consumes ]).
    intros r a r' H. discriminate.
  - apply dmap_consumes. apply decode_vec_consumes.
  - apply dmap_consumes. apply decode_hash_map_consumes.
  - apply dmap_consumes. apply decode_hash_set_consumes.
  - apply dmap_consumes. apply decode_option_consumes. apply Hr.
  - cbn [dec_ty]. destruct t; try (intros r a r' H; discriminate); apply dmap_consumes;
      first [ apply decode_non_zero_uint_consumes; first [apply decode_u8_consumes|intros r0 a0 r0'; apply decode_uint_consumes]
            | apply decode_non_zero_sint_consumes; first [apply decode_i8_consumes|apply decode_sint_consumes]
            | apply decode_non_zero_string_consumes | apply decode_non_zero_bytes_consumes
            | apply decode_non_zero_vec_consumes | apply decode_non_zero_hash_map_consumes
            | apply decode_non_zero_hash_set_consumes ].
  - cbn [dec_ty]. intros r a r' H'. apply bind_ok in H' as ([x r1] & H1 & H').
    apply bind_ok in H' as ([vs r2] & H2 & H'). injection H' as <- <-.
    assert (Hle : (length r1 <= length r)%nat).
    { destruct root; [apply decode_uint_consumes in H1; lia|]. injection H1 as <- <-. lia. }
    cbn [occupies] in Ho. apply existsb_exists in Ho as (u & Hu & Hou).
    apply decode_seq_consumes in H2; [lia|intros; apply Hr|].
    exists u. split; [exact Hu|]. rewrite Forall_forall in IHts. apply IHts; assumption.
  - apply dmap_consumes. apply decode_array_consumes.
  - apply Hext. exact Ho.
  - cbn [dec_ty]. apply IHt. exact Ho.
Qed.

Lemma dec_ext_good depth : ext_good (dec_ext E depth).
Proof.
  intros i args. split; [apply dec_ext_reader|]. intros Ho r a r' H.
  destruct depth as [|depth]; [discriminate|]. cbn [dec_ext] in H. cbn [occupies] in Ho.
  assert (Hr : forall t, reader_ok (dec_ty (dec_ext E depth) true t)).
  { intros t. apply dec_ty_reader. apply dec_ext_reader. }
  destruct (nth_error E i) as [[fs|vars]|]; [| |discriminate].
  - eapply dmap_consumes; [|exact H]. apply decode_body_consumes; [exact Hr|].
    unfold inst. cbn [fs_kind]. destruct (fs_kind fs); congruence.
  - apply bind_ok in H as ([id r1] & H1 & H). apply decode_uint_consumes in H1.
    destruct (find_variant id vars 0) as [[k var]|]; [|discriminate].
    eapply dmap_reader in H; [|apply decode_body_reader; exact Hr]. apply suffix_length in H. lia.
Qed.

(** * No divergence, no panic *)

(** [nd]: divergence is excluded; [np]: panics are excluded. *)
Variables nd np : bool.
Definition ok_out {A} (m : res A) : Prop :=
  match m with Diverge => nd = false | Panic => np = false | _ => True end.

Lemma ok_bind {A B} (m : res A) (f : A -> res B) :
  ok_out m -> (forall a, m = Ok a -> ok_out (f a)) -> ok_out (bind m f).
Proof. destruct m; cbn; auto. Qed.

Lemma ok_ensure {A} r n (k : res A) : (n <= lenN r -> ok_out k) -> ok_out (ensure_size r n k).
Proof. unfold ensure_size. destruct (N.ltb_spec (lenN r) n); intros H0; [exact I|]. apply H0. lia. Qed.

Definition okd {A} (B : nat) (d : dec A) : Prop := forall r, (length r <= B)%nat -> ok_out (d r).

Lemma okd_dmap {A C} B (f : A -> C) d : okd B d -> okd B (dmap f d).
Proof.
  intros H r Hr. unfold dmap. apply ok_bind; [apply H; exact Hr|]. intros [x r'] _. exact I.
Qed.

Lemma ok_get_u8 r : 1 <= lenN r -> ok_out (get_u8 r).
Proof. destruct r; cbn; [lia|]. intros _. exact I. Qed.

Lemma okd_bool B : okd B decode_bool.
Proof.
  intros r _. apply ok_ensure. intros H. apply ok_bind; [apply ok_get_u8; exact H|]. intros [] _. exact I.
Qed.
Lemma okd_u8 B : okd B decode_u8.
Proof. intros r _. apply ok_ensure. intros H. apply ok_get_u8; exact H. Qed.
Lemma okd_i8 B : okd B decode_i8.
Proof.
  intros r _. apply ok_ensure. intros H. apply ok_bind; [apply ok_get_u8; exact H|]. intros [] _. exact I.
Qed.
Lemma okd_uint B w : okd B (decode_uint w).
Proof. intros r _. unfold decode_uint. destruct (decode_arr w r) as [[]|]; exact I. Qed.
Lemma okd_sint B w : okd B (decode_sint w).
Proof. intros r _. unfold decode_sint. destruct (decode_arr_signed w r) as [[]|]; exact I. Qed.
Lemma okd_fixed B n : okd B (decode_fixed n).
Proof. intros r _. apply ok_ensure. intros _. exact I. Qed.
Lemma okd_bytes B : okd B decode_bytes.
Proof.
  intros r Hr. apply ok_bind; [apply (okd_uint B W64); exact Hr|]. intros [len r1] _.
  apply ok_ensure. intros _. exact I.
Qed.
Lemma okd_string B : okd B decode_string.
Proof.
  intros r Hr. apply ok_bind; [apply (okd_bytes B); exact Hr|]. intros [b r1] _.
  destruct (utf8_ok b); exact I.
Qed.

(** The element loop: elements must make progress when divergence is to be excluded. *)
Lemma ok_dloop {T} (d : dec T) B : okd B d -> reader_ok d -> (nd = true -> consumes d) ->
  forall n r, (nd = true -> (length r <= n)%nat) -> (length r <= B)%nat -> ok_out (dloop d n r).
Proof.
  intros Hd Hr Hc. induction n as [|n IH]; intros r Hn HB; destruct r as [|b r]; try exact I.
  - cbn. destruct nd; [|reflexivity]. specialize (Hn eq_refl). cbn in Hn. lia.
  - cbn [dloop]. apply ok_bind; [apply Hd; exact HB|]. intros [x r'] Hx.
    apply ok_bind; [|intros; exact I].
    apply IH.
    + intros End. specialize (Hn End). pose proof (Hc End _ _ _ Hx) as Hl. cbn [length] in *. lia.
    + apply Hr in Hx. apply suffix_length in Hx. lia.
Qed.

Lemma ok_elems {T} (d : dec T) B r len : okd B d -> reader_ok d -> (nd = true -> consumes d) ->
  (length r <= B)%nat -> ok_out (decode_elems d r len).
Proof.
  intros Hd Hr Hc HB. unfold decode_elems. apply ok_ensure. intros Hl. cbv zeta.
  apply ok_bind; [|intros; exact I].
  apply (ok_dloop d B); try assumption.
  - intros _. rewrite firstn_length. lia.
  - rewrite firstn_length. lia.
Qed.

Lemma okd_vec {T} (d : dec T) B : okd B d -> reader_ok d -> (nd = true -> consumes d) -> okd B (decode_vec d).
Proof.
  intros Hd Hr Hc r HB. apply ok_bind; [apply (okd_uint B W64); exact HB|]. intros [len r1] H1.
  apply (decode_uint_ok W64) in H1. apply suffix_length in H1. apply (ok_elems d B); auto. lia.
Qed.

Lemma okd_dpair {K V} (dk : dec K) (dv : dec V) B : okd B dk -> okd B dv -> reader_ok dk -> okd B (dpair dk dv).
Proof.
  intros Hk Hv Hr r HB. apply ok_bind; [apply Hk; exact HB|]. intros [k r1] H1.
  apply Hr in H1. apply suffix_length in H1. apply ok_bind; [apply Hv; lia|]. intros [v r2] _. exact I.
Qed.

Lemma dpair_reader {K V} (dk : dec K) (dv : dec V) : reader_ok dk -> reader_ok dv -> reader_ok (dpair dk dv).
Proof.
  intros Hk Hv r a r' H. unfold dpair in H. apply bind_ok in H as ([k r1] & H1 & H).
  apply bind_ok in H as ([v r2] & H2 & H). injection H as <- <-.
  eapply suffix_trans; [eapply Hv; exact H2|eapply Hk; exact H1].
Qed.

Lemma dpair_consumes {K V} (dk : dec K) (dv : dec V) : reader_ok dk -> reader_ok dv ->
  consumes dk \/ consumes dv -> consumes (dpair dk dv).
Proof.
  intros Hk Hv Hc r a r' H. unfold dpair in H. apply bind_ok in H as ([k r1] & H1 & H).
  apply bind_ok in H as ([v r2] & H2 & H). injection H as <- <-.
  pose proof (suffix_length _ _ (Hk _ _ _ H1)). pose proof (suffix_length _ _ (Hv _ _ _ H2)).
  destruct Hc as [Hc|Hc]; [apply Hc in H1|apply Hc in H2]; lia.
Qed.

Lemma okd_nonzero_elems {T U} (d : dec T) (g : list T -> list U) B :
  okd B d -> reader_ok d -> (nd = true -> consumes d) -> (forall l, l <> [] -> g l <> []) ->
  okd B (fun r => do (len, r1) <- decode_u64 r;
                  if len =? 0 then Err EZero else
                  do (xs, r2) <- decode_elems d r1 len; nonzero_unwrap (g xs) r2).
Proof.
  intros Hd Hr Hc Hg r HB. apply ok_bind; [apply (okd_uint B W64); exact HB|]. intros [len r1] H1.
  apply (decode_uint_ok W64) in H1. apply suffix_length in H1.
  destruct (N.eqb_spec len 0) as [|H0]; [exact I|].
  apply ok_bind; [apply (ok_elems d B); auto; lia|]. intros [xs r2] H2.
  apply decode_elems_rest in H2 as (Hl & _ & H2).
  assert (Hx : xs <> []).
  { intros ->. destruct (firstn (N.to_nat len) r1) as [|b l] eqn:Ef.
    - apply (f_equal (@length N)) in Ef. rewrite firstn_length in Ef. cbn in Ef. unfold lenN in Hl. lia.
    - destruct (N.to_nat len); [discriminate|]. cbn [dloop] in H2.
      apply bind_ok in H2 as ([x r'] & _ & H2). apply bind_ok in H2 as (ys & _ & H2). discriminate. }
  specialize (Hg xs Hx). destruct (g xs); [congruence|]. exact I.
Qed.

Lemma map_insert_ne {K V} (eqb : K -> K -> bool) k (v : V) m : map_insert eqb k v m <> [].
Proof. destruct m as [|[k' v'] m]; cbn; [discriminate|]. destruct (eqb k k'); discriminate. Qed.

Lemma map_of_ne {K V} (eqb : K -> K -> bool) (l : list (K * V)) : l <> [] -> map_of eqb l <> [].
Proof.
  intros Hl. unfold map_of.
  assert (G : forall (l acc : list (K * V)), l <> [] \/ acc <> [] ->
    fold_left (fun m kv => map_insert eqb (fst kv) (snd kv) m) l acc <> []).
  { clear. induction l as [|[k v] l IH]; intros acc H; cbn [fold_left].
    - destruct H; congruence.
    - apply IH. right. apply map_insert_ne. }
  apply G. left. exact Hl.
Qed.

Lemma set_of_ne {K} (eqb : K -> K -> bool) (l : list K) : l <> [] -> set_of eqb l <> [].
Proof.
  intros Hl. unfold set_of.
  assert (G : forall (l acc : list K), l <> [] \/ acc <> [] ->
    fold_left (fun s k => set_insert eqb k s) l acc <> []).
  { clear. induction l as [|k l IH]; intros acc H; cbn [fold_left].
    - destruct H; congruence.
    - apply IH. right. unfold set_insert. destruct (existsb (eqb k) acc) eqn:E.
      + intros ->. discriminate.
      + destruct acc; discriminate. }
  apply G. left. exact Hl.
Qed.

Lemma okd_nz_bytes B : okd B decode_non_zero_bytes.
Proof.
  intros r HB. apply ok_bind; [apply (okd_uint B W64); exact HB|]. intros [len r1] _.
  destruct (N.eqb_spec len 0) as [|H0]; [exact I|]. apply ok_ensure. intros Hl.
  destruct (firstn (N.to_nat len) r1) as [|b l] eqn:Ef; [|exact I].
  apply (f_equal (@length N)) in Ef. rewrite firstn_length in Ef. cbn in Ef. unfold lenN in Hl. lia.
Qed.

Lemma okd_nz_string B : okd B decode_non_zero_string.
Proof.
  intros r HB. apply ok_bind; [apply (okd_nz_bytes B); exact HB|]. intros [b r1] H1.
  destruct (utf8_ok b); [|exact I]. destruct b; [|exact I].
  unfold decode_non_zero_bytes in H1. apply bind_ok in H1 as ([len r2] & _ & H1).
  destruct (len =? 0); [discriminate|]. apply ensure_ok in H1 as [_ H1].
  apply nonzero_unwrap_ok in H1 as (H1 & _ & H2). congruence.
Qed.

Lemma okd_nz_uint B d : okd B d -> okd B (decode_non_zero_uint d).
Proof. intros Hd r HB. apply ok_bind; [apply Hd; exact HB|]. intros [v r1] _. destruct (v =? 0); exact I. Qed.
Lemma okd_nz_sint B d : okd B d -> okd B (decode_non_zero_sint d).
Proof. intros Hd r HB. apply ok_bind; [apply Hd; exact HB|]. intros [v r1] _. destruct (v =? 0)%Z; exact I. Qed.

Lemma okd_option {T} B (d : dec T) : okd B d -> okd B (decode_option d).
Proof.
  intros Hd r HB. apply ok_bind; [apply (okd_u8 B); exact HB|]. intros [t r1] H1.
  apply decode_u8_consumes in H1. destruct (t =? 1); [|exact I].
  apply ok_bind; [apply Hd; lia|]. intros [v r2] _. exact I.
Qed.

Lemma okd_array {T} n B (d : dec T) : np = false -> okd B d -> reader_ok d -> okd B (decode_array n d).
Proof.
  intros Hnp Hd Hr r HB. apply ok_bind; [apply (okd_uint B W64); exact HB|]. intros [len r1] H1.
  apply (decode_uint_ok W64) in H1. apply suffix_length in H1. apply ok_ensure. intros Hl. cbv zeta.
  apply ok_bind; [|intros xs _; destruct (length xs =? n)%nat; [exact I|exact Hnp]].
  assert (G : forall n s, (length s <= B)%nat -> ok_out (darr d n s)).
  { clear -Hd Hr. induction n as [|n IH]; intros s Hs; [exact I|]. cbn [darr].
    destruct s as [|b s]; [exact I|]. apply ok_bind; [apply Hd; exact Hs|]. intros [x s'] Hx.
    apply Hr in Hx. apply suffix_length in Hx. apply ok_bind; [apply IH; lia|]. intros; exact I. }
  apply G. rewrite firstn_length. lia.
Qed.

Lemma okd_seq B d ts : (forall t, In t ts -> okd B (d t) /\ reader_ok (d t)) -> okd B (decode_seq d ts).
Proof.
  induction ts as [|t ts IH]; intros H r HB; cbn [decode_seq]; [exact I|].
  destruct (H t (or_introl eq_refl)) as [Hd Hr].
  apply ok_bind; [apply Hd; exact HB|]. intros [v r1] H1. apply Hr in H1. apply suffix_length in H1.
  apply ok_bind; [|intros [vs r2] _; exact I].
  apply IH; [|lia]. intros x Hx. apply H. right. exact Hx.
Qed.

Lemma okd_skip_varint r : ok_out (skip_varint r).
Proof. induction r as [|b r IH]; cbn [skip_varint]; [exact I|]. destruct (N.land b 128 =? 0); [exact I|exact IH]. Qed.

Lemma ok_skip e r : ok_out (decode_skip e r).
Proof.
  assert (F : forall n r, ok_out (skip_fixed n r)) by (intros; apply ok_ensure; intros; exact I).
  destruct e; cbn [decode_skip]; try apply F; [apply okd_skip_varint|].
  apply ok_bind; [apply (okd_uint (length r) W64); lia|]. intros [len r1] _. apply F.
Qed.

Lemma ok_id r : ok_out (decode_id r).
Proof.
  unfold decode_id. apply ok_bind; [apply (okd_uint (length r) W32); lia|]. intros [raw r1] _.
  destruct (fid_from_u32 raw); exact I.
Qed.

(** The field loop: it always makes progress; payloads start at least one byte later. *)
Lemma ok_loop_fields d fs B : (forall t, reader_ok (d t)) ->
  (forall f, In f fs -> okd B (d (payload_ty (f_ty f)))) ->
  forall n s r, (length r < n)%nat -> (length r <= S B)%nat -> ok_out (loop_fields d fs n s r).
Proof.
  intros Hr Hd. induction n as [|n IH]; intros s r Hn HB; [lia|]. cbn [loop_fields].
  apply ok_bind; [apply ok_id|]. intros [id r1] H1. apply decode_id_consumes in H1.
  destruct (fid_value {| fid_value := fid_value id; fid_enc := fid_enc id |} =? END_MARKER) eqn:Ee;
    cbn [fid_value] in Ee.
  - rewrite Ee. exact I.
  - rewrite Ee. destruct (find_field (fid_value id) fs 0) as [[k f]|] eqn:Ef.
    + assert (Hin : In f fs).
      { clear -Ef. revert Ef. generalize 0%nat. induction fs as [|g fs IH]; intros j Ef; [discriminate|].
        cbn [find_field] in Ef. destruct (f_id g =? fid_value id).
        - left. congruence.
        - right. eapply IH. exact Ef. }
      apply ok_bind; [apply Hd; [exact Hin|lia]|]. intros [v r2] H2. apply Hr in H2. apply suffix_length in H2.
      apply IH; lia.
    + apply ok_bind; [apply ok_skip|]. intros r2 H2. apply decode_skip_suffix in H2. apply suffix_length in H2.
      apply IH; lia.
Qed.

Lemma ok_assign k fs s : ok_out (assign k fs s).
Proof.
  revert s. induction fs as [|f fs IH]; intros [|o s]; try exact I. cbn [assign].
  destruct (f_ty f), o; try exact I; (apply ok_bind; [apply IH|intros; exact I]).
Qed.

Lemma ok_body d fs B : (forall t, reader_ok (d t)) ->
  (forall f, In f (fs_list fs) -> okd B (d (payload_ty (f_ty f)))) ->
  okd (S B) (decode_body d fs).
Proof.
  intros Hr Hd r HB. unfold decode_body. destruct (fs_kind fs); try exact I;
    (apply ok_bind; [apply (ok_loop_fields d (fs_list fs) B Hr Hd); [lia|exact HB]|];
     intros [s r1] _; apply ok_bind; [apply ok_assign|intros; exact I]).
Qed.

(** ** Types satisfying a node condition [p] that survives unfolding a definition *)
Variable p : ty -> bool.
Hypothesis Hnd : nd = true -> forall t, p t = true -> node_loops E t = true.
Hypothesis Hnp : np = true -> forall t, p t = true ->
  match t with
  | TNonZero t' => nz_inner t' = true
  | TArray _ _ | TParam _ => False
  | TExt i _ => nth_error E i <> None
  | _ => True
  end.
Hypothesis Hsub : forall i args d, nth_error E i = Some d -> all_ty p (TExt i args) = true ->
  forall t, In t (def_types d) -> all_ty p (subst args t) = true.

Lemma dec_ty_ok B ext : ext_good ext ->
  (forall i args, all_ty p (TExt i args) = true -> okd B (ext i args)) ->
  forall t root, all_ty p t = true -> okd B (dec_ty ext root t).
Proof.
  intros Hext Hok.
  assert (Hr : forall t root, reader_ok (dec_ty ext root t))
    by (intros; apply dec_ty_reader; intros; apply Hext).
  assert (Hc : forall t root, occupies E t = true -> consumes (dec_ty ext root t))
    by (apply dec_ty_consumes; exact Hext).
  pose (P := fun t => forall root, all_ty p t = true -> okd B (dec_ty ext root t)).
  cut (forall t, P t /\ match t with
                       | TVec t' | TSet t' => P t'
                       | TMap k v => P k /\ P v
                       | _ => True
                       end).
  { intros H t. apply (H t). }
  intros t. induction t as [t Hl|t IHt|k v IHk IHv|t IHt|t IHt|t IHt|ts IHts|t n IHt|i args IHa|t IHt] using ty_ind'.
  all: (split; [|first [exact I|exact (proj1 IHt)|split; [exact (proj1 IHk)|exact (proj1 IHv)]|destruct t; try discriminate Hl; exact I]]).
  all: intros root Hp; pose proof (all_ty_node _ _ Hp) as Hn.
  - destruct t; try discriminate Hl; cbn [dec_ty];
      try (apply okd_dmap;
           first [ apply okd_bool | apply okd_u8 | apply okd_i8 | apply okd_uint | apply okd_sint
                 | apply okd_fixed | apply okd_string | apply okd_bytes ]).
    intros r _. cbn. destruct np eqn:Enp; [|reflexivity]. exfalso. exact (Hnp eq_refl _ Hn).
  - cbn [all_ty] in Hp. apply andb_true_iff in Hp as [_ Hp]. cbn [dec_ty]. apply okd_dmap.
    apply okd_vec; [apply (proj1 IHt); exact Hp|apply Hr|]. intros End. apply Hc. apply (Hnd End _ Hn).
  - cbn [all_ty] in Hp. apply andb_true_iff in Hp as [_ Hp]. apply andb_true_iff in Hp as [Hp1 Hp2].
    cbn [dec_ty]. apply okd_dmap. intros r HB. unfold decode_hash_map.
    apply ok_bind; [|intros [] _; exact I].
    apply (okd_vec (dpair (dec_ty ext false k) (dec_ty ext false v)) B); [| | |exact HB].
    + apply okd_dpair; [apply (proj1 IHk); exact Hp1|apply (proj1 IHv); exact Hp2|apply Hr].
    + apply dpair_reader; apply Hr.
    + intros End. apply dpair_consumes; try apply Hr.
      specialize (Hnd End _ Hn). cbn [node_loops] in Hnd. apply orb_true_iff in Hnd as [Ho|Ho]; [left|right]; apply Hc; exact Ho.
  - cbn [all_ty] in Hp. apply andb_true_iff in Hp as [_ Hp]. cbn [dec_ty]. apply okd_dmap.
    intros r HB. unfold decode_hash_set. apply ok_bind; [|intros [] _; exact I].
    apply (okd_vec (dec_ty ext false t) B); [apply (proj1 IHt); exact Hp|apply Hr| |exact HB].
    intros End. apply Hc. apply (Hnd End _ Hn).
  - cbn [all_ty] in Hp. apply andb_true_iff in Hp as [_ Hp]. cbn [dec_ty]. apply okd_dmap.
    apply okd_option. apply (proj1 IHt). exact Hp.
  - cbn [all_ty] in Hp. apply andb_true_iff in Hp as [_ Hp].
    assert (Hnone : nz_inner t = false -> okd B (fun _ : list N => @Panic (val * list N))).
    { intros Hz r _. cbn. destruct np eqn:Enp; [|reflexivity]. exfalso.
      specialize (Hnp eq_refl _ Hn). cbn in Hnp. congruence. }
    pose proof (all_ty_node _ _ Hp) as Hn'.
    cbn [dec_ty]. destruct t; try (apply Hnone; reflexivity); apply okd_dmap.
    + apply okd_nz_uint. apply okd_u8.
    + apply okd_nz_sint. apply okd_i8.
    + apply okd_nz_uint. apply okd_uint.
    + apply okd_nz_sint. apply okd_sint.
    + apply okd_nz_string.
    + apply okd_nz_string.
    + apply okd_nz_bytes.
    + apply okd_nz_bytes.
    + cbn [all_ty] in Hp. apply andb_true_iff in Hp as [_ Hp].
      apply (okd_nonzero_elems (dec_ty ext false t) (fun l => l) B); [apply (proj2 IHt); exact Hp|apply Hr| |auto].
      intros End. apply Hc. apply (Hnd End _ Hn').
    + cbn [all_ty] in Hp. apply andb_true_iff in Hp as [_ Hp]. apply andb_true_iff in Hp as [Hp1 Hp2].
      apply (okd_nonzero_elems (dpair (dec_ty ext false t1) (dec_ty ext false t2)) (map_of val_eqb) B).
      * destruct IHt as (_ & IH1 & IH2).
        apply okd_dpair; [apply IH1; exact Hp1|apply IH2; exact Hp2|apply Hr].
      * apply dpair_reader; apply Hr.
      * intros End. apply dpair_consumes; try apply Hr.
        specialize (Hnd End _ Hn'). cbn [node_loops] in Hnd. apply orb_true_iff in Hnd as [Ho|Ho]; [left|right]; apply Hc; exact Ho.
      * apply map_of_ne.
    + cbn [all_ty] in Hp. apply andb_true_iff in Hp as [_ Hp].
      apply (okd_nonzero_elems (dec_ty ext false t) (set_of val_eqb) B); [apply (proj2 IHt); exact Hp|apply Hr| |apply set_of_ne].
      intros End. apply Hc. apply (Hnd End _ Hn').
  - cbn [all_ty] in Hp. apply andb_true_iff in Hp as [_ Hp]. cbn [dec_ty]. intros r HB.
    apply ok_bind.
    + destruct root; [apply (okd_uint B W64); exact HB|exact I].
    + intros [x r1] H1. assert (Hle : (length r1 <= B)%nat).
      { destruct root; [apply decode_uint_consumes in H1; lia|]. injection H1 as <- <-. exact HB. }
      apply ok_bind; [|intros [] _; exact I].
      apply (okd_seq B (dec_ty ext false)); [|exact Hle]. intros u Hu. split; [|apply Hr].
      rewrite Forall_forall in IHts. rewrite forallb_forall in Hp. apply (proj1 (IHts u Hu)); apply Hp; exact Hu.
  - cbn [all_ty] in Hp. apply andb_true_iff in Hp as [_ Hp]. cbn [dec_ty]. apply okd_dmap.
    apply okd_array; [|apply (proj1 IHt); exact Hp|apply Hr].
    destruct np eqn:Enp; [|reflexivity]. exfalso. exact (Hnp eq_refl _ Hn).
  - apply Hok. exact Hp.
  - cbn [all_ty] in Hp. apply andb_true_iff in Hp as [_ Hp]. cbn [dec_ty]. apply (proj1 IHt). exact Hp.
Qed.

Lemma payload_all t : all_ty p t = true -> all_ty p (payload_ty t) = true.
Proof. destruct t; try (intros H; exact H). cbn [all_ty payload_ty]. intros H. apply andb_true_iff in H as [_ H]. exact H. Qed.

Lemma dec_ext_ok depth : forall i args B, (B < depth)%nat -> all_ty p (TExt i args) = true ->
  okd B (dec_ext E depth i args).
Proof.
  induction depth as [|depth IH]; intros i args B HB Hp r Hr; [lia|]. cbn [dec_ext].
  assert (Hread : forall t, reader_ok (dec_ty (dec_ext E depth) true t)).
  { intros t. apply dec_ty_reader. apply dec_ext_reader. }
  (* payloads start at least one byte later *)
  assert (Hbody : forall fs r, (length r <= B)%nat ->
     (forall f, In f (fs_list fs) -> all_ty p (f_ty f) = true) ->
     ok_out (decode_body (dec_ty (dec_ext E depth) true) fs r)).
  { intros fs r0 Hr0 Hfs. destruct depth as [|depth'].
    - assert (B = 0)%nat by lia. subst B. destruct r0; [|cbn in Hr0; lia].
      unfold decode_body. destruct (fs_kind fs); exact I.
    - apply (ok_body (dec_ty (dec_ext E (S depth')) true) fs depth'); [exact Hread| |lia].
      intros f Hf. apply (dec_ty_ok depth').
      + apply dec_ext_good.
      + intros j a Hj. apply IH; [lia|exact Hj].
      + apply payload_all. apply Hfs. exact Hf. }
  destruct (nth_error E i) as [d|] eqn:Ei.
  2:{ cbn. destruct np eqn:Enp; [|reflexivity]. exfalso.
      apply (Hnp eq_refl _ (all_ty_node _ _ Hp)). exact Ei. }
  pose proof (Hsub i args d Ei Hp) as Hs.
  destruct d as [fs|vars].
  - unfold dmap. apply ok_bind; [|intros [] _; exact I].
    apply Hbody; [exact Hr|]. intros f Hf. unfold inst in Hf. cbn [fs_list] in Hf.
    apply in_map_iff in Hf as (g & <- & Hg). cbn [subst_field f_ty]. apply Hs. cbn [def_types].
    apply in_map. exact Hg.
  - apply ok_bind; [apply (okd_uint (length r) W32); lia|]. intros [id r1] H1.
    apply decode_uint_consumes in H1.
    destruct (find_variant id vars 0) as [[k var]|] eqn:Ef; [|exact I].
    assert (Hin : In var vars).
    { clear -Ef. revert Ef. generalize 0%nat. induction vars as [|g vars IH]; intros j Ef; [discriminate|].
      cbn [find_variant] in Ef. destruct (v_id g =? id); [left; congruence|right; eapply IH; exact Ef]. }
    unfold dmap. apply ok_bind; [|intros [] _; exact I].
    apply Hbody; [lia|]. intros f Hf. unfold inst in Hf. cbn [fs_list] in Hf.
    apply in_map_iff in Hf as (g & <- & Hg). cbn [subst_field f_ty]. apply Hs. cbn [def_types].
    apply in_concat. eexists. split; [apply in_map; exact Hin|]. apply in_map. exact Hg.
Qed.

Lemma decode_ok root t r : all_ty p t = true -> ok_out (decode E root t r).
Proof.
  intros Hp. unfold decode. apply (dec_ty_ok (length r)).
  - apply dec_ext_good.
  - intros i args Hi. apply dec_ext_ok; [lia|exact Hi].
  - exact Hp.
  - lia.
Qed.
End Env.
