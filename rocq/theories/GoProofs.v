(** Proofs about the Go back end's model. *)
From Verif Require Import Base Varint Wire WireProofs Codec CodecSpec CodecProofs Safety Go GoSpec.
Local Open Scope N_scope.

(** * Reading *)
Section Read.
Variable R : go_buf.
Variable E : env.
Hypothesis HR : reads_like_rust R.

Lemma plain_dec2 gext rext t : plain t = true ->
  (forall root, go_dec_ty R gext t = dec_ty rext root t)
  /\ match t with
     | TVec u | TSet u => go_dec_ty R gext u = dec_ty rext false u
     | TMap k v => go_dec_ty R gext k = dec_ty rext false k /\ go_dec_ty R gext v = dec_ty rext false v
     | _ => True
     end.
Proof.
  induction t; intros H; try discriminate H;
    try (split; [|exact I]; intros root; cbn [go_dec_ty]; rewrite (rl_prim R HR) by reflexivity; reflexivity).
  - apply IHt in H as [H _]. split; [|apply H]. intros root. cbn [go_dec_ty dec_ty].
    rewrite (rl_vec R HR), (H false). reflexivity.
  - cbn [plain] in H. apply andb_true_iff in H as [H1 H2]. apply IHt1 in H1 as [H1 _]. apply IHt2 in H2 as [H2 _].
    split; [|split; [apply H1|apply H2]]. intros root. cbn [go_dec_ty dec_ty].
    rewrite (rl_map R HR), (H1 false), (H2 false). reflexivity.
  - apply IHt in H as [H _]. split; [|apply H]. intros root. cbn [go_dec_ty dec_ty].
    rewrite (rl_set R HR), (H false). reflexivity.
  - apply IHt in H as [H _]. split; [|exact I]. intros root. cbn [go_dec_ty dec_ty].
    rewrite (rl_option R HR), (H false). reflexivity.
  - cbn [plain] in H. apply andb_true_iff in H as [H1 H2]. apply IHt in H2 as [_ H2]. split; [|exact I]. intros root.
    destruct t; try discriminate H1; cbn [go_dec_ty];
      try (rewrite (rl_nz_prim R HR) by reflexivity; reflexivity).
    + rewrite (rl_nz_vec R HR), H2. reflexivity.
    + destruct H2 as [Hk Hv]. rewrite (rl_nz_map R HR), Hk, Hv. reflexivity.
    + rewrite (rl_nz_set R HR), H2. reflexivity.
  - apply IHt in H as [H _]. split; [|exact I]. intros root. cbn [go_dec_ty dec_ty].
    rewrite (rl_array R HR), (H false). reflexivity.
Qed.

Lemma plain_dec gext rext t root : plain t = true -> go_dec_ty R gext t = dec_ty rext root t.
Proof. intros H. apply (plain_dec2 gext rext t H). Qed.

(** A field both back ends treat alike, or an absent optional one. *)
Definition alike (f : field) (v : val) : Prop := plain_field (f_ty f) = true \/ slot_of f v = None.

Lemma alike_payload f v x : alike f v -> slot_of f v = Some x ->
  v = x /\ payload_ty (f_ty f) = f_ty f /\ plain (f_ty f) = true.
Proof.
  intros [H|H] Hs; [|congruence]. unfold slot_of in Hs. unfold payload_ty.
  destruct (f_ty f); try discriminate H; injection Hs as <-; repeat split; exact H.
Qed.

Lemma go_loop_encode (d : ty -> dec val) :
  forall fs vs pre done fuel,
  NoDup (map f_id (pre ++ fs)) ->
  Forall (fun f => 0 < f_id f /\ f_id f < 2 ^ 29) (pre ++ fs) ->
  length done = length pre ->
  length vs = length fs ->
  (forall f v, In (f, v) (combine fs vs) -> alike f v) ->
  (forall f v x r, In (f, v) (combine fs vs) -> slot_of f v = Some x ->
     d (f_ty f) (encode E true (f_ty f) x ++ r) = Ok (x, r)) ->
  (length (encode_fields (encode E) fs vs ++ encode_u32 END_MARKER) <= fuel)%nat ->
  go_loop R d (pre ++ fs) fuel (done ++ map (fun _ => None) fs)
    (encode_fields (encode E) fs vs ++ encode_u32 END_MARKER)
  = Ok (done ++ slots_of fs vs, []).
Proof.
  induction fs as [|f fs IH]; intros vs pre done fuel Hnd Hids Hdone Hlen Hal Hd Hfuel.
  - destruct vs; [|discriminate]. cbn [encode_fields app slots_of map] in *.
    destruct fuel as [|fuel]; [change (length (encode_u32 END_MARKER)) with 1%nat in Hfuel; lia|].
    change (encode_u32 END_MARKER) with (encode_id (FieldId 0 EVarint) ++ []).
    cbn [go_loop]. rewrite (rl_id R HR), decode_id_encode by reflexivity. cbn [bind fid_value].
    assert (Hz : find_field 0 (pre ++ []) 0 = None).
    { rewrite app_nil_r in *. clear - Hids. generalize 0%nat. induction pre as [|g pre IH]; intros k; [reflexivity|].
      inversion Hids as [|? ? [Hg _] Hids']; subst. cbn [find_field]. replace (f_id g =? 0) with false by lia. apply IH. exact Hids'. }
    change (encode_id (FieldId 0 EVarint) ++ []) with [0]. cbv iota.
    rewrite Hz. rewrite app_nil_r. destruct fuel; reflexivity.
  - destruct vs as [|v vs]; [discriminate|]. cbn [length] in Hlen.
    rewrite encode_fields_cons, <- app_assoc in *.
    assert (Hf : 0 < f_id f /\ f_id f < 2 ^ 29).
    { rewrite Forall_forall in Hids. apply Hids. apply in_or_app. right. left. reflexivity. }
    destruct Hf as [Hf0 Hf29].
    cbn [map slots_of].
    assert (Hpre : pre ++ f :: fs = (pre ++ [f]) ++ fs) by (rewrite <- app_assoc; reflexivity).
    pose proof (Hal f v (or_introl eq_refl)) as Ha.
    assert (Hal' : forall g w, In (g, w) (combine fs vs) -> alike g w) by (intros g w Hin; apply Hal; right; exact Hin).
    destruct (encode_one_cases (encode E) f v) as [[Hs He]|(x & Hs & He)]; rewrite He in *; rewrite Hs.
    + cbn [app] in *.
      replace (done ++ None :: map (fun _ => None) fs)
        with ((done ++ [None]) ++ map (fun _ : field => @None val) fs) by (rewrite <- app_assoc; reflexivity).
      rewrite Hpre. rewrite (IH vs (pre ++ [f])).
      * rewrite <- app_assoc. reflexivity.
      * rewrite <- Hpre. exact Hnd.
      * rewrite <- Hpre. exact Hids.
      * rewrite !app_length. cbn. lia.
      * lia.
      * exact Hal'.
      * intros g w y r Hin. apply Hd. right. exact Hin.
      * exact Hfuel.
    + destruct (alike_payload f v x Ha Hs) as (-> & Hp & Hpl). rewrite Hp in *.
      rewrite <- app_assoc in Hfuel |- *.
      pose proof (fid_enc_len_pos (FieldId (f_id f) (fenc_of (f_ty f))) Hf29) as Hpos.
      rewrite !app_length in Hfuel.
      set (tl := encode E true (f_ty f) x ++ encode_fields (encode E) fs vs ++ encode_u32 END_MARKER) in *.
      destruct fuel as [|fuel]; [lia|].
      pose proof (rl_id R HR (encode_id (FieldId (f_id f) (fenc_of (f_ty f))) ++ tl)) as Hid.
      rewrite decode_id_encode in Hid by exact Hf29. cbn [bind fid_value] in Hid.
      destruct (encode_id (FieldId (f_id f) (fenc_of (f_ty f))) ++ tl) as [|b0 bs0] eqn:Eb.
      { destruct (encode_id (FieldId (f_id f) (fenc_of (f_ty f)))); [cbn in Hpos; lia|discriminate]. }
      cbn [go_loop]. rewrite Hid. cbn [bind].
      rewrite (find_field_app (f_id f) pre f fs 0 Hnd eq_refl). cbn [Nat.add].
      unfold tl. rewrite (Hd f x x); [|left; reflexivity|exact Hs].
      cbn [bind]. rewrite <- Hdone, set_slot_app.
      replace (done ++ Some x :: map (fun _ => None) fs)
        with ((done ++ [Some x]) ++ map (fun _ : field => @None val) fs) by (rewrite <- app_assoc; reflexivity).
      rewrite Hpre. rewrite (IH vs (pre ++ [f])).
      * rewrite <- app_assoc. reflexivity.
      * rewrite <- Hpre. exact Hnd.
      * rewrite <- Hpre. exact Hids.
      * rewrite !app_length. cbn. lia.
      * lia.
      * exact Hal'.
      * intros g w y r Hin. apply Hd. right. exact Hin.
      * rewrite !app_length. lia.
Qed.
End Read.

Lemma go_found_all kind fs : forall vs, length vs = length fs ->
  (forall f v, In (f, v) (combine fs vs) -> plain_field (f_ty f) = true) ->
  go_found kind fs (slots_of fs vs) = Ok vs.
Proof.
  induction fs as [|f fs IH]; intros [|v vs] Hl Hp; try discriminate Hl; [reflexivity|].
  pose proof (Hp f v (or_introl eq_refl)) as Hf. cbn [slots_of go_found].
  assert (Hs : slot_of f v = Some v) by (unfold slot_of; destruct (f_ty f); try discriminate Hf; reflexivity).
  rewrite Hs, IH; [reflexivity|cbn in Hl; lia|]. intros g w Hin. eapply Hp. right. exact Hin.
Qed.

Lemma go_found_none kind fs : forall vs, length vs = length fs ->
  (exists f v, In (f, v) (combine fs vs) /\ slot_of f v = None) ->
  exists f, In f fs /\ go_found kind fs (slots_of fs vs)
    = Err (MissingField (f_id f) (match kind with KNamed => Some (f_name f) | _ => None end)).
Proof.
  induction fs as [|f fs IH]; intros [|v vs] Hl (g & w & Hin & Hs); try discriminate Hl; [contradiction|].
  cbn [slots_of go_found]. destruct (slot_of f v) as [x|] eqn:Ef.
  - destruct Hin as [Hin|Hin]; [congruence|].
    destruct (IH vs) as (h & Hh & ->); [cbn in Hl; lia|exists g, w; split; assumption|].
    exists h. split; [right; exact Hh|reflexivity].
  - exists f. split; [left; reflexivity|reflexivity].
Qed.

(** * The loop only ends at the end of the input *)
Lemma go_loop_end R d fs : forall fuel s r s' r', go_loop R d fs fuel s r = Ok (s', r') -> r' = [].
Proof.
  induction fuel as [|fuel IH]; intros s r s' r' H; (destruct r as [|b r]; [cbn in H; congruence|]); [discriminate|].
  cbn [go_loop] in H. apply bind_ok in H as ([id r1] & _ & H).
  destruct (find_field id fs 0) as [[k f]|].
  - apply bind_ok in H as ([v r2] & _ & H). eapply IH. exact H.
  - eapply IH. exact H.
Qed.

Lemma go_body_end R fuel d fs r vs r' : go_dec_body R fuel d fs r = Ok (vs, r') -> r' = [].
Proof.
  intros H. apply bind_ok in H as ([s r1] & H1 & H). apply bind_ok in H as (xs & _ & H).
  apply go_loop_end in H1. congruence.
Qed.

Lemma go_ext_end R E fuel i args r v r' : go_ext R E fuel i args r = Ok (v, r') -> r' = [].
Proof.
  destruct fuel as [|fuel]; [discriminate|]. cbn [go_ext]. destruct (nth_error E i) as [[fs|vars]|]; try discriminate.
  intros H. apply bind_ok in H as ([xs r1] & H1 & H). apply go_body_end in H1. congruence.
Qed.

(** * Writing *)
Section Write.
Variable R : go_buf.
Variable E : env.
Hypothesis HR : writes_like_rust R.

Lemma forall2_appends (f : val -> writer) (g : val -> list N) l :
  (forall x, In x l -> appends (f x) (g x)) -> Forall2 appends (map f l) (map g l).
Proof. induction l as [|x l IH]; intros H; constructor; [apply H; left; reflexivity|apply IH; intros y Hy; apply H; right; exact Hy]. Qed.

Lemma prim_enc t v : go_prim t = true -> encode E false t v = encode [] false t v.
Proof. destruct t; intros H; try discriminate H; destruct v; reflexivity. Qed.

Lemma prim_appends t v : go_prim t = true -> appends (go_enc R E t v) (encode E false t v).
Proof.
  intros H w. rewrite (prim_enc t v H), <- (wl_prim R HR) by exact H.
  destruct t; try discriminate H; destruct v; reflexivity.
Qed.

Lemma seq_appends k t l : (forall x, In x l -> appends (go_enc R E t x) (encode E false t x)) ->
  sumN (map (size E t) l) = lenN (concat (map (encode E false t) l)) ->
  appends (gb_seq R k (map (go_enc R E t) l)) (encode_vec (size E t) (encode E false t) l).
Proof.
  intros H Hs. unfold encode_vec. rewrite Hs. apply (wl_seq R HR). apply forall2_appends. exact H.
Qed.

Lemma map_appends tk tv l :
  (forall k v, In (k, v) l -> appends (go_enc R E tk k) (encode E false tk k) /\ appends (go_enc R E tv v) (encode E false tv v)) ->
  sumN (map (fun kv => size E tk (fst kv) + size E tv (snd kv)) l)
    = lenN (concat (map (fun kv => encode E false tk (fst kv) ++ encode E false tv (snd kv)) l)) ->
  appends (gb_map R (map (fun kv => (go_enc R E tk (fst kv), go_enc R E tv (snd kv))) l))
    (encode_hash_map (size E tk) (size E tv) (encode E false tk) (encode E false tv) l).
Proof.
  intros H Hs. unfold encode_hash_map. rewrite Hs.
  pose proof (wl_map R HR (map (fun kv => (go_enc R E tk (fst kv), go_enc R E tv (snd kv))) l)
    (map (fun kv => (encode E false tk (fst kv), encode E false tv (snd kv))) l)) as X.
  rewrite map_map in X. cbn [fst snd] in X. apply X. clear X Hs.
  induction l as [|[k v] l IH]; constructor.
  - cbn [fst snd]. apply H. left. reflexivity.
  - apply IH. intros k' v' Hin. apply H. right. exact Hin.
Qed.

Lemma nz_go t v : go_nz t = true -> go_enc R E (TNonZero t) v = go_enc R E t v.
Proof. destruct t; intros H; try discriminate H; destruct v; reflexivity. Qed.
Lemma nz_encode t v root : go_nz t = true -> encode E root (TNonZero t) v = encode E false t v.
Proof. destruct t; intros H; try discriminate H; destruct v; reflexivity. Qed.
Lemma nz_typed t v : go_nz t = true -> typed E (TNonZero t) v = true -> typed E t v = true.
Proof.
  intros H Ht. destruct t; try discriminate H; destruct v; cbn in Ht |- *; try (rewrite ?andb_false_r in Ht; discriminate Ht);
    repeat (apply andb_true_iff in Ht as [? Ht]); try exact Ht; try (apply andb_true_iff; split; assumption).
Qed.
Lemma nz_prefix t v : go_nz t = true -> prefix_ok E (TNonZero t) v = prefix_ok E t v.
Proof. destruct t; intros H; try discriminate H; destruct v; reflexivity. Qed.

Lemma seq_case k t l :
  (forall v, typed E t v = true -> prefix_ok E t v = true -> appends (go_enc R E t v) (encode E false t v)) ->
  forallb (typed E t) l = true ->
  forallb (prefix_ok E t) l && forallb (fun x => nonempty (encode E false t x)) l
    && (sumN (map (size E t) l) =? lenN (concat (map (encode E false t) l))) = true ->
  appends (gb_seq R k (map (go_enc R E t) l)) (encode_vec (size E t) (encode E false t) l).
Proof.
  intros IH Ht Hp. apply andb_true_iff in Hp as [Hp Hs]. apply andb_true_iff in Hp as [Hp _].
  rewrite forallb_forall in Ht, Hp. apply seq_appends; [|apply N.eqb_eq; exact Hs].
  intros x Hx. apply IH; [apply Ht|apply Hp]; exact Hx.
Qed.

Lemma plain_appends t : plain t = true -> forall v, typed E t v = true -> prefix_ok E t v = true ->
  appends (go_enc R E t v) (encode E false t v).
Proof.
  induction t; intros H u Ht Hp; try discriminate H; try (apply prim_appends; reflexivity).
  - destruct u; try discriminate Ht. apply (seq_case SqVec t l (IHt H) Ht Hp).
  - cbn [plain] in H. apply andb_true_iff in H as [H1 H2]. destruct u; try discriminate Ht.
    cbn [typed core head_ok andb] in Ht. apply andb_true_iff in Ht as [Ht _].
    cbn [prefix_ok core] in Hp. apply andb_true_iff in Hp as [Hp Hs]. apply andb_true_iff in Hp as [Hp _].
    rewrite forallb_forall in Ht, Hp.
    apply (map_appends t1 t2 l); [|apply N.eqb_eq; exact Hs].
    intros k v Hin. specialize (Ht _ Hin). specialize (Hp _ Hin). apply andb_true_iff in Ht as [Ht1 Ht2].
    apply andb_true_iff in Hp as [Hp1 Hp2]. split; [apply IHt1|apply IHt2]; assumption.
  - destruct u; try discriminate Ht. cbn [typed core head_ok andb] in Ht. apply andb_true_iff in Ht as [Ht _].
    apply (seq_case SqSet t l (IHt H) Ht Hp).
  - destruct u; try discriminate Ht.
    + apply (wl_none R HR).
    + apply (wl_some R HR). apply IHt; assumption.
  - cbn [plain] in H. apply andb_true_iff in H as [H1 H2].
    rewrite nz_go, nz_encode by exact H1. rewrite nz_prefix in Hp by exact H1. apply nz_typed in Ht; [|exact H1]. apply IHt; assumption.
  - destruct u; try discriminate Ht. cbn [typed core head_ok andb] in Ht. apply andb_true_iff in Ht as [_ Ht].
    apply (seq_case (SqArray n) t l (IHt H) Ht Hp).
Qed.

Lemma plain_root t v root : plain t = true -> encode E root t v = encode E false t v.
Proof. destruct t; intros H; try discriminate H; destruct v; cbn; rewrite ?andb_false_r; try reflexivity;
  destruct t; try discriminate H; cbn; rewrite ?andb_false_r; reflexivity. Qed.
End Write.
