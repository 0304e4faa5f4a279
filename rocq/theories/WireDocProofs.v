(** Proofs about the wire format relation of [WireDoc]. *)
From Verif Require Import Base Varint VarintSpec VarintProofs Wire WireProofs Codec CodecSpec CodecProofs
  SchemaSpec Safety Stable Size PrefixOk WireDoc.
Local Open Scope N_scope.

Scheme wire_m := Minimality for wire Sort Prop
  with elems_m := Minimality for elems Sort Prop
  with pairs_m := Minimality for pairs Sort Prop
  with items_m := Minimality for items Sort Prop
  with members_m := Minimality for members Sort Prop.
Combined Scheme wire_mutind from wire_m, elems_m, pairs_m, items_m, members_m.

(** * Base-128 numbers *)
Lemma leb_value_zero l : leb_framed l = true -> leb_value l = 0 -> last l 0 = 0.
Proof.
  induction l as [|b [|c l] IH]; intros Hf Hv; [reflexivity| |].
  - cbn [leb_value last leb_framed] in *. rewrite N.mod_small in Hv by lia. lia.
  - rewrite leb_framed_cons in Hf. apply andb_true_iff in Hf as [_ Hf].
    cbn [leb_value] in Hv. cbn [last]. apply IH; [exact Hf|]. cbn [leb_value]. lia.
Qed.

Lemma leb_unique l : forall m, leb_framed l = true -> leb_canonical l = true ->
  leb_framed m = true -> leb_canonical m = true -> leb_value l = leb_value m -> l = m.
Proof.
  induction l as [|b l IH]; intros m Hl Cl Hm Cm Hv; [discriminate|].
  destruct m as [|c m]; [discriminate|].
  assert (Hlt : forall x y : N, x mod 128 + 128 * leb_value l = y mod 128 + 128 * leb_value m ->
     x mod 128 = y mod 128 /\ leb_value l = leb_value m).
  { intros x y. pose proof (N.mod_lt x 128). pose proof (N.mod_lt y 128). lia. }
  cbn [leb_value] in Hv. apply Hlt in Hv as [Hb Hv]. clear Hlt.
  assert (Hc : forall x y (r : list N), leb_framed (x :: y :: r) = true -> leb_canonical (x :: y :: r) = true ->
     leb_canonical (y :: r) = true /\ leb_value (y :: r) <> 0).
  { intros x y r F C. rewrite leb_framed_cons in F. apply andb_true_iff in F as [_ F].
    assert (last (y :: r) 0 <> 0).
    { unfold leb_canonical in C. change (last (x :: y :: r) 0) with (last (y :: r) 0) in C.
      intros G. rewrite G in C. discriminate. }
    split.
    - destruct r as [|z r]; [reflexivity|]. unfold leb_canonical.
      destruct (N.eqb_spec (last (y :: z :: r) 0) 0); [contradiction|reflexivity].
    - intros G. apply H. apply leb_value_zero; assumption. }
  destruct l as [|x l], m as [|y m].
  - cbn in Hl, Hm. rewrite !N.mod_small in Hb by lia. congruence.
  - exfalso. destruct (Hc _ _ _ Hm Cm) as [_ G]. cbn [leb_value] in Hv. cbn [leb_value] in G. lia.
  - exfalso. destruct (Hc _ _ _ Hl Cl) as [_ G]. cbn [leb_value] in Hv. cbn [leb_value] in G. lia.
  - destruct (Hc _ _ _ Hl Cl) as [Cl' _]. destruct (Hc _ _ _ Hm Cm) as [Cm' _].
    rewrite leb_framed_cons in Hl, Hm. f_equal.
    + assert (b = b mod 128 + 128) by lia. assert (c = c mod 128 + 128) by lia. congruence.
    + apply andb_true_iff in Hl as [_ Hl]. apply andb_true_iff in Hm as [_ Hm]. apply IH; assumption.
Qed.

Lemma leb_of_unique n l m : leb_of n l -> leb_of n m -> l = m.
Proof. intros (H1 & H2 & H3) (G1 & G2 & G3). apply leb_unique; congruence. Qed.

Lemma leb_of_varint w n : n < modulus w -> leb_of n (varint_bytes w n).
Proof. intros H. destruct (varint_bytes_spec w n H) as (H1 & H2 & H3 & _). repeat split; assumption. Qed.

Lemma leb_of_eq w n l : n < modulus w -> leb_of n l -> l = varint_bytes w n.
Proof. intros Hn H. eapply leb_of_unique; [exact H|apply leb_of_varint; exact Hn]. Qed.

Lemma leb_of_exists n : exists l, leb_of n l.
Proof.
  assert (Hb : n < pow128 (S (N.to_nat n))).
  { unfold pow128. rewrite Nat2N.inj_succ, N2Nat.id. apply N.lt_le_trans with (2 ^ N.succ n).
    - rewrite N.pow_succ_r'. pose proof (N.pow_gt_lin_r 2 n). lia.
    - apply N.pow_le_mono_l. lia. }
  destruct (venc_spec _ n Hb ltac:(lia)) as (l & _ & _ & H1 & H2 & H3 & _). exists l. repeat split; assumption.
Qed.

Lemma leb_of_nonempty n l : leb_of n l -> l <> [].
Proof. intros (H & _) ->. discriminate. Qed.

(** * Big-endian numbers *)
Lemma be_bytes_value n : forall l, length l = n -> bytes_ok l = true -> be_bytes n (be_value l) = l /\ be_value l < 256 ^ N.of_nat n.
Proof.
  induction n as [|n IH]; intros [|b l] Hl Hb; try discriminate; [split; [reflexivity|cbn; lia]|].
  cbn [length] in Hl. injection Hl as Hl. unfold bytes_ok in Hb. cbn [forallb] in Hb.
  apply andb_true_iff in Hb as [Hb Hbs]. unfold byte_ok in Hb. destruct (IH l Hl Hbs) as [He Hlt].
  assert (Hp : 256 ^ N.of_nat n <> 0) by (apply N.pow_nonzero; lia).
  cbn [be_value be_bytes]. unfold lenN. rewrite Hl. split.
  - f_equal.
    + rewrite N.div_add_l by exact Hp. rewrite (N.div_small (be_value l)) by exact Hlt.
      rewrite N.add_0_r. apply N.mod_small. lia.
    + rewrite <- He at 2. clear He. 
      assert (G : forall k v c, (k <= n)%nat -> be_bytes k (c * 256 ^ N.of_nat n + v) = be_bytes k v).
      { induction k as [|k IHk]; intros v c Hk; [reflexivity|]. cbn [be_bytes]. f_equal; [|apply IHk; lia].
        replace (N.of_nat n) with (N.of_nat k + 1 + (N.of_nat n - N.of_nat k - 1)) by lia.
        rewrite !N.pow_add_r. set (q := 256 ^ (N.of_nat n - N.of_nat k - 1)).
        replace (c * (256 ^ N.of_nat k * 256 ^ 1 * q) + v) with ((c * q * 256) * 256 ^ N.of_nat k + v) by lia.
        rewrite N.div_add_l by (apply N.pow_nonzero; lia).
        rewrite N.add_comm, N.mod_add by lia. reflexivity. }
      apply G. lia.
  - rewrite Nat2N.inj_succ, N.pow_succ_r'. nia.
Qed.

Lemma be_value_bytes n v : v < 256 ^ N.of_nat n -> be_value (be_bytes n v) = v.
Proof.
  revert v. induction n as [|n IH]; intros v Hv; [cbn in *; lia|].
  cbn [be_bytes be_value]. unfold lenN. rewrite be_bytes_length.
  assert (Hp : 256 ^ N.of_nat n <> 0) by (apply N.pow_nonzero; lia).
  rewrite Nat2N.inj_succ, N.pow_succ_r' in Hv.
  assert (Hd : v / 256 ^ N.of_nat n < 256) by (apply N.div_lt_upper_bound; lia).
  rewrite (N.mod_small _ 256) by exact Hd.
  assert (G : be_bytes n v = be_bytes n (v mod 256 ^ N.of_nat n)).
  { rewrite (N.div_mod' v (256 ^ N.of_nat n)) at 1.
    assert (G : forall k v c, (k <= n)%nat -> be_bytes k (256 ^ N.of_nat n * c + v) = be_bytes k v).
    { induction k as [|k IHk]; intros u c Hk; [reflexivity|]. cbn [be_bytes]. f_equal; [|apply IHk; lia].
      replace (N.of_nat n) with (N.of_nat k + 1 + (N.of_nat n - N.of_nat k - 1)) by lia.
      rewrite !N.pow_add_r. set (q := 256 ^ (N.of_nat n - N.of_nat k - 1)).
      replace ((256 ^ N.of_nat k * 256 ^ 1 * q) * c + u) with ((c * q * 256) * 256 ^ N.of_nat k + u) by lia.
      rewrite N.div_add_l by (apply N.pow_nonzero; lia).
      rewrite N.add_comm, N.mod_add by lia. reflexivity. }
    apply G. lia. }
  rewrite G, IH by (apply N.mod_lt; exact Hp). pose proof (N.div_mod' v (256 ^ N.of_nat n)). lia.
Qed.

Section Unique.
Variable book : bool.
Variable E : env.

Lemma wire_unique :
  (forall q t v l, wire book E q t v l -> forall l', wire book E q t v l' -> l = l')
  /\ (forall t vs l, elems book E t vs l -> forall l', elems book E t vs l' -> l = l')
  /\ (forall k t m l, pairs book E k t m l -> forall l', pairs book E k t m l' -> l = l')
  /\ (forall ts vs l, items book E ts vs l -> forall l', items book E ts vs l' -> l = l')
  /\ (forall fs vs l, members book E fs vs l -> forall l', members book E fs vs l' -> l = l').
Proof.
  apply wire_mutind.
  - intros q b l' H. inversion H; subst. reflexivity.
  - intros q n Hn l' H. inversion H; subst. f_equal. lia.
  - intros q n Hn l' H. inversion H; subst; f_equal; lia.
  - intros q n Hn l' H. inversion H; subst; f_equal; lia.
  - intros q w n l Hn l' H. inversion H; subst. replace n0 with n in * by lia. eapply leb_of_unique; eassumption.
  - intros q w z l Hn l' H. inversion H; subst. eapply leb_of_unique; eassumption.
  - intros q l Hl Hb l' H. inversion H; subst.
    match goal with G : length l' = _, B : bytes_ok l' = true |- _ =>
      rewrite <- (proj1 (be_bytes_value _ l Hl Hb)), <- (proj1 (be_bytes_value _ l' G B)) end. congruence.
  - intros q l Hl Hb l' H. inversion H; subst.
    match goal with G : length l' = _, B : bytes_ok l' = true |- _ =>
      rewrite <- (proj1 (be_bytes_value _ l Hl Hb)), <- (proj1 (be_bytes_value _ l' G B)) end. congruence.
  - intros q t s p Ht Hp l' H. inversion H; subst; try discriminate Ht. f_equal. eapply leb_of_unique; eassumption.
  - intros q t vs p l _ IH Hp l' H. inversion H; subst; try discriminate.
    match goal with G : elems _ _ t vs ?x |- _ => rewrite <- (IH x G) in * end. f_equal. eapply leb_of_unique; eassumption.
  - intros q t vs p l _ IH Hp l' H. inversion H; subst; try discriminate.
    match goal with G : elems _ _ t vs ?x |- _ => rewrite <- (IH x G) in * end. f_equal. eapply leb_of_unique; eassumption.
  - intros q k t m p l _ IH Hp l' H. inversion H; subst; try discriminate.
    match goal with G : pairs _ _ k t m ?x |- _ => rewrite <- (IH x G) in * end. f_equal. eapply leb_of_unique; eassumption.
  - intros q t n vs p l _ IH Hp l' H. inversion H; subst; try discriminate.
    match goal with G : elems _ _ t vs ?x |- _ => rewrite <- (IH x G) in * end. f_equal.
    destruct book; [congruence|]. eapply leb_of_unique; eassumption.
  - intros q ts vs p l _ IH Hp l' H. inversion H; subst; try discriminate.
    match goal with G : items _ _ ts vs ?x |- _ => rewrite <- (IH x G) in * end. f_equal.
    destruct (negb book && q); [|congruence]. eapply leb_of_unique; eassumption.
  - intros q t l' H. inversion H; subst; try discriminate. reflexivity.
  - intros q t v l _ IH l' H. inversion H; subst; try discriminate. f_equal. apply IH. assumption.
  - intros q t v l _ IH l' H. inversion H; subst; try discriminate. apply IH. assumption.
  - intros q t v l _ IH l' H. inversion H; subst; try discriminate. apply IH. assumption.
  - intros q i args fs Hi Hk l' H. inversion H; subst; try discriminate; try reflexivity. congruence.
  - intros q i args fs vs l Hi Hk _ IH l' H. inversion H; subst; try discriminate; [congruence|].
    f_equal. apply IH. congruence.
  - intros q i args vars k v p Hi Hv Hp Hk l' H. inversion H; subst; try discriminate.
    + assert (v0 = v) by congruence. subst v0. eapply leb_of_unique; eassumption.
    + congruence.
  - intros q i args vars k v p vs l Hi Hv Hp Hk _ IH l' H. inversion H; subst; try discriminate.
    + congruence.
    + assert (v0 = v) by congruence. subst v0. f_equal; [eapply leb_of_unique; eassumption|]. f_equal. apply IH. assumption.
  - intros t l' H. inversion H; subst. reflexivity.
  - intros t v vs l m _ IH1 _ IH2 l' H. inversion H; subst. f_equal; auto.
  - intros k t l' H. inversion H; subst. reflexivity.
  - intros k t x v m lk lv l _ IH1 _ IH2 _ IH3 l' H. inversion H; subst. f_equal; auto. f_equal; auto.
  - intros l' H. inversion H; subst. reflexivity.
  - intros t ts v vs l m _ IH1 _ IH2 l' H. inversion H; subst. f_equal; auto.
  - intros l' H. inversion H; subst. reflexivity.
  - intros f fs v vs p l m Ho Hp _ IH1 _ IH2 l' H. inversion H; subst.
    + f_equal; [eapply leb_of_unique; eassumption|]. f_equal; auto.
    + match goal with G : f_ty f = TOption _ |- _ => rewrite G in Ho; discriminate end.
    + match goal with G : f_ty f = TOption _ |- _ => rewrite G in Ho; discriminate end.
  - intros f t fs v vs p l m Ho Hp _ IH1 _ IH2 l' H. inversion H; subst.
    + match goal with G : optional _ = false |- _ => rewrite Ho in G; discriminate end.
    + match goal with G : f_ty f = TOption _ |- _ => assert (t0 = t) by congruence; subst t0 end.
      f_equal; [eapply leb_of_unique; eassumption|]. f_equal; auto.
  - intros f t fs vs m Ho _ IH l' H. inversion H; subst; auto.
    match goal with G : optional _ = false |- _ => rewrite Ho in G; discriminate end.
Qed.
End Unique.

(** * The encoder writes the format *)
Section Encoder.
Variable E : env.
Hypothesis HE : env_ok E = true.
Notation W := (wire false E).

Lemma lengths_nz t v : nz_inner t = true -> lengths_ok E false (TNonZero t) v = lengths_ok E false t v.
Proof. intros H. destruct t; try discriminate H; destruct v; reflexivity. Qed.
Lemma lengths_nz_root root t v : nz_inner t = true -> lengths_ok E root (TNonZero t) v = lengths_ok E false t v.
Proof. intros H. destruct t; try discriminate H; destruct v; reflexivity. Qed.
Lemma lengths_gen root t v : lengths_ok E root (TGen t) v = lengths_ok E false t v.
Proof.
  destruct v; try reflexivity. cbn [lengths_ok core is_tuple]. destruct (core t); try reflexivity.
  rewrite andb_false_r. reflexivity.
Qed.
Lemma encode_nz_false root t v : nz_inner t = true -> encode E root (TNonZero t) v = encode E false t v.
Proof. intros H. destruct t; try discriminate H; destruct v; reflexivity. Qed.

Definition EW (v : val) : Prop := forall t root, typed E t v = true -> lengths_ok E root t v = true ->
  lenN (encode E root t v) < 2 ^ 64 -> W root t v (encode E root t v).
Definition EW2 (v : val) : Prop := EW v /\ forall x, v = VSome x -> EW x.

Lemma ew_elems t vs : Forall EW vs -> forallb (typed E t) vs = true -> forallb (lengths_ok E false t) vs = true ->
  lenN (concat (map (encode E false t) vs)) < 2 ^ 64 -> elems false E t vs (concat (map (encode E false t) vs)).
Proof.
  induction vs as [|v vs IH]; intros HF Ht Hl Hn; [constructor|]. cbn [map concat forallb] in *.
  inversion HF as [|? ? Hv HF']; subst. apply andb_true_iff in Ht as [Ht1 Ht2]. apply andb_true_iff in Hl as [Hl1 Hl2].
  rewrite lenN_app in Hn. constructor; [apply Hv; [assumption|assumption|lia]|apply IH; [assumption..|lia]].
Qed.

Lemma ew_pairs k t m : Forall (fun kv => EW (fst kv) /\ EW (snd kv)) m ->
  forallb (fun kv => typed E k (fst kv) && typed E t (snd kv)) m = true ->
  forallb (fun kv => lengths_ok E false k (fst kv) && lengths_ok E false t (snd kv)) m = true ->
  lenN (concat (map (fun kv => encode E false k (fst kv) ++ encode E false t (snd kv)) m)) < 2 ^ 64 ->
  pairs false E k t m (concat (map (fun kv => encode E false k (fst kv) ++ encode E false t (snd kv)) m)).
Proof.
  induction m as [|[x v] m IH]; intros HF Ht Hl Hn; [constructor|]. cbn [map concat forallb fst snd] in *.
  inversion HF as [|? ? [Hx Hv] HF']; subst. cbn [fst snd] in *.
  apply andb_true_iff in Ht as [Ht1 Ht2]. apply andb_true_iff in Ht1 as [Htx Htv].
  apply andb_true_iff in Hl as [Hl1 Hl2]. apply andb_true_iff in Hl1 as [Hlx Hlv].
  rewrite !lenN_app in Hn. rewrite <- app_assoc.
  constructor; [apply Hx; [assumption..|lia]|apply Hv; [assumption..|lia]|apply IH; [assumption..|lia]].
Qed.

Lemma ew_items ts : forall vs, Forall EW vs -> all2 (typed E) ts vs = true -> lengths_seq (lengths_ok E) ts vs = true ->
  lenN (encode_seq (encode E) ts vs) < 2 ^ 64 -> items false E ts vs (encode_seq (encode E) ts vs).
Proof.
  induction ts as [|t ts IH]; intros [|v vs] HF Ht Hl Hn; cbn [all2] in Ht; try discriminate; [constructor|].
  cbn [encode_seq lengths_seq] in *.
  inversion HF as [|? ? Hv HF']; subst. apply andb_true_iff in Ht as [Ht1 Ht2]. apply andb_true_iff in Hl as [Hl1 Hl2].
  rewrite lenN_app in Hn. constructor; [apply Hv; [assumption|assumption|lia]|apply IH; [assumption..|lia]].
Qed.

Lemma class_fenc t v : typed E t v = true -> fenc_u32 (fenc_of t) = class false t.
Proof.
  intros H. destruct t; try reflexivity. cbn [class].
  destruct (typed_nz E _ _ H) as (Hn & _). destruct t; try discriminate Hn; reflexivity.
Qed.

Lemma id_leb id t v : typed E t v = true -> id < 2 ^ 29 -> leb_of (8 * id + class false t) (encode_id (FieldId id (fenc_of t))).
Proof.
  intros Ht Hid. unfold encode_id, encode_u32, encode_uint.
  assert (G : fid_into_u32 (FieldId id (fenc_of t)) = 8 * id + class false t).
  { rewrite fid_into_arith by exact Hid. rewrite (class_fenc t v Ht). lia. }
  rewrite G. apply leb_of_varint. rewrite <- G. apply fid_into_lt. exact Hid.
Qed.

Lemma ew_members fs : forall vs, Forall EW2 vs -> all2 (typed E) (map f_ty fs) vs = true ->
  Forall (fun f => 0 < f_id f /\ f_id f < 2 ^ 29) fs ->
  lengths_fields (lengths_ok E) fs vs = true ->
  lenN (encode_fields (encode E) fs vs) < 2 ^ 64 -> members false E fs vs (encode_fields (encode E) fs vs).
Proof.
  induction fs as [|f fs IH]; intros [|v vs] HF Ht Hids Hl Hn; cbn [all2 map] in Ht; try discriminate; [constructor|].
  rewrite encode_fields_cons in *. cbn [lengths_fields] in Hl. rewrite lenN_app in Hn.
  inversion HF as [|? ? [Hv Hv2] HF']; subst. inversion Hids as [|? ? [Hf0 Hf29] Hids']; subst.
  apply andb_true_iff in Ht as [Ht1 Ht2]. apply andb_true_iff in Hl as [Hl1 Hl2].
  assert (Htail : members false E fs vs (encode_fields (encode E) fs vs)) by (apply IH; [assumption..|lia]).
  destruct (optional (f_ty f)) eqn:Eo.
  - destruct (f_ty f) as [| | | | | | | | | | | | | | | |t| | | | | |] eqn:Ef; try discriminate Eo.
    destruct (typed_option E t v Ht1) as [->|(x & ->)].
    + unfold encode_one. rewrite Ef. cbn [encode_field_option app]. eapply m_none; eassumption.
    + unfold encode_one in Hn |- *. rewrite Ef in Hn |- *. cbn [encode_field_option] in Hn |- *. rewrite <- app_assoc.
      assert (Htx : typed E t x = true) by exact Ht1. rewrite lenN_app in Hn.
      eapply m_some; [exact Ef|apply (id_leb _ _ x); assumption| |exact Htail].
      apply Hv2; [reflexivity|assumption|assumption|lia].
  - assert (G : encode_one (encode E) f v = encode_id (FieldId (f_id f) (fenc_of (f_ty f))) ++ encode E true (f_ty f) v).
    { unfold encode_one. destruct (f_ty f); try reflexivity. discriminate Eo. }
    rewrite G in *. rewrite lenN_app in Hn. rewrite <- app_assoc.
    eapply m_field; [exact Eo|apply (id_leb _ _ v); assumption| |exact Htail].
    apply Hv; [assumption| |lia]. destruct (f_ty f); try exact Hl1. discriminate Eo.
Qed.

Lemma ew_end : encode_u32 END_MARKER = [0].
Proof. reflexivity. Qed.

Lemma EW_all v : EW2 v.
Proof.
  induction v using val_ind'; (split; [|try discriminate]); try (intros x X; injection X as <-; exact (proj1 IHv));
  intros t; induction t; intros root Hty Hlo Hsz; try discriminate Hty;
  try (destruct (typed_nz E _ _ Hty) as (Hin & _ & Hty'); rewrite encode_nz_false in * by exact Hin;
       rewrite lengths_nz_root in Hlo by exact Hin; apply w_nonzero; apply IHt; assumption);
  try (rewrite encode_gen in *; rewrite typed_gen in Hty; rewrite lengths_gen in Hlo; apply w_gen; apply IHt; assumption);
  cbn [typed head_ok core andb] in Hty; cbn [lengths_ok core] in Hlo; cbn [encode core] in *.
  - unfold encode_bool. apply w_bool.
  - unfold encode_u8. replace (VInt z) with (VInt (Z.of_N (Z.to_N z))) by (f_equal; lia). constructor. lia.
  - unfold encode_i8. destruct (Z.ltb_spec z 0) as [Hz|Hz].
    + replace (VInt z) with (VInt (Z.of_N (Z.to_N (z mod 256)) - 256)).
      * apply w_i8_neg. replace (z mod 256)%Z with (z + 256)%Z by (apply Z.mod_unique with (-1)%Z; lia). lia.
      * f_equal. replace (z mod 256)%Z with (z + 256)%Z by (apply Z.mod_unique with (-1)%Z; lia). lia.
    + rewrite Z.mod_small by lia. replace (VInt z) with (VInt (Z.of_N (Z.to_N z))) by (f_equal; lia).
      apply w_i8_pos. lia.
  - apply unsigned_range in Hty as [Hu Hz]. replace (VInt z) with (VInt (Z.of_N (Z.to_N z))) by (f_equal; lia).
    apply w_uint. apply leb_of_varint. exact Hu.
  - apply in_signed_range in Hty. apply w_sint. unfold encode_sint. rewrite zigzag_encode_spec by exact Hty.
    apply leb_of_varint. apply zigzag_spec_range. exact Hty.
  - unfold encode_f32. rewrite <- (be_value_bytes 4 b) at 1 by (cbn; lia).
    apply w_f32; [apply be_bytes_length|apply be_bytes_ok].
  - unfold encode_f64. rewrite <- (be_value_bytes 8 b) at 1 by (cbn; lia).
    apply w_f64; [apply be_bytes_length|apply be_bytes_ok].
  - apply lenN_encode_bytes in Hsz. apply w_text; [reflexivity|apply leb_of_varint; exact Hsz].
  - apply lenN_encode_bytes in Hsz. apply w_text; [reflexivity|apply leb_of_varint; exact Hsz].
  - apply lenN_encode_bytes in Hsz. apply w_text; [reflexivity|apply leb_of_varint; exact Hsz].
  - apply lenN_encode_bytes in Hsz. apply w_text; [reflexivity|apply leb_of_varint; exact Hsz].
  - apply lenN_encode_bytes in Hsz. apply w_text; [reflexivity|apply leb_of_varint; exact Hsz].
  - apply lenN_encode_bytes in Hsz. apply w_text; [reflexivity|apply leb_of_varint; exact Hsz].
  - assert (H' : Forall EW l) by (eapply Forall_impl; [|exact H]; intros a Ha; exact (proj1 Ha)).
    apply andb_true_iff in Hlo as [Hlo Hs]. apply N.eqb_eq in Hs. unfold encode_vec in *. rewrite Hs in *. rewrite lenN_app in Hsz.
    apply w_vec; [apply ew_elems; [assumption..|lia]|apply leb_of_varint; change (modulus W64) with (2 ^ 64); lia].
  - assert (H' : Forall EW l) by (eapply Forall_impl; [|exact H]; intros a Ha; exact (proj1 Ha)).
    apply andb_true_iff in Hty as [Hty _].
    apply andb_true_iff in Hlo as [Hlo Hs]. apply N.eqb_eq in Hs. unfold encode_vec in *. rewrite Hs in *. rewrite lenN_app in Hsz.
    apply w_set; [apply ew_elems; [assumption..|lia]|apply leb_of_varint; change (modulus W64) with (2 ^ 64); lia].
  - assert (H' : Forall EW l) by (eapply Forall_impl; [|exact H]; intros a Ha; exact (proj1 Ha)).
    apply andb_true_iff in Hlo as [Hlo Hs]. cbn [is_tuple] in *. rewrite andb_true_r in *. destruct root.
    + cbn [negb orb] in Hs. apply N.eqb_eq in Hs. unfold encode_tuple in *. rewrite Hs in *. rewrite lenN_app in Hsz.
      apply w_tuple; [apply ew_items; [assumption..|lia]|cbn [negb andb]; apply leb_of_varint; change (modulus W64) with (2 ^ 64); lia].
    + change (encode_seq (encode E) ts l) with ([] ++ encode_seq (encode E) ts l).
      apply w_tuple; [apply ew_items; assumption|reflexivity].
  - assert (H' : Forall EW l) by (eapply Forall_impl; [|exact H]; intros a Ha; exact (proj1 Ha)).
    apply andb_true_iff in Hty as [_ Hty].
    apply andb_true_iff in Hlo as [Hlo Hs]. apply N.eqb_eq in Hs. unfold encode_vec in *. rewrite Hs in *. rewrite lenN_app in Hsz.
    apply w_array; [apply ew_elems; [assumption..|lia]|apply leb_of_varint; change (modulus W64) with (2 ^ 64); lia].
  - assert (H' : Forall (fun kv => EW (fst kv) /\ EW (snd kv)) l).
    { eapply Forall_impl; [|exact H]. intros a [Ha Hb]. split; [exact (proj1 Ha)|exact (proj1 Hb)]. }
    apply andb_true_iff in Hty as [Hty _].
    apply andb_true_iff in Hlo as [Hlo Hs]. apply N.eqb_eq in Hs. unfold encode_hash_map in *. rewrite Hs in *. rewrite lenN_app in Hsz.
    apply w_map; [apply ew_pairs; [assumption..|lia]|apply leb_of_varint; change (modulus W64) with (2 ^ 64); lia].
  - apply w_none.
  - cbn [encode_option] in *. rewrite lenN_cons in Hsz. apply w_some. apply (proj1 IHv); [assumption..|lia].
  - destruct (nth_error E i) as [[fs|vars]|] eqn:Ei; try discriminate Hty.
    pose proof (env_struct E HE _ _ Ei) as Hok. pose proof (inst_ok args fs Hok) as Hok'.
    destruct (fields_ok_ids _ Hok') as (Hnd & Hids & Hunit). unfold encode_body in *.
    change (fs_kind (inst args fs)) with (fs_kind fs) in *.
    assert (Hgen : fs_kind fs <> KUnit -> lenN (encode_fields (encode E) (fs_list (inst args fs)) vs ++ encode_u32 END_MARKER) < 2 ^ 64 ->
       W root (TExt i args) (VRec vs) (encode_fields (encode E) (fs_list (inst args fs)) vs ++ encode_u32 END_MARKER)).
    { intros Hk Hs. rewrite lenN_app in Hs. rewrite ew_end. eapply w_struct; [exact Ei|exact Hk|].
      apply ew_members; [assumption..|lia]. }
    destruct (fs_kind fs) eqn:Ek; try (apply Hgen; [discriminate|exact Hsz]).
    rewrite (Hunit eq_refl) in Hty. destruct vs; [|discriminate Hty]. eapply w_unit; eassumption.
  - destruct (nth_error E i0) as [[fs|vars]|] eqn:Ei; try discriminate Hty.
    destruct (nth_error vars i) as [var|] eqn:Ev; [|discriminate Hty].
    destruct (env_enum E HE _ _ Ei) as [_ Hvs]. destruct (Hvs var (nth_error_In _ _ Ev)) as [Hvid Hok].
    pose proof (inst_ok args _ Hok) as Hok'.
    destruct (fields_ok_ids _ Hok') as (Hnd & Hids & Hunit). unfold encode_body in *.
    change (fs_kind (inst args (v_fields var))) with (fs_kind (v_fields var)) in *.
    assert (Hp : leb_of (v_id var) (encode_variant_id (v_id var))) by (apply leb_of_varint; exact Hvid).
    assert (Hgen : fs_kind (v_fields var) <> KUnit ->
       lenN (encode_variant_id (v_id var) ++ encode_fields (encode E) (fs_list (inst args (v_fields var))) vs ++ encode_u32 END_MARKER) < 2 ^ 64 ->
       W root (TExt i0 args) (VVar i vs) (encode_variant_id (v_id var) ++ encode_fields (encode E) (fs_list (inst args (v_fields var))) vs ++ encode_u32 END_MARKER)).
    { intros Hk Hs. rewrite !lenN_app in Hs. rewrite ew_end. eapply w_variant; [exact Ei|exact Ev|exact Hp|exact Hk|].
      apply ew_members; [assumption..|lia]. }
    destruct (fs_kind (v_fields var)) eqn:Ek; try (apply Hgen; [discriminate|exact Hsz]).
    rewrite (Hunit eq_refl) in Hty. destruct vs; [|discriminate Hty]. rewrite app_nil_r. eapply w_unit_variant; eassumption.
Qed.

Theorem encode_wire root t v : typed E t v = true -> lengths_ok E root t v = true ->
  lenN (encode E root t v) < 2 ^ 64 -> W root t v (encode E root t v).
Proof. intros. apply (proj1 (EW_all v)); assumption. Qed.
End Encoder.

(** * Schemas whose announced lengths are always right *)
Section Measured.
Variable E : env.
Hypothesis HE : env_ok E = true.
Variable D : list nat.
Hypothesis HM : measured E D = true.
Notation ms t := (measured_type D t = true).

Lemma measured_flat : flat_defs E D = true.
Proof. unfold measured in HM. apply andb_true_iff in HM as [H _]. exact H. Qed.

Lemma measured_ext i args d : nth_error E i = Some d -> ms (TExt i args) ->
  forall t, In t (def_types d) -> ms (subst args t).
Proof.
  intros Hi Ha t Ht. unfold measured_type in *. cbn [all_ty node_measured] in Ha.
  apply andb_true_iff in Ha as [Hfl Ha].
  apply (all_ty_subst (node_measured D) (node_measured D)).
  - apply Forall_forall. intros a Hin. cbn [all_ty node_measured andb]. rewrite forallb_forall in Ha. apply (Ha a Hin).
  - assert (Hs : forall u, flat_type D u = true -> flat_type D (subst args u) = true).
    { intros u Hu. apply flat_subst; assumption. }
    intros u Hu. destruct u; cbn [subst node_measured] in *; try reflexivity; try (apply Hs; exact Hu).
    + apply andb_true_iff in Hu as [H1 H2]. rewrite !Hs by assumption. reflexivity.
    + rewrite forallb_map. eapply forallb_imp; [|exact Hu]. apply Forall_forall. intros x _. apply Hs.
    + rewrite forallb_map. eapply forallb_imp; [|exact Hu]. apply Forall_forall. intros x _. apply Hs.
    + right. reflexivity.
  - unfold measured in HM. apply andb_true_iff in HM as [_ H]. rewrite forallb_forall in H.
    specialize (H d (nth_error_In _ _ Hi)). rewrite forallb_forall in H. apply H. exact Ht.
Qed.

Lemma flat_len t v : typed E t v = true -> flat_type D t = true -> lenN (encode E false t v) < 2 ^ 64 ->
  lenN (encode E false t v) = size E t v.
Proof. intros. apply (size_flat E HE D measured_flat); [assumption..|reflexivity|assumption]. Qed.

Lemma flat_sum t l : forallb (typed E t) l = true -> flat_type D t = true ->
  lenN (concat (map (encode E false t) l)) < 2 ^ 64 ->
  sumN (map (size E t) l) = lenN (concat (map (encode E false t) l)).
Proof.
  intros Ht Hf. induction l as [|x l IH]; intros Hn; [reflexivity|]. cbn [map concat forallb] in *.
  apply andb_true_iff in Ht as [H1 H2]. rewrite lenN_app in *. rewrite sumN_cons, IH by (assumption || lia).
  rewrite flat_len by (assumption || lia). reflexivity.
Qed.

Lemma flat_sum2 k t l : forallb (fun kv => typed E k (fst kv) && typed E t (snd kv)) l = true -> flat_type D k = true -> flat_type D t = true ->
  lenN (concat (map (fun kv => encode E false k (fst kv) ++ encode E false t (snd kv)) l)) < 2 ^ 64 ->
  sumN (map (fun kv => size E k (fst kv) + size E t (snd kv)) l)
  = lenN (concat (map (fun kv => encode E false k (fst kv) ++ encode E false t (snd kv)) l)).
Proof.
  intros Ht Hk Hf. induction l as [|x l IH]; intros Hn; [reflexivity|]. cbn [map concat forallb] in *.
  apply andb_true_iff in Ht as [H1 H2]. apply andb_true_iff in H1 as [H0 H1].
  rewrite !lenN_app in *. rewrite sumN_cons, IH by (assumption || lia).
  rewrite !flat_len by (assumption || lia). lia.
Qed.

Lemma flat_sum3 ts : forall l, all2 (typed E) ts l = true -> forallb (flat_type D) ts = true ->
  lenN (encode_seq (encode E) ts l) < 2 ^ 64 ->
  size_seq (size E) ts l = lenN (encode_seq (encode E) ts l).
Proof.
  induction ts as [|t ts IH]; intros [|v l] Ht Hf Hn; cbn [all2] in Ht; try discriminate; [reflexivity|].
  cbn [encode_seq size_seq forallb] in *. apply andb_true_iff in Ht as [H1 H2]. apply andb_true_iff in Hf as [H3 H4].
  rewrite lenN_app in *. rewrite IH by (assumption || lia). rewrite flat_len by (assumption || lia). reflexivity.
Qed.

Definition ML (v : val) : Prop := forall t root, typed E t v = true -> ms t ->
  lenN (encode E root t v) < 2 ^ 64 -> lengths_ok E root t v = true.
Definition ML2 (v : val) : Prop := ML v /\ forall x, v = VSome x -> ML x.

Lemma ml_elems t l : Forall ML l -> forallb (typed E t) l = true -> ms t ->
  lenN (concat (map (encode E false t) l)) < 2 ^ 64 -> forallb (lengths_ok E false t) l = true.
Proof.
  induction l as [|x l IH]; intros HF Ht Hm Hn; [reflexivity|]. cbn [map concat forallb] in *.
  inversion HF as [|? ? Hx HF']; subst. apply andb_true_iff in Ht as [H1 H2]. rewrite lenN_app in Hn.
  rewrite Hx by (assumption || lia). apply IH; (assumption || lia).
Qed.

Lemma ml_seq ts : forall l, Forall ML l -> all2 (typed E) ts l = true -> forallb (measured_type D) ts = true ->
  lenN (encode_seq (encode E) ts l) < 2 ^ 64 -> lengths_seq (lengths_ok E) ts l = true.
Proof.
  induction ts as [|t ts IH]; intros [|v l] HF Ht Hm Hn; cbn [all2] in Ht; try discriminate; [reflexivity|].
  inversion HF as [|? ? Hx HF']; subst.
  cbn [encode_seq lengths_seq forallb] in *. apply andb_true_iff in Ht as [H1 H2]. apply andb_true_iff in Hm as [H3 H4].
  rewrite lenN_app in *. rewrite Hx by (assumption || lia). apply IH; (assumption || lia).
Qed.

Lemma ms_option t : ms (TOption t) -> ms t.
Proof. intros H. exact H. Qed.

Lemma ml_fields fs : forall vs, Forall ML2 vs -> all2 (typed E) (map f_ty fs) vs = true ->
  (forall f, In f fs -> ms (f_ty f)) ->
  lenN (encode_fields (encode E) fs vs) < 2 ^ 64 -> lengths_fields (lengths_ok E) fs vs = true.
Proof.
  induction fs as [|f fs IH]; intros [|v vs] HF Ht Hm Hn; cbn [all2 map] in Ht; try discriminate; [reflexivity|].
  rewrite encode_fields_cons in Hn. rewrite lenN_app in Hn. cbn [lengths_fields].
  inversion HF as [|? ? [Hx Hx2] HF']; subst. apply andb_true_iff in Ht as [H1 H2].
  apply andb_true_iff. split.
  - pose proof (Hm f (or_introl eq_refl)) as Hmf.
    destruct (optional (f_ty f)) eqn:Eo.
    + destruct (f_ty f) as [| | | | | | | | | | | | | | | |t| | | | | |] eqn:Ef; try discriminate Eo.
      destruct v; try reflexivity. apply Hx2; [reflexivity|exact H1|exact Hmf|].
      unfold encode_one in Hn. rewrite Ef in Hn. cbn [encode_field_option] in Hn. rewrite lenN_app in Hn. lia.
    + assert (G : encode_one (encode E) f v = encode_id (FieldId (f_id f) (fenc_of (f_ty f))) ++ encode E true (f_ty f) v).
      { unfold encode_one. destruct (f_ty f); try reflexivity. discriminate Eo. }
      rewrite G, lenN_app in Hn.
      assert (lengths_ok E true (f_ty f) v = true) by (apply Hx; [assumption|assumption|lia]).
      destruct (f_ty f); try assumption. discriminate Eo.
  - apply IH; [assumption|assumption| |lia]. intros g Hg. apply Hm. right. exact Hg.
Qed.

Lemma ML_all v : ML2 v.
Proof.
  induction v using val_ind'; (split; [|try discriminate]); try (intros x X; injection X as <-; exact (proj1 IHv));
  intros t; induction t; intros root Hty Hm Hsz; try discriminate Hty;
  try (destruct (typed_nz E _ _ Hty) as (Hin & _ & Hty'); rewrite encode_nz_false in * by exact Hin;
       rewrite lengths_nz_root by exact Hin; apply IHt; assumption);
  try (rewrite encode_gen in *; rewrite typed_gen in Hty; rewrite lengths_gen; apply IHt; assumption);
  cbn [typed head_ok core andb] in Hty; cbn [lengths_ok core]; cbn [encode core] in *; try reflexivity.
  - assert (H' : Forall ML l) by (eapply Forall_impl; [|exact H]; intros a Ha; exact (proj1 Ha)).
    unfold measured_type in Hm. cbn [all_ty node_measured] in Hm. apply andb_true_iff in Hm as [Hf Hm].
    unfold encode_vec in Hsz. rewrite lenN_app in Hsz. rewrite ml_elems, flat_sum, N.eqb_refl by (assumption || lia). reflexivity.
  - assert (H' : Forall ML l) by (eapply Forall_impl; [|exact H]; intros a Ha; exact (proj1 Ha)).
    apply andb_true_iff in Hty as [Hty _].
    unfold measured_type in Hm. cbn [all_ty node_measured] in Hm. apply andb_true_iff in Hm as [Hf Hm].
    unfold encode_vec in Hsz. rewrite lenN_app in Hsz. rewrite ml_elems, flat_sum, N.eqb_refl by (assumption || lia). reflexivity.
  - assert (H' : Forall ML l) by (eapply Forall_impl; [|exact H]; intros a Ha; exact (proj1 Ha)).
    unfold measured_type in Hm. cbn [all_ty node_measured] in Hm. apply andb_true_iff in Hm as [Hf Hm].
    cbn [is_tuple] in *. rewrite andb_true_r in *. destruct root.
    + unfold encode_tuple in Hsz. rewrite lenN_app in Hsz.
      rewrite ml_seq, flat_sum3, N.eqb_refl by (assumption || lia). reflexivity.
    + rewrite ml_seq by assumption. reflexivity.
  - assert (H' : Forall ML l) by (eapply Forall_impl; [|exact H]; intros a Ha; exact (proj1 Ha)).
    apply andb_true_iff in Hty as [_ Hty].
    unfold measured_type in Hm. cbn [all_ty node_measured] in Hm. apply andb_true_iff in Hm as [Hf Hm].
    unfold encode_vec in Hsz. rewrite lenN_app in Hsz. rewrite ml_elems, flat_sum, N.eqb_refl by (assumption || lia). reflexivity.
  - apply andb_true_iff in Hty as [Hty _].
    unfold measured_type in Hm. cbn [all_ty node_measured] in Hm. apply andb_true_iff in Hm as [Hf Hm].
    apply andb_true_iff in Hf as [Hf1 Hf2]. apply andb_true_iff in Hm as [Hm1 Hm2].
    unfold encode_hash_map in Hsz. rewrite lenN_app in Hsz. rewrite flat_sum2, N.eqb_refl by (assumption || lia).
    rewrite andb_true_r. apply forallb_forall. intros kv Hin.
    rewrite Forall_forall in H. destruct (H kv Hin) as [[Hk _] [Hv _]].
    pose proof (forallb_In _ _ _ Hty Hin) as Ht. cbn beta in Ht. apply andb_true_iff in Ht as [Ht1 Ht2].
    pose proof (concat_in_le (fun kv => encode E false t1 (fst kv) ++ encode E false t2 (snd kv)) kv l Hin) as Hle.
    cbn beta in Hle. rewrite lenN_app in Hle.
    rewrite Hk, Hv by (assumption || lia). reflexivity.
  - cbn [encode_option] in Hsz. rewrite lenN_cons in Hsz. apply (proj1 IHv); [assumption|exact Hm|lia].
  - destruct (nth_error E i) as [[fs|vars]|] eqn:Ei; try discriminate Hty.
    pose proof (env_struct E HE _ _ Ei) as Hok. pose proof (inst_ok args fs Hok) as Hok'.
    destruct (fields_ok_ids _ Hok') as (Hnd & Hids & Hunit). unfold encode_body in Hsz.
    change (fs_kind (inst args fs)) with (fs_kind fs) in *.
    destruct (fs_kind fs) eqn:Ek.
    3: { rewrite (Hunit eq_refl) in Hty |- *. destruct vs; [|discriminate Hty]. reflexivity. }
    all: rewrite lenN_app in Hsz; apply ml_fields; [assumption|assumption| |lia];
      intros f Hf; cbn [inst fs_list] in Hf; apply in_map_iff in Hf as (g & <- & Hg); cbn [subst_field f_ty];
      eapply measured_ext; [exact Ei|exact Hm|]; cbn [def_types]; apply in_map; exact Hg.
  - destruct (nth_error E i0) as [[fs|vars]|] eqn:Ei; try discriminate Hty.
    destruct (nth_error vars i) as [var|] eqn:Ev; [|discriminate Hty].
    destruct (env_enum E HE _ _ Ei) as [_ Hvs]. destruct (Hvs var (nth_error_In _ _ Ev)) as [Hvid Hok].
    pose proof (inst_ok args _ Hok) as Hok'.
    destruct (fields_ok_ids _ Hok') as (Hnd & Hids & Hunit). unfold encode_body in Hsz.
    change (fs_kind (inst args (v_fields var))) with (fs_kind (v_fields var)) in *.
    destruct (fs_kind (v_fields var)) eqn:Ek.
    3: { rewrite (Hunit eq_refl) in Hty |- *. destruct vs; [|discriminate Hty]. reflexivity. }
    all: rewrite !lenN_app in Hsz; apply ml_fields; [assumption|assumption| |lia];
      intros f Hf; cbn [inst fs_list] in Hf; apply in_map_iff in Hf as (g & <- & Hg); cbn [subst_field f_ty];
      eapply measured_ext; [exact Ei|exact Hm|]; cbn [def_types]; apply in_concat;
      exists (map f_ty (fs_list (v_fields var))); (split; [apply in_map_iff; exists var; split; [reflexivity|eapply nth_error_In; exact Ev]|apply in_map; exact Hg]).
Qed.

Theorem measured_lengths root t v : typed E t v = true -> ms t -> lenN (encode E root t v) < 2 ^ 64 -> lengths_ok E root t v = true.
Proof. intros. apply (proj1 (ML_all v)); assumption. Qed.
End Measured.
