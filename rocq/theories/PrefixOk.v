(** Schema-level condition [flat_elements] implies that all announced lengths are right. *)
From Verif Require Import Base Varint VarintSpec VarintProofs Wire WireProofs Codec CodecSpec CodecProofs SchemaSpec Safety Stable Size.
Local Open Scope N_scope.

Section Main.
Variable E : env.
Hypothesis HE : env_ok E = true.
Variable D : list nat.
Hypothesis HF : flat_elements E D = true.

Lemma HD : flat_defs E D = true.
Proof. unfold flat_elements in HF. apply andb_true_iff in HF as [H _]. exact H. Qed.

Notation rt t := (flat_elements_type E D t = true).

Lemma forallb_and {A} (p q : A -> bool) l : forallb (fun x => p x && q x) l = forallb p l && forallb q l.
Proof. induction l as [|x l IH]; [reflexivity|]. cbn. rewrite IH. destruct (p x), (q x), (forallb p l), (forallb q l); reflexivity. Qed.

Lemma rt_ext i args d : nth_error E i = Some d -> rt (TExt i args) ->
  forall t, In t (def_types d) -> rt (subst args t).
Proof.
  intros Hi Ha t Ht. unfold flat_elements_type in *. cbn [all_ty node_rt] in Ha.
  apply andb_true_iff in Ha as [Hn Ha]. rewrite forallb_and in Hn. apply andb_true_iff in Hn as [Hfl Hoc].
  apply (all_ty_subst (node_rt E D) (node_rt E D)).
  - apply Forall_forall. intros a Hin. cbn [all_ty node_rt andb]. rewrite forallb_forall in Ha. apply (Ha a Hin).
  - assert (Hs : forall u, flat_type D u && occupies E u = true -> flat_type D (subst args u) && occupies E (subst args u) = true).
    { intros u Hu. apply andb_true_iff in Hu as [H1 H2]. rewrite flat_subst, occupies_subst; auto. }
    intros u Hu. destruct u; cbn [subst node_rt] in *; try reflexivity; try (apply Hs; exact Hu).
    + apply andb_true_iff in Hu as [Hu Ho]. apply andb_true_iff in Hu as [H1 H2].
      rewrite !flat_subst by assumption. cbn [andb]. apply orb_true_iff in Ho as [Ho|Ho]; apply orb_true_iff; [left|right];
        apply occupies_subst; assumption.
    + rewrite forallb_map. eapply forallb_imp; [|exact Hu]. apply Forall_forall. intros x _. apply Hs.
    + right. reflexivity.
  - unfold flat_elements in HF. apply andb_true_iff in HF as [_ H]. rewrite forallb_forall in H.
    specialize (H d (nth_error_In _ _ Hi)). rewrite forallb_forall in H. apply H. exact Ht.
Qed.

Definition PO (v : val) : Prop := forall t root, typed E t v = true -> rt t ->
  lenN (encode E root t v) < 2 ^ 64 ->
  prefix_ok E t v = true /\ (0 <= gap E root t v)%Z /\ (occupies E t = true -> encode E root t v <> []).
Definition PO2 (v : val) : Prop := PO v /\ forall x, v = VSome x -> PO x.

Lemma po_elems t l : Forall PO l -> forallb (typed E t) l = true ->
  flat_type D t = true -> occupies E t = true -> rt t ->
  lenN (encode_vec (size E t) (encode E false t) l) < 2 ^ 64 ->
  forallb (prefix_ok E t) l && forallb (fun x => nonempty (encode E false t x)) l
    && (sumN (map (size E t) l) =? lenN (concat (map (encode E false t) l))) = true
  /\ (0 <= prefix_gap (sumN (map (size E t) l)) (lenN l) + sumZ (map (gap E false t) l))%Z
  /\ encode_vec (size E t) (encode E false t) l <> [].
Proof.
  intros HPO Hty Hfl Hoc Hrt Hlen. unfold encode_vec in *. rewrite lenN_app in Hlen.
  assert (Hin : forall x, In x l -> lenN (encode E false t x) < 2 ^ 64).
  { intros x Hx. pose proof (concat_in_le (encode E false t) x l Hx). lia. }
  assert (Hpx : forall x, In x l -> prefix_ok E t x = true /\ encode E false t x <> []).
  { intros x Hx. rewrite Forall_forall in HPO. destruct (HPO x Hx t false) as (H1 & _ & H3); auto.
    apply (forallb_In _ _ _ Hty Hx). }
  assert (Hg : sumZ (map (gap E false t) l) = 0%Z).
  { clear -HE HF Hty Hfl Hin. induction l as [|x l IH]; [reflexivity|]. cbn [map]. rewrite sumZ_cons.
    cbn [forallb] in Hty. apply andb_true_iff in Hty as [Hx Hty].
    rewrite IH; [|exact Hty|intros y Hy; apply Hin; right; exact Hy].
    rewrite (proj1 (gap_flat_all E HE D HD x) t false Hx Hfl); [reflexivity|apply Hin; left; reflexivity|reflexivity]. }
  assert (HSG : Forall (SG E) l) by (apply Forall_forall; intros x _; apply (proj1 (SG_all E HE x))).
  pose proof (sg_elems E t l HSG Hty ltac:(lia)) as G. rewrite Hg in *.
  assert (Hsum : sumN (map (size E t) l) = lenN (concat (map (encode E false t) l))) by lia.
  split; [|split].
  - apply andb_true_iff. split; [apply andb_true_iff; split|].
    + apply forallb_forall. intros x Hx. apply Hpx. exact Hx.
    + apply forallb_forall. intros x Hx. destruct (Hpx x Hx) as [_ Hne]. destruct (encode E false t x); [congruence|reflexivity].
    + apply N.eqb_eq. exact Hsum.
  - unfold prefix_gap. rewrite Hsum. unfold encode_u64. rewrite uint_len by (unfold modulus, bits; lia).
    assert (Hc : (length l <= length (concat (map (encode E false t) l)))%nat).
    { apply concat_len_ge. intros x Hx. apply Hpx. exact Hx. }
    assert (size_uint W64 (lenN l) <= size_uint W64 (lenN (concat (map (encode E false t) l)))).
    { apply size_uint_mono; [unfold lenN; lia|unfold modulus, bits; lia]. }
    lia.
  - intros Hnil. apply app_eq_nil in Hnil as [Hnil _].
    apply (encode_uint_nonempty W64 (sumN (map (size E t) l))); [rewrite Hsum; unfold modulus, bits; lia|exact Hnil].
Qed.

Lemma po_seq ts : forall l, Forall PO l -> all2 (typed E) ts l = true -> forallb (all_ty (node_rt E D)) ts = true ->
  lenN (encode_seq (encode E) ts l) < 2 ^ 64 ->
  all2 (prefix_ok E) ts l = true /\ (0 <= gap_seq (gap E) ts l)%Z
  /\ (existsb (occupies E) ts = true -> encode_seq (encode E) ts l <> []).
Proof.
  induction ts as [|t ts IH]; intros [|v l] Hf Ht Hrt Hlen; cbn [all2] in Ht; try discriminate.
  - split; [reflexivity|]. split; [apply Z.le_refl|discriminate].
  - inversion Hf as [|? ? Hv Hl]; subst. apply andb_true_iff in Ht as [Htv Ht].
    cbn [forallb] in Hrt. apply andb_true_iff in Hrt as [Hrv Hrt].
    cbn [encode_seq gap_seq all2 existsb] in *. rewrite lenN_app in Hlen.
    destruct (Hv t false Htv Hrv ltac:(lia)) as (P1 & P2 & P3).
    destruct (IH l Hl Ht Hrt ltac:(lia)) as (Q1 & Q2 & Q3).
    rewrite P1, Q1. split; [reflexivity|]. split; [lia|].
    intros Ho Hnil. apply app_eq_nil in Hnil as [N1 N2]. apply orb_true_iff in Ho as [Ho|Ho]; [apply P3|apply Q3]; assumption.
Qed.

Lemma po_fields fs : forall vs, Forall PO2 vs -> all2 (typed E) (map f_ty fs) vs = true ->
  (forall f, In f fs -> rt (f_ty f)) ->
  lenN (encode_fields (encode E) fs vs) < 2 ^ 64 ->
  all2 (prefix_ok E) (map f_ty fs) vs = true /\ (0 <= gap_fields (gap E) fs vs)%Z.
Proof.
  induction fs as [|f fs IH]; intros [|v vs] Hf Ht Hfl Hlen; cbn [map all2] in Ht; try discriminate.
  - split; [reflexivity|apply Z.le_refl].
  - inversion Hf as [|? ? [Hv Hvs] Hl]; subst. apply andb_true_iff in Ht as [Htv Ht].
    pose proof (Hfl f (or_introl eq_refl)) as Hff.
    rewrite encode_fields_cons, lenN_app in Hlen. cbn [gap_fields map all2].
    destruct (IH vs Hl Ht (fun g Hg => Hfl g (or_intror Hg)) ltac:(lia)) as [Q1 Q2]. rewrite Q1, andb_true_r.
    unfold encode_one, encode_field in *.
    assert (G : forall t x e, PO x -> typed E t x = true -> rt t ->
      lenN (encode_id e ++ encode E true t x) < 2 ^ 64 -> prefix_ok E t x = true /\ (0 <= gap E true t x)%Z).
    { intros t x e Hx H1 H2 H4. rewrite lenN_app in H4. destruct (Hx t true H1 H2 ltac:(lia)) as (R1 & R2 & _). auto. }
    destruct (f_ty f) eqn:Ef;
      try (destruct (G _ v _ Hv Htv Hff ltac:(apply N.le_lt_trans with (2 := Hlen); apply N.le_add_r)) as [R1 R2];
           rewrite R1; split; [reflexivity|lia]).
    destruct v; try discriminate Htv; [split; [reflexivity|lia]|]. cbn [encode_field_option] in Hlen.
    unfold flat_elements_type in Hff. cbn [all_ty node_rt andb] in Hff.
    destruct (G t v _ (Hvs v eq_refl) Htv Hff ltac:(apply N.le_lt_trans with (2 := Hlen); apply N.le_add_r)) as [R1 R2].
    cbn [prefix_ok core]. rewrite R1. split; [reflexivity|lia].
Qed.

Lemma po_body fs args d vs : fields_ok fs = true -> Forall PO2 vs ->
  all2 (typed E) (map f_ty (fs_list (inst args fs))) vs = true ->
  (forall t, In t (map f_ty (fs_list fs)) -> In t (def_types d)) ->
  (forall t, In t (def_types d) -> rt (subst args t)) ->
  lenN (encode_body (encode E) (inst args fs) vs) < 2 ^ 64 ->
  all2 (prefix_ok E) (map f_ty (fs_list (inst args fs))) vs = true
  /\ (0 <= gap_fields (gap E) (fs_list (inst args fs)) vs)%Z
  /\ (fs_kind fs <> KUnit -> encode_body (encode E) (inst args fs) vs <> []).
Proof.
  intros Hok Hf Ht Hd Hfl Hlen. destruct (fields_ok_ids _ (inst_ok args _ Hok)) as (_ & _ & Hunit).
  assert (Hfs : forall f, In f (fs_list (inst args fs)) -> rt (f_ty f)).
  { intros f Hin. unfold inst in Hin. cbn [fs_list] in Hin. apply in_map_iff in Hin as (g & <- & Hg).
    cbn [subst_field f_ty]. apply Hfl. apply Hd. apply in_map. exact Hg. }
  assert (Hk : fs_kind (inst args fs) = fs_kind fs) by reflexivity.
  unfold encode_body in *. rewrite Hk in *. destruct (fs_kind fs) eqn:Ek.
  1, 2: rewrite lenN_app in Hlen;
    destruct (po_fields _ vs Hf Ht Hfs ltac:(lia)) as [Q1 Q2]; split; [exact Q1|]; split; [exact Q2|];
    intros _ Hnil; apply app_eq_nil in Hnil as [_ Hnil]; discriminate Hnil.
  rewrite (Hunit eq_refl) in *. destruct vs; [|discriminate].
  split; [reflexivity|]. split; [apply Z.le_refl|congruence].
Qed.

Lemma prefix_nz t v : nz_inner t = true -> prefix_ok E (TNonZero t) v = prefix_ok E t v.
Proof. destruct t; try discriminate; intros _; destruct v; reflexivity. Qed.
Lemma rt_nz t : rt (TNonZero t) -> rt t.
Proof. unfold flat_elements_type. cbn [all_ty node_rt andb]. auto. Qed.
Lemma rt_gen t : rt (TGen t) -> rt t.
Proof. unfold flat_elements_type. cbn [all_ty node_rt andb]. auto. Qed.

Lemma cons_ne {A} (x : A) l : x :: l <> [].
Proof. discriminate. Qed.

Lemma po_map t1 t2 l : Forall (fun kv => PO (fst kv) /\ PO (snd kv)) l ->
  forallb (fun kv => typed E t1 (fst kv) && typed E t2 (snd kv)) l = true ->
  rt (TMap t1 t2) ->
  lenN (encode_u64 (sumN (map (fun kv => size E t1 (fst kv) + size E t2 (snd kv)) l))
      ++ concat (map (fun kv => encode E false t1 (fst kv) ++ encode E false t2 (snd kv)) l)) < 2 ^ 64 ->
  forallb (fun kv => prefix_ok E t1 (fst kv) && prefix_ok E t2 (snd kv)) l
      && forallb (fun kv => nonempty (encode E false t1 (fst kv) ++ encode E false t2 (snd kv))) l
      && (sumN (map (fun kv => size E t1 (fst kv) + size E t2 (snd kv)) l)
          =? lenN (concat (map (fun kv => encode E false t1 (fst kv) ++ encode E false t2 (snd kv)) l))) = true
  /\ (0 <= prefix_gap (sumN (map (fun kv => size E t1 (fst kv) + size E t2 (snd kv))%N l)) (lenN l)
       + sumZ (map (fun kv => gap E false t1 (fst kv) + gap E false t2 (snd kv)) l))%Z
  /\ encode_u64 (sumN (map (fun kv => size E t1 (fst kv) + size E t2 (snd kv)) l))
      ++ concat (map (fun kv => encode E false t1 (fst kv) ++ encode E false t2 (snd kv)) l) <> [].
Proof.
  intros HPO Hty Hrt Hlen. rewrite lenN_app in Hlen.
  unfold flat_elements_type in Hrt. cbn [all_ty node_rt] in Hrt.
  apply andb_true_iff in Hrt as [Hn Hrt]. apply andb_true_iff in Hrt as [Hr1 Hr2].
  apply andb_true_iff in Hn as [Hn Ho]. apply andb_true_iff in Hn as [Hf1 Hf2].
  set (enc := fun kv : val * val => encode E false t1 (fst kv) ++ encode E false t2 (snd kv)) in *.
  set (sz := fun kv : val * val => size E t1 (fst kv) + size E t2 (snd kv)) in *.
  assert (Hall : forall kv, In kv l ->
    lenN (enc kv) = sz kv /\ (gap E false t1 (fst kv) + gap E false t2 (snd kv) = 0)%Z
    /\ prefix_ok E t1 (fst kv) && prefix_ok E t2 (snd kv) = true /\ enc kv <> []).
  { intros kv Hin. pose proof (concat_in_le enc kv l Hin) as Hle. unfold enc in Hle at 1. rewrite lenN_app in Hle.
    rewrite Forall_forall in HPO. destruct (HPO kv Hin) as [P1 P2].
    pose proof (forallb_In _ _ _ Hty Hin) as Ht. cbn beta in Ht. apply andb_true_iff in Ht as [T1 T2].
    destruct (P1 t1 false T1 Hr1 ltac:(lia)) as (A1 & _ & A3).
    destruct (P2 t2 false T2 Hr2 ltac:(lia)) as (B1 & _ & B3).
    pose proof (proj1 (gap_flat_all E HE D HD (fst kv)) t1 false T1 Hf1 ltac:(lia) eq_refl) as G1.
    pose proof (proj1 (gap_flat_all E HE D HD (snd kv)) t2 false T2 Hf2 ltac:(lia) eq_refl) as G2.
    pose proof (size_flat E HE D HD false t1 (fst kv) T1 Hf1 eq_refl ltac:(lia)) as S1.
    pose proof (size_flat E HE D HD false t2 (snd kv) T2 Hf2 eq_refl ltac:(lia)) as S2.
    split; [unfold enc, sz; rewrite lenN_app; lia|]. split; [lia|]. split; [rewrite A1, B1; reflexivity|].
    intros Hnil. apply app_eq_nil in Hnil as [N1 N2]. apply orb_true_iff in Ho as [Ho|Ho]; [apply A3|apply B3]; assumption. }
  assert (Hsum : sumN (map sz l) = lenN (concat (map enc l)) /\
    sumZ (map (fun kv => gap E false t1 (fst kv) + gap E false t2 (snd kv))%Z l) = 0%Z).
  { clear -Hall. induction l as [|kv l IH]; [split; reflexivity|]. cbn [map concat].
    rewrite sumN_cons, sumZ_cons, lenN_app. destruct (Hall kv (or_introl eq_refl)) as (H1 & H2 & _).
    destruct (IH (fun k Hk => Hall k (or_intror Hk))) as [I1 I2]. rewrite I1, I2, H1, H2. split; reflexivity. }
  destruct Hsum as [Hsum Hg]. rewrite Hg.
  split; [|split].
  - apply andb_true_iff. split; [apply andb_true_iff; split|].
    + apply forallb_forall. intros kv Hin. apply (Hall kv Hin).
    + apply forallb_forall. intros kv Hin. destruct (Hall kv Hin) as (_ & _ & _ & Hne).
      fold (enc kv). destruct (enc kv); [congruence|reflexivity].
    + apply N.eqb_eq. exact Hsum.
  - unfold prefix_gap. rewrite Hsum. unfold encode_u64. rewrite uint_len by (unfold modulus, bits; lia).
    assert (Hc : (length l <= length (concat (map enc l)))%nat).
    { apply concat_len_ge. intros x Hx. apply (Hall x Hx). }
    assert (size_uint W64 (lenN l) <= size_uint W64 (lenN (concat (map enc l)))).
    { apply size_uint_mono; [unfold lenN; lia|unfold modulus, bits; lia]. }
    lia.
  - intros Hnil. apply app_eq_nil in Hnil as [Hnil _].
    apply (encode_uint_nonempty W64 (sumN (map sz l))); [rewrite Hsum; unfold modulus, bits; lia|exact Hnil].
Qed.

Lemma PO_all v : PO2 v.
Proof.
  assert (nzc : forall t v, (forall root, typed E t v = true -> rt t ->
     lenN (encode E root t v) < 2 ^ 64 ->
     prefix_ok E t v = true /\ (0 <= gap E root t v)%Z /\ (occupies E t = true -> encode E root t v <> [])) ->
     forall root, typed E (TNonZero t) v = true -> rt (TNonZero t) ->
     lenN (encode E root (TNonZero t) v) < 2 ^ 64 ->
     prefix_ok E (TNonZero t) v = true /\ (0 <= gap E root (TNonZero t) v)%Z
     /\ (occupies E (TNonZero t) = true -> encode E root (TNonZero t) v <> [])).
  { intros t w IH root Hty Hrt Hlen. apply typed_nz in Hty as (Hin & _ & Hty).
    rewrite encode_core_nz in * by exact Hin. rewrite gap_core_nz by exact Hin.
    rewrite prefix_nz by exact Hin. cbn [occupies]. apply rt_nz in Hrt. apply IH; assumption. }
  assert (gc : forall t v, (forall root, typed E t v = true -> rt t ->
     lenN (encode E root t v) < 2 ^ 64 ->
     prefix_ok E t v = true /\ (0 <= gap E root t v)%Z /\ (occupies E t = true -> encode E root t v <> [])) ->
     forall root, typed E (TGen t) v = true -> rt (TGen t) ->
     lenN (encode E root (TGen t) v) < 2 ^ 64 ->
     prefix_ok E (TGen t) v = true /\ (0 <= gap E root (TGen t) v)%Z
     /\ (occupies E (TGen t) = true -> encode E root (TGen t) v <> [])).
  { intros t w IH root Hty Hrt Hlen. rewrite encode_gen in *. rewrite gap_gen. rewrite typed_gen in Hty.
    rewrite prefix_gen. cbn [occupies]. apply rt_gen in Hrt. apply IH; assumption. }
  induction v using val_ind'; (split; [|try discriminate]); try (intros x X; injection X as <-; exact (proj1 IHv)).
  - intros t; induction t; intros root Hty Hrt Hlen; try discriminate Hty;
      first [apply nzc; assumption | apply gc; assumption
            | split; [reflexivity|]; split; [apply Z.le_refl|]; intros _; apply cons_ne].
  - intros t; induction t; intros root Hty Hrt Hlen; try discriminate Hty;
      try first [apply nzc; assumption | apply gc; assumption
            | split; [reflexivity|]; split; [apply Z.le_refl|]; intros _; apply cons_ne].
    + split; [reflexivity|]; split; [apply Z.le_refl|]; intros _. cbn [encode core].
      apply encode_uint_nonempty. cbn [typed head_ok core andb] in Hty. apply unsigned_range in Hty as [Hu _]. exact Hu.
    + split; [reflexivity|]; split; [apply Z.le_refl|]; intros _. cbn [encode core].
      apply encode_uint_nonempty. apply zigzag_encode_range. apply in_signed_range. exact Hty.
  - intros t; induction t; intros root Hty Hrt Hlen; try discriminate Hty;
      first [apply nzc; assumption | apply gc; assumption
            | split; [reflexivity|]; split; [apply Z.le_refl|]; intros _; apply cons_ne].
  - intros t; induction t; intros root Hty Hrt Hlen; try discriminate Hty;
      try first [apply nzc; assumption | apply gc; assumption
            | split; [reflexivity|]; split; [apply Z.le_refl|]; intros _; cbn [encode core] in *;
              apply lenN_encode_bytes in Hlen; intros Hnil; apply app_eq_nil in Hnil as [Hnil _];
              apply (encode_uint_nonempty W64 (lenN l)); [exact Hlen|exact Hnil]].
  - assert (H' : Forall PO l) by (eapply Forall_impl; [|exact H]; intros a Ha; exact (proj1 Ha)).
    intros t; induction t; intros root Hty Hrt Hlen; try discriminate Hty.
    + unfold flat_elements_type in Hrt. cbn [all_ty node_rt] in Hrt. apply andb_true_iff in Hrt as [Hn Hrt].
      apply andb_true_iff in Hn as [Hfl Hoc]. cbn [typed head_ok core andb] in Hty.
      cbn [encode prefix_ok gap core] in *. destruct (po_elems t l H' Hty Hfl Hoc Hrt Hlen) as (A & B & C). auto.
    + unfold flat_elements_type in Hrt. cbn [all_ty node_rt] in Hrt. apply andb_true_iff in Hrt as [Hn Hrt].
      apply andb_true_iff in Hn as [Hfl Hoc]. cbn [typed head_ok core andb] in Hty. apply andb_true_iff in Hty as [Hty _].
      cbn [encode prefix_ok gap core] in *. destruct (po_elems t l H' Hty Hfl Hoc Hrt Hlen) as (A & B & C). auto.
    + apply nzc; assumption.
    + unfold flat_elements_type in Hrt. cbn [all_ty node_rt andb] in Hrt. cbn [typed head_ok core andb] in Hty.
      cbn [encode prefix_ok gap core is_tuple occupies] in *. rewrite andb_true_r in *.
      assert (HSG : Forall (SG E) l) by (apply Forall_forall; intros x _; apply (proj1 (SG_all E HE x))).
      destruct root.
      * unfold encode_tuple in *. rewrite lenN_app in Hlen.
        destruct (po_seq ts l H' Hty Hrt ltac:(lia)) as (A & B & C).
        pose proof (sg_seq E ts l HSG Hty ltac:(lia)) as G. rewrite A. split; [lia|]. split; [lia|].
        intros Ho Hnil. apply app_eq_nil in Hnil as [_ Hnil]. apply C; assumption.
      * destruct (po_seq ts l H' Hty Hrt Hlen) as (A & B & C).
        pose proof (sg_seq E ts l HSG Hty Hlen) as G. rewrite A. split; [lia|]. split; [lia|exact C].
    + unfold flat_elements_type in Hrt. cbn [all_ty node_rt] in Hrt. apply andb_true_iff in Hrt as [Hn Hrt].
      apply andb_true_iff in Hn as [Hfl Hoc]. cbn [typed head_ok core andb] in Hty. apply andb_true_iff in Hty as [_ Hty].
      cbn [encode prefix_ok gap core] in *. destruct (po_elems t l H' Hty Hfl Hoc Hrt Hlen) as (A & B & C). auto.
    + apply gc; assumption.
  - assert (H' : Forall (fun kv => PO (fst kv) /\ PO (snd kv)) l).
    { eapply Forall_impl; [|exact H]. intros a [Ha Hb]. split; [exact (proj1 Ha)|exact (proj1 Hb)]. }
    intros t; induction t; intros root Hty Hrt Hlen; try discriminate Hty.
    + cbn [typed head_ok core andb] in Hty. apply andb_true_iff in Hty as [Hty _].
      cbn [encode prefix_ok gap core] in *. destruct (po_map t1 t2 l H' Hty Hrt Hlen) as (A & B & C). auto.
    + apply nzc; assumption.
    + apply gc; assumption.
  - intros t; induction t; intros root Hty Hrt Hlen; try discriminate Hty;
      first [apply nzc; assumption | apply gc; assumption
            | split; [reflexivity|]; split; [apply Z.le_refl|]; intros _; apply cons_ne].
  - intros t; induction t; intros root Hty Hrt Hlen; try discriminate Hty;
      try first [apply nzc; assumption | apply gc; assumption].
    cbn [typed head_ok core andb] in Hty. unfold flat_elements_type in Hrt. cbn [all_ty node_rt andb] in Hrt.
    cbn [encode prefix_ok gap core encode_option] in *. rewrite lenN_cons in Hlen.
    destruct (proj1 IHv t false Hty Hrt ltac:(lia)) as (A & B & _). split; [exact A|]. split; [exact B|]. intros _. apply cons_ne.
  - intros t; induction t; intros root Hty Hrt Hlen; try discriminate Hty;
      try first [apply nzc; assumption | apply gc; assumption].
    cbn [typed head_ok core andb] in Hty. cbn [encode prefix_ok gap core occupies] in *.
    destruct (nth_error E i) as [[fs|vars]|] eqn:Ei; try discriminate.
    destruct (po_body fs args (DStruct fs) vs (env_struct E HE _ _ Ei) H Hty ltac:(cbn [def_types]; auto)
      (rt_ext _ _ _ Ei Hrt) Hlen) as (A & B & C).
    split; [exact A|]. split; [exact B|]. intros Ho. apply C. destruct (fs_kind fs); congruence.
  - intros t; induction t; intros root Hty Hrt Hlen; try discriminate Hty;
      try first [apply nzc; assumption | apply gc; assumption].
    cbn [typed head_ok core andb] in Hty. cbn [encode prefix_ok gap core occupies] in *.
    destruct (nth_error E i0) as [[fs|vars]|] eqn:Ei; try discriminate.
    destruct (nth_error vars i) as [var|] eqn:Ev; [|discriminate].
    destruct (env_enum E HE _ _ Ei) as [Hnd Hall].
    destruct (Hall var (nth_error_In _ _ Ev)) as [Hid Hfs]. rewrite lenN_app in Hlen.
    destruct (po_body (v_fields var) args (DEnum vars) vs Hfs H Hty
      ltac:(cbn [def_types]; intros t Ht; apply in_concat; eexists;
            split; [apply in_map; eapply nth_error_In; exact Ev|exact Ht])
      (rt_ext _ _ _ Ei Hrt) ltac:(lia)) as (A & B & _).
    split; [exact A|]. split; [exact B|]. intros _ Hnil. apply app_eq_nil in Hnil as [Hnil _].
    apply (encode_uint_nonempty W32 (v_id var)); [exact Hid|exact Hnil].
Qed.

Lemma flat_prefix_ok root t v : typed E t v = true -> rt t -> lenN (encode E root t v) < 2 ^ 64 ->
  prefix_ok E t v = true.
Proof. intros. eapply (proj1 (PO_all v)); eassumption. Qed.
End Main.
