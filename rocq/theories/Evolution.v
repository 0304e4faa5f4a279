(** Skipping (C18) and schema evolution (C19, C20). *)
From Verif Require Import Base Varint VarintSpec VarintProofs Wire WireProofs Codec CodecSpec CodecProofs
  SchemaSpec Safety Stable Size EvolutionSpec Entries.
Local Open Scope N_scope.

(** * Skipping *)

Lemma skip_varint_encode w v rest : v < modulus w -> skip_varint (encode_uint w v ++ rest) = Ok rest.
Proof.
  intros H. destruct (varint_bytes_spec w v H) as (_ & Hf & _ & Hok & _). unfold encode_uint.
  revert Hf Hok. generalize (varint_bytes w v). intros l.
  induction l as [|b l IH]; intros Hf Hok; [discriminate|].
  cbn [bytes_ok forallb] in Hok. apply andb_true_iff in Hok as [Hb Hok]. unfold byte_ok in Hb.
  cbn [app skip_varint]. rewrite land_128_zero by lia.
  destruct l as [|c l].
  - cbn [leb_framed] in Hf. rewrite Hf. reflexivity.
  - cbn [leb_framed] in Hf. apply andb_true_iff in Hf as [Hf Hl]. apply andb_true_iff in Hf as [Hf _].
    replace (b <? 128) with false by lia. apply IH; [exact Hl|exact Hok].
Qed.

Lemma skip_fixed_app n (a rest : list N) : lenN a = n -> skip_fixed n (a ++ rest) = Ok rest.
Proof.
  intros <-. unfold skip_fixed. rewrite ensure_size_app, to_nat_lenN, skipn_len_app. reflexivity.
Qed.

Lemma skip_lenpfx (body rest : list N) : lenN body < 2 ^ 64 ->
  decode_skip ELengthPrefixed ((encode_u64 (lenN body) ++ body) ++ rest) = Ok rest.
Proof.
  intros H. cbn [decode_skip]. rewrite <- app_assoc, decode_u64_encode by exact H. cbn [bind].
  apply skip_fixed_app. reflexivity.
Qed.

Section Skip.
Variable E : env.
Hypothesis HE : env_ok E = true.
Variable D : list nat.
Hypothesis HD : flat_defs E D = true.

Lemma flat_closed t : all_ty (node_flat_closed D) t = true -> flat_type D t = true.
Proof. unfold node_flat_closed. rewrite all_ty_and. intros H. apply andb_true_iff in H. apply H. Qed.

Lemma seq_exact ts : forall l, forallb (all_ty (node_flat_closed D)) ts = true ->
  all2 (typed E) ts l = true -> lenN (encode_seq (encode E) ts l) < 2 ^ 64 ->
  size_seq (size E) ts l = lenN (encode_seq (encode E) ts l).
Proof.
  induction ts as [|t ts IH]; intros [|v l] Hf Ht Hlen; cbn [all2] in Ht; try discriminate; [reflexivity|].
  cbn [forallb] in Hf. apply andb_true_iff in Hf as [Hf1 Hf]. apply andb_true_iff in Ht as [Ht1 Ht].
  cbn [encode_seq size_seq] in *. rewrite lenN_app in *.
  rewrite (IH l Hf Ht) by lia. f_equal. symmetry.
  apply (size_flat E HE D HD false t v Ht1 (flat_closed t Hf1) eq_refl). lia.
Qed.

Lemma skip_lenpfx_ty t v root rest : lenpfx t = true -> typed E t v = true -> prefix_ok E t v = true ->
  lenN (encode E root t v) < 2 ^ 64 ->
  decode_skip ELengthPrefixed (encode E root t v ++ rest) = Ok rest.
Proof.
  intros Hl Ht Hp Hlen.
  destruct t; try discriminate Hl; destruct v; try discriminate Ht; cbn [encode core] in *;
    try (apply skip_lenpfx; unfold encode_bytes in Hlen; rewrite lenN_app in Hlen; lia);
    cbn [prefix_ok core] in Hp; apply andb_true_iff in Hp as [_ Hs]; apply N.eqb_eq in Hs;
    unfold encode_vec, encode_hash_map in *; rewrite Hs in *; apply skip_lenpfx; rewrite lenN_app in Hlen; lia.
Qed.

Lemma skip_encode t v rest : skippable D t = true -> typed E t v = true -> prefix_ok E t v = true ->
  lenN (encode E true t v) < 2 ^ 64 ->
  decode_skip (fenc_of t) (encode E true t v ++ rest) = Ok rest.
Proof.
  intros Hs Ht Hp Hlen.
  assert (Hl : lenpfx t = true -> fenc_of t = ELengthPrefixed) by (destruct t; try discriminate; reflexivity).
  destruct (lenpfx t) eqn:El.
  { rewrite (Hl eq_refl). apply skip_lenpfx_ty; assumption. }
  clear Hl. destruct t; try discriminate Hs; try discriminate El; clear El.
  - destruct v; try discriminate Ht. cbn [fenc_of encode core decode_skip]. apply skip_fixed_app. reflexivity.
  - destruct v; try discriminate Ht. cbn [fenc_of encode core decode_skip]. apply skip_fixed_app. reflexivity.
  - destruct v; try discriminate Ht. cbn [fenc_of encode core decode_skip]. apply skip_fixed_app. reflexivity.
  - destruct v; try discriminate Ht. cbn [fenc_of encode core decode_skip].
    cbn [typed head_ok core andb] in Ht. apply unsigned_range in Ht as [Ht _].
    apply skip_varint_encode. exact Ht.
  - destruct v; try discriminate Ht. cbn [fenc_of encode core decode_skip].
    cbn [typed head_ok core andb] in Ht. apply in_signed_range in Ht.
    apply skip_varint_encode. apply zigzag_encode_range. exact Ht.
  - destruct v; try discriminate Ht. cbn [fenc_of encode core decode_skip]. apply skip_fixed_app. reflexivity.
  - destruct v; try discriminate Ht. cbn [fenc_of encode core decode_skip]. apply skip_fixed_app. reflexivity.
  - (* non_zero *)
    destruct (typed_nz E t v Ht) as (Hin & _ & Ht').
    rewrite encode_core_nz in * by exact Hin.
    assert (Hp' : prefix_ok E t v = true) by (destruct v; exact Hp).
    assert (Hfe : lenpfx t = true -> decode_skip (fenc_of (TNonZero t)) (encode E true t v ++ rest) = Ok rest).
    { intros Hl. replace (fenc_of (TNonZero t)) with ELengthPrefixed by (destruct t; try discriminate; reflexivity).
      apply skip_lenpfx_ty; assumption. }
    destruct t; try discriminate Hin; try (apply Hfe; reflexivity); clear Hfe;
      destruct v; try discriminate Ht'; cbn [fenc_of encode core decode_skip].
    + apply skip_fixed_app. reflexivity.
    + apply skip_fixed_app. reflexivity.
    + cbn [typed head_ok core andb] in Ht'. apply unsigned_range in Ht' as [Ht' _].
      apply skip_varint_encode. exact Ht'.
    + cbn [typed head_ok core andb] in Ht'. apply in_signed_range in Ht'.
      apply skip_varint_encode. apply zigzag_encode_range. exact Ht'.
  - (* tuple *)
    destruct v; try discriminate Ht. cbn [skippable] in Hs. cbn [typed head_ok core andb] in Ht.
    cbn [fenc_of encode core is_tuple andb] in *. unfold encode_tuple in *.
    rewrite lenN_app in Hlen. rewrite (seq_exact ts l Hs Ht) by lia.
    apply skip_lenpfx. lia.
Qed.
End Skip.

(** * Evolution *)

(** The element loop when decoded values differ from the encoded ones. *)
Lemma dloop_pairs {T} (d : dec T) B (ps : list (list N * T)) : forall n,
  (forall p, In p ps -> fst p <> []) ->
  (forall p rest, In p ps -> (length (fst p ++ rest) <= B)%nat -> d (fst p ++ rest) = Ok (snd p, rest)) ->
  (length (concat (map fst ps)) <= B)%nat -> (length ps <= n)%nat ->
  dloop d n (concat (map fst ps)) = Ok (map snd ps).
Proof.
  induction ps as [|[b y] ps IH]; intros n Hne Hd HB Hn; [destruct n; reflexivity|].
  cbn [length] in Hn. destruct n as [|n]; [lia|]. cbn [map concat fst snd] in *.
  rewrite app_length in HB.
  pose proof (Hd (b, y) (concat (map fst ps)) (or_introl eq_refl)) as Hx. cbn [fst snd] in Hx.
  rewrite app_length in Hx. specialize (Hx HB).
  pose proof (Hne (b, y) (or_introl eq_refl)) as Hx0. cbn [fst] in Hx0.
  destruct (b ++ concat (map fst ps)) as [|c l] eqn:El.
  { apply app_eq_nil in El as [El _]. congruence. }
  cbn [dloop]. rewrite Hx. cbn [bind]. rewrite IH; [reflexivity| | | lia | lia].
  - intros p Hp. apply Hne. right. exact Hp.
  - intros p rest Hp. apply Hd. right. exact Hp.
Qed.

Lemma darr_pairs {T} (d : dec T) B (ps : list (list N * T)) :
  (forall p, In p ps -> fst p <> []) ->
  (forall p rest, In p ps -> (length (fst p ++ rest) <= B)%nat -> d (fst p ++ rest) = Ok (snd p, rest)) ->
  (length (concat (map fst ps)) <= B)%nat ->
  darr d (length ps) (concat (map fst ps)) = Ok (map snd ps).
Proof.
  induction ps as [|[b y] ps IH]; intros Hne Hd HB; [reflexivity|].
  cbn [map concat fst snd length] in *. rewrite app_length in HB.
  pose proof (Hd (b, y) (concat (map fst ps)) (or_introl eq_refl)) as Hx. cbn [fst snd] in Hx.
  rewrite app_length in Hx. specialize (Hx HB).
  pose proof (Hne (b, y) (or_introl eq_refl)) as Hx0. cbn [fst] in Hx0.
  destruct (b ++ concat (map fst ps)) as [|c l] eqn:El.
  { apply app_eq_nil in El as [El _]. congruence. }
  cbn [darr]. rewrite Hx. cbn [bind]. rewrite IH; [reflexivity| | | lia].
  - intros p Hp. apply Hne. right. exact Hp.
  - intros p rest Hp. apply Hd. right. exact Hp.
Qed.

Lemma elems_pairs {T} (d : dec T) B (ps : list (list N * T)) rest :
  (forall p, In p ps -> fst p <> []) ->
  (forall p rest, In p ps -> (length (fst p ++ rest) <= B)%nat -> d (fst p ++ rest) = Ok (snd p, rest)) ->
  (length (concat (map fst ps)) <= B)%nat ->
  decode_elems d (concat (map fst ps) ++ rest) (lenN (concat (map fst ps))) = Ok (map snd ps, rest).
Proof.
  intros Hne Hd HB. unfold decode_elems. rewrite ensure_size_app. cbv zeta.
  rewrite to_nat_lenN, firstn_len_app, skipn_len_app.
  rewrite (dloop_pairs d B ps); [reflexivity|exact Hne|exact Hd|exact HB|].
  pose proof (concat_len_ge (fun p : list N * T => fst p) ps Hne). exact H.
Qed.

Lemma all_some_forall2 {A B} (f : A -> option B) l : forall ys,
  all_some (map f l) = Some ys -> Forall2 (fun x y => f x = Some y) l ys.
Proof.
  induction l as [|x l IH]; intros ys H; cbn [map all_some] in H.
  - injection H as <-. constructor.
  - destruct (f x) as [y|] eqn:Ef; [|discriminate]. destruct (all_some (map f l)) as [ys'|]; [|discriminate].
    injection H as <-. constructor; [exact Ef|]. apply IH. reflexivity.
Qed.

Lemma forall2_combine {A B} (P : A -> B -> Prop) l ys : Forall2 P l ys ->
  length l = length ys /\ (forall x y, In (x, y) (combine l ys) -> P x y).
Proof.
  induction 1 as [|x y l ys Hp HF [IH1 IH2]]; [split; [reflexivity|intros ? ? []]|].
  cbn [length combine]. split; [congruence|]. intros a b [Hab|Hab].
  - injection Hab as <- <-. exact Hp.
  - apply IH2. exact Hab.
Qed.

Lemma set_of_ne {K} eqb (l : list K) : l <> [] -> set_of eqb l <> [].
Proof.
  destruct l as [|x l]; [congruence|]. intros _. unfold set_of. cbn [fold_left].
  assert (G : forall l (s : list K), s <> [] -> fold_left (fun s k => set_insert eqb k s) l s <> []).
  { clear. induction l as [|y l IH]; intros s Hs; [exact Hs|]. cbn [fold_left]. apply IH.
    unfold set_insert. destruct (existsb (eqb y) s); [exact Hs|]. destruct s; discriminate. }
  apply G. discriminate.
Qed.

Lemma map_of_ne {K V} eqb (l : list (K * V)) : l <> [] -> map_of eqb l <> [].
Proof.
  destruct l as [|x l]; [congruence|]. intros _. unfold map_of. cbn [fold_left].
  assert (G : forall l (s : list (K * V)), s <> [] ->
    fold_left (fun m kv => map_insert eqb (fst kv) (snd kv) m) l s <> []).
  { clear. induction l as [|y l IH]; intros s Hs; [exact Hs|]. cbn [fold_left]. apply IH.
    destruct s as [|[a b] s]; [congruence|]. cbn [map_insert]. destruct (eqb (fst y) a); discriminate. }
  apply G. discriminate.
Qed.

(** Leaf types do not look at the definitions. *)
Lemma dec_ty_leaf ext ext' root t : is_leaf (core t) = true ->
  forall r, dec_ty ext root t r = dec_ty ext' root t r.
Proof.
  revert root. induction t; intros root H r; try reflexivity; try discriminate H.
  - cbn [core] in H. destruct t; try discriminate H; try reflexivity.
  - cbn [dec_ty]. apply IHt. exact H.
Qed.

Lemma fkind_eq_unit (k : fkind) : k = KUnit \/ k <> KUnit.
Proof. destruct k; [right|right|left]; congruence. Qed.

Section Evolve.
Variables Ew Er : env.
Hypothesis HEw : env_ok Ew = true.
Hypothesis HEr : env_ok Er = true.
Variable D : list nat.
Hypothesis HD : flat_defs Ew D = true.
Hypothesis Hev : schema_evolves D Ew Er.

Definition EV (v : val) : Prop :=
  forall t root depth rest v',
  typed Ew t v = true -> prefix_ok Ew t v = true ->
  lenN (encode Ew root t v) < 2 ^ 64 ->
  (length (encode Ew root t v ++ rest) < depth)%nat ->
  project Ew Er t v = Some v' ->
  dec_ty (dec_ext Er depth) root t (encode Ew root t v ++ rest) = Ok (v', rest).
Definition EV2 (v : val) : Prop := EV v /\ forall x, v = VSome x -> EV x.

Lemma project_gen t v : project Ew Er (TGen t) v = project Ew Er t v.
Proof. destruct v; reflexivity. Qed.
Lemma project_nz t v : project Ew Er (TNonZero t) v = project Ew Er t v.
Proof. destruct v; reflexivity. Qed.

(** Values of leaf types. *)
Lemma EV_leaf v : (forall t, typed Ew t v = true -> is_leaf (core t) = true /\ project Ew Er t v = Some v) -> EV v.
Proof.
  intros H t root depth rest v' Ht Hp Hlen Hd Hpr. destruct (H t Ht) as [Hl Hpv].
  rewrite Hpv in Hpr. injection Hpr as <-.
  rewrite (dec_ty_leaf _ (dec_ext Ew depth) root t Hl).
  apply (proj1 (RT_all Ew HEw v)); assumption.
Qed.

(** The fields of the writer as wire entries, with the reader's values. *)
Fixpoint wire (fs : list field) (vs : list val) : list entry :=
  match fs, vs with
  | f :: fs', v :: vs' =>
      match slot_of f v with
      | Some x =>
          let t := payload_ty (f_ty f) in
          Entry (f_id f) (fenc_of t) (encode Ew true t x)
            (match project Ew Er t x with Some y => y | None => VNone end) :: wire fs' vs'
      | None => wire fs' vs'
      end
  | _, _ => []
  end.

Lemma wire_payload fs : forall vs, length vs = length fs ->
  encode_fields (encode Ew) fs vs ++ encode_u32 END_MARKER = payload (wire fs vs).
Proof.
  induction fs as [|f fs IH]; intros [|v vs] Hl; try discriminate; [reflexivity|].
  cbn [length] in Hl. rewrite encode_fields_cons. cbn [wire].
  destruct (encode_one_cases (encode Ew) f v) as [[Hs He]|(x & Hs & He)]; rewrite Hs, He.
  - apply IH. lia.
  - rewrite payload_cons. cbn [e_id e_class e_bytes]. rewrite <- !app_assoc. do 2 f_equal. apply IH. lia.
Qed.

Lemma wire_in fs : forall vs e, In e (wire fs vs) -> exists f v x,
  In (f, v) (combine fs vs) /\ slot_of f v = Some x /\ e_id e = f_id f
  /\ e_class e = fenc_of (payload_ty (f_ty f)) /\ e_bytes e = encode Ew true (payload_ty (f_ty f)) x
  /\ e_val e = match project Ew Er (payload_ty (f_ty f)) x with Some y => y | None => VNone end.
Proof.
  induction fs as [|f fs IH]; intros [|v vs] e He; cbn [wire] in He; try contradiction.
  assert (G : In e (wire fs vs) -> exists f0 v0 x, In (f0, v0) (combine (f :: fs) (v :: vs)) /\ slot_of f0 v0 = Some x /\ e_id e = f_id f0
  /\ e_class e = fenc_of (payload_ty (f_ty f0)) /\ e_bytes e = encode Ew true (payload_ty (f_ty f0)) x
  /\ e_val e = match project Ew Er (payload_ty (f_ty f0)) x with Some y => y | None => VNone end).
  { intros Hin. destruct (IH vs e Hin) as (f' & v' & x' & H1 & H2). exists f', v', x'. split; [right; exact H1|exact H2]. }
  destruct (slot_of f v) as [x|] eqn:Es; [|apply G; exact He].
  destruct He as [<-|He]; [|apply G; exact He].
  exists f, v, x. split; [left; reflexivity|]. split; [exact Es|]. repeat split.
Qed.

(** [sent] and [wire] agree. *)
Lemma sent_cons f fs v vs : sent (project Ew Er) (f :: fs) (v :: vs) =
  match slot_of f v with
  | Some x => (f_id f, project Ew Er (payload_ty (f_ty f)) x) :: sent (project Ew Er) fs vs
  | None => sent (project Ew Er) fs vs
  end.
Proof. cbn [sent]. unfold slot_of, payload_ty. destruct (f_ty f); try reflexivity. destruct v; reflexivity. Qed.

Lemma wire_ids fs : forall vs id, In id (map e_id (wire fs vs)) -> In id (map f_id fs).
Proof.
  intros vs id H. apply in_map_iff in H as (e & <- & He). apply wire_in in He as (f & v & x & Hin & _ & -> & _).
  apply in_map. eapply in_combine_l. exact Hin.
Qed.

Lemma last_sent fs : forall vs id, NoDup (map f_id fs) ->
  match assoc id (sent (project Ew Er) fs vs) with
  | Some (Some y) => last_value id (wire fs vs) = Some y
  | Some None => True
  | None => last_value id (wire fs vs) = None
  end.
Proof.
  induction fs as [|f fs IH]; intros [|v vs] id Hnd; try reflexivity.
  cbn [map] in Hnd. inversion Hnd as [|? ? Hni Hnd']; subst.
  specialize (IH vs id Hnd'). rewrite sent_cons. cbn [wire].
  destruct (slot_of f v) as [x|]; [|exact IH]. cbn [assoc last_value e_id e_val].
  destruct (N.eqb_spec (f_id f) id) as [He|Hne].
  - assert (Hn : last_value id (wire fs vs) = None).
    { apply last_value_notin. intros H. apply Hni. rewrite He. apply (wire_ids fs vs id H). }
    rewrite Hn. destruct (project Ew Er (payload_ty (f_ty f)) x); [reflexivity|exact I].
  - destruct (assoc id (sent (project Ew Er) fs vs)) as [[y|]|]; [| exact I|].
    + rewrite IH. reflexivity.
    + rewrite IH. reflexivity.
Qed.

Lemma received_collect kind fw vs fr : NoDup (map f_id fw) -> forall ys,
  received fr (sent (project Ew Er) fw vs) = Some ys -> collect kind fr (wire fw vs) = Ok ys.
Proof.
  intros Hnd. induction fr as [|f fr IH]; intros ys H; cbn [received collect] in *.
  - injection H as <-. reflexivity.
  - pose proof (last_sent fw vs (f_id f) Hnd) as Hl.
    destruct (assoc (f_id f) (sent (project Ew Er) fw vs)) as [[y|]|].
    + rewrite Hl. destruct (received fr (sent (project Ew Er) fw vs)) as [ys'|]; [|destruct (f_ty f); discriminate].
      rewrite (IH ys' eq_refl). destruct (f_ty f); injection H as <-; reflexivity.
    + discriminate.
    + rewrite Hl. destruct (received fr (sent (project Ew Er) fw vs)) as [ys'|]; [|destruct (f_ty f); discriminate].
      rewrite (IH ys' eq_refl). destruct (f_ty f); try discriminate; injection H as <-; reflexivity.
Qed.

(** If the reader's list is defined, every payload it uses is. *)
Lemma received_proj fw vs fr ys f g v x :
  NoDup (map f_id fw) -> received fr (sent (project Ew Er) fw vs) = Some ys ->
  In f fr -> In (g, v) (combine fw vs) -> f_id f = f_id g -> slot_of g v = Some x ->
  exists y, project Ew Er (payload_ty (f_ty g)) x = Some y.
Proof.
  intros Hnd Hr Hf Hg Hid Hs.
  assert (Ha : assoc (f_id f) (sent (project Ew Er) fw vs) = Some (project Ew Er (payload_ty (f_ty g)) x)).
  { clear Hr Hf. rewrite Hid. clear Hid. revert vs Hg. induction fw as [|h fw IH]; intros [|w vs] Hg; try contradiction.
    cbn [map] in Hnd. inversion Hnd as [|? ? Hni Hnd']; subst. cbn [combine] in Hg. rewrite sent_cons.
    destruct Hg as [Hg|Hg].
    - injection Hg as -> ->. rewrite Hs. cbn [assoc]. rewrite N.eqb_refl. reflexivity.
    - specialize (IH Hnd' vs Hg). destruct (slot_of h w); [|exact IH]. cbn [assoc].
      destruct (N.eqb_spec (f_id h) (f_id g)) as [He|_]; [|exact IH].
      exfalso. apply Hni. rewrite He. apply in_map. eapply in_combine_l. exact Hg. }
  destruct (project Ew Er (payload_ty (f_ty g)) x) as [y|] eqn:Ep; [eauto|].
  exfalso. revert ys Hr. induction fr as [|h fr IH]; intros ys Hr; [contradiction|].
  cbn [received] in Hr. destruct Hf as [->|Hf].
  - rewrite Ha in Hr. discriminate.
  - destruct (match assoc (f_id h) _ with Some _ => _ | None => _ end) in Hr; [|discriminate].
    destruct (received fr (sent (project Ew Er) fw vs)) as [ys'|] eqn:Er'; [|discriminate].
    apply (IH Hf ys' eq_refl).
Qed.

Lemma no_param_subst args t : all_ty (fun t => match t with TParam _ => false | _ => true end) t = true ->
  subst args t = t.
Proof.
  induction t using ty_ind'; intros Hn; cbn [all_ty andb subst] in *.
  - destruct t; try discriminate H; try reflexivity. discriminate Hn.
  - f_equal. apply IHt. exact Hn.
  - apply andb_true_iff in Hn as [H1 H2]. f_equal; [apply IHt1; exact H1|apply IHt2; exact H2].
  - f_equal. apply IHt. exact Hn.
  - f_equal. apply IHt. exact Hn.
  - f_equal. apply IHt. exact Hn.
  - f_equal. rewrite <- (map_id ts) at 2. apply map_ext_in. intros a Ha.
    rewrite Forall_forall in H. apply (H a Ha). apply (forallb_In _ _ _ Hn Ha).
  - f_equal. apply IHt. exact Hn.
  - f_equal. rewrite <- (map_id args0) at 2. apply map_ext_in. intros a Ha.
    rewrite Forall_forall in H. apply (H a Ha). apply (forallb_In _ _ _ Hn Ha).
  - f_equal. apply IHt. exact Hn.
Qed.

Lemma skippable_subst args t : skippable D t = true -> skippable D (subst args t) = true.
Proof.
  destruct t; try (intros H; exact H); try discriminate.
  - cbn [skippable subst]. destruct t; try (intros H; exact H); discriminate.
  - cbn [skippable subst]. intros H. rewrite forallb_map. apply forallb_forall.
    intros a Ha. pose proof (forallb_In _ _ _ H Ha) as Hc. pose proof Hc as Hc'.
    unfold node_flat_closed in Hc. rewrite all_ty_and in Hc.
    apply andb_true_iff in Hc as [_ Hc]. rewrite (no_param_subst args a Hc). exact Hc'.
Qed.

Lemma evolve_inst args fw fr : fields_evolve D fw fr -> fields_evolve D (inst args fw) (inst args fr).
Proof.
  intros [Hk H]. split; [exact Hk|]. unfold inst. cbn [fs_list]. intros g Hg.
  apply in_map_iff in Hg as (g0 & <- & Hg0). destruct (H g0 Hg0) as [(f & Hf & Hid & Hty)|[Hn Hs]].
  - left. exists (subst_field args f). split; [apply in_map; exact Hf|]. split; [exact Hid|].
    cbn [subst_field f_ty]. rewrite !payload_subst, Hty. reflexivity.
  - right. split.
    + intros f Hf. apply in_map_iff in Hf as (f0 & <- & Hf0). apply (Hn f0 Hf0).
    + cbn [subst_field f_ty]. rewrite payload_subst. apply skippable_subst. exact Hs.
Qed.

Lemma EV_slot f v x : EV2 v -> slot_of f v = Some x -> EV x.
Proof.
  intros [H1 H2]. unfold slot_of. destruct (f_ty f); try (intros X; injection X as <-; exact H1).
  destruct v; intros X; try discriminate. injection X as <-. apply H2. reflexivity.
Qed.

Lemma body_evolve fw fr vs ys depth rest :
  fields_evolve D fw fr -> fields_ok fw = true -> fields_ok fr = true ->
  Forall EV2 vs ->
  all2 (typed Ew) (map f_ty (fs_list fw)) vs = true ->
  all2 (prefix_ok Ew) (map f_ty (fs_list fw)) vs = true ->
  lenN (encode_body (encode Ew) fw vs) < 2 ^ 64 ->
  (length (encode_body (encode Ew) fw vs ++ rest) <= depth)%nat ->
  received (fs_list fr) (sent (project Ew Er) (fs_list fw) vs) = Some ys ->
  decode_body (dec_ty (dec_ext Er depth) true) fr (encode_body (encode Ew) fw vs ++ rest) = Ok (ys, rest).
Proof.
  intros [Hk Hfe] Hokw Hokr HEV Hty Hpx Hsz Hd Hrec.
  destruct (fields_ok_ids fw Hokw) as (Hndw & Hidw & Huw).
  destruct (fields_ok_ids fr Hokr) as (Hndr & _ & Hur).
  pose proof (all2_length _ _ _ Hty) as Hlen. rewrite map_length in Hlen.
  destruct (fkind_eq_unit (fs_kind fw)) as [Hku|Hku].
  - pose proof (proj1 Hk Hku) as Hkr. unfold encode_body, decode_body. rewrite Hku, Hkr.
    rewrite (Hur Hkr) in Hrec. cbn in Hrec. injection Hrec as <-. reflexivity.
  - assert (Hkr : fs_kind fr <> KUnit) by (intros X; apply Hku, Hk, X).
    assert (Hm : encode_body (encode Ew) fw vs = payload (wire (fs_list fw) vs)).
    { rewrite <- wire_payload by lia. unfold encode_body. destruct (fs_kind fw); congruence. }
    rewrite Hm in *.
    rewrite (body_entries _ fr depth rest (wire (fs_list fw) vs) Hkr Hndr).
    + rewrite (received_collect (fs_kind fr) (fs_list fw) vs (fs_list fr) Hndw ys Hrec). reflexivity.
    + apply Forall_forall. intros e He.
      assert (Hel : lenN (e_bytes e) <= lenN (payload (wire (fs_list fw) vs))).
      { clear -He. unfold payload. induction (wire (fs_list fw) vs) as [|a l IH]; [contradiction|].
        cbn [map concat]. unfold encode_field at 1. rewrite !lenN_app. destruct He as [->|He]; [lia|].
        specialize (IH He). rewrite lenN_app in IH. lia. }
      apply wire_in in He as (g & v & x & Hin & Hs & Hid & Hcl & Hby & Hva).
      assert (Hg : In g (fs_list fw)) by (eapply in_combine_l; exact Hin).
      rewrite Forall_forall in Hidw. destruct (Hidw g Hg) as [H0 H29].
      pose proof (all2_combine _ _ _ Hty _ _ (combine_map_l f_ty _ _ _ _ Hin)) as Htg.
      pose proof (all2_combine _ _ _ Hpx _ _ (combine_map_l f_ty _ _ _ _ Hin)) as Hpg.
      pose proof (typed_slot Ew g v x Htg Hs) as Htx.
      pose proof (prefix_slot Ew g v x Hpg Hs) as Hpfx.
      rewrite Hby in Hel.
      split; [rewrite Hid; exact H0|]. split; [rewrite Hid; exact H29|].
      rewrite Hid, Hby, Hva, Hcl.
      destruct (find_field (f_id g) (fs_list fr) 0) as [[k f]|] eqn:Ef.
      * apply find_field_some in Ef as [Hf Hfid].
        destruct (Hfe g Hg) as [(f' & Hf' & Hid' & Hpt)|[Hn _]]; [|exfalso; apply (Hn f Hf Hfid)].
        replace f' with f in * by (eapply NoDup_id_eq; [exact Hndr|exact Hf|exact Hf'|congruence]).
        rewrite Hpt.
        destruct (received_proj (fs_list fw) vs (fs_list fr) ys f g v x Hndw Hrec Hf Hin Hfid Hs) as [y Hy].
        rewrite Hy. intros r Hr.
        assert (HEx : EV x).
        { eapply EV_slot; [|exact Hs]. rewrite Forall_forall in HEV. apply HEV. eapply in_combine_r. exact Hin. }
        apply (HEx (payload_ty (f_ty g)) true depth r y Htx Hpfx); [lia|exact Hr|exact Hy].
      * destruct (Hfe g Hg) as [(f' & Hf' & Hid' & _)|[_ Hsk]].
        -- exfalso. apply (find_field_none _ _ _ Ef f' Hf' Hid').
        -- intros r. apply (skip_encode Ew HEw D HD _ x r Hsk Htx Hpfx). lia.
    + exact Hd.
Qed.

Lemma seq_evolve ts : forall vs ys depth rest,
  Forall EV vs -> all2 (typed Ew) ts vs = true -> all2 (prefix_ok Ew) ts vs = true ->
  lenN (encode_seq (encode Ew) ts vs) < 2 ^ 64 ->
  (length (encode_seq (encode Ew) ts vs ++ rest) < depth)%nat ->
  all_some (seq_map (project Ew Er) ts vs) = Some ys ->
  decode_seq (dec_ty (dec_ext Er depth) false) ts (encode_seq (encode Ew) ts vs ++ rest) = Ok (ys, rest).
Proof.
  induction ts as [|t ts IH]; intros [|v vs] ys depth rest HEV Hty Hpx Hsz Hd Hp;
    cbn [all2] in Hty, Hpx; try discriminate.
  - injection Hp as <-. reflexivity.
  - apply andb_true_iff in Hty as [Ht Hty]. apply andb_true_iff in Hpx as [Hq Hpx].
    inversion HEV as [|? ? Hv HEV']; subst. cbn [seq_map all_some] in Hp.
    destruct (project Ew Er t v) as [y|] eqn:Ep; [|discriminate].
    destruct (all_some (seq_map (project Ew Er) ts vs)) as [ys'|] eqn:Ea; [|discriminate].
    injection Hp as <-. cbn [encode_seq decode_seq] in *. rewrite <- app_assoc in *. rewrite lenN_app in Hsz.
    rewrite (Hv t false depth _ y Ht Hq); [|lia|exact Hd|exact Ep]. cbn [bind].
    rewrite app_length in Hd. rewrite (IH vs ys' depth rest HEV' Hty Hpx); [reflexivity|lia|lia|exact Ea].
Qed.

(** Elements of a vec, set or array. *)
Lemma vec_evolve t' l ys depth rest :
  Forall EV l -> forallb (typed Ew t') l = true ->
  forallb (prefix_ok Ew t') l && forallb (fun x => nonempty (encode Ew false t' x)) l
    && (sumN (map (size Ew t') l) =? lenN (concat (map (encode Ew false t') l))) = true ->
  lenN (encode_vec (size Ew t') (encode Ew false t') l) < 2 ^ 64 ->
  (length (encode_vec (size Ew t') (encode Ew false t') l ++ rest) < depth)%nat ->
  all_some (map (project Ew Er t') l) = Some ys ->
  decode_vec (dec_ty (dec_ext Er depth) false t') (encode_vec (size Ew t') (encode Ew false t') l ++ rest)
  = Ok (ys, rest)
  /\ (l <> [] -> exists len r1,
       decode_u64 (encode_vec (size Ew t') (encode Ew false t') l ++ rest) = Ok (len, r1)
       /\ (len =? 0) = false
       /\ decode_elems (dec_ty (dec_ext Er depth) false t') r1 len = Ok (ys, rest) /\ ys <> [])
  /\ decode_array (length l) (dec_ty (dec_ext Er depth) false t')
        (encode_vec (size Ew t') (encode Ew false t') l ++ rest) = Ok (ys, rest).
Proof.
  intros HEV Hty Hpx Hsz Hd Hys. apply all_some_forall2 in Hys. apply forall2_combine in Hys as [Hlen Hys].
  apply andb_true_iff in Hpx as [Hpx Hsum]. apply andb_true_iff in Hpx as [Hpx Hne].
  apply N.eqb_eq in Hsum. unfold encode_vec in *. rewrite Hsum in *. rewrite <- app_assoc in *.
  rewrite lenN_app in Hsz.
  set (ps := map (fun xy => (encode Ew false t' (fst xy), snd xy)) (combine l ys)).
  assert (Hf : map fst ps = map (encode Ew false t') l).
  { subst ps. rewrite map_map. cbn [fst]. clear -Hlen. revert ys Hlen. induction l as [|x l IH]; intros [|y ys] H; try discriminate; [reflexivity|].
    cbn [combine map fst]. f_equal. apply IH. cbn in H. lia. }
  assert (Hs : map snd ps = ys).
  { subst ps. rewrite map_map. cbn [snd]. clear -Hlen. revert ys Hlen. induction l as [|x l IH]; intros [|y ys] H; try discriminate; [reflexivity|].
    cbn [combine map snd]. f_equal. apply IH. cbn in H. lia. }
  assert (Hlp : length ps = length l).
  { subst ps. rewrite map_length, combine_length. lia. }
  assert (Hpn : forall p, In p ps -> fst p <> []).
  { intros p Hp. subst ps. apply in_map_iff in Hp as ([x y] & <- & Hxy). cbn [fst].
    apply nonempty_ne. apply (forallb_In _ _ _ Hne). eapply in_combine_l. exact Hxy. }
  assert (HB : (length (concat (map fst ps)) <= depth - 1)%nat) by (rewrite Hf; rewrite !app_length in Hd; lia).
  assert (Hpd : forall p rest, In p ps -> (length (fst p ++ rest) <= depth - 1)%nat ->
     dec_ty (dec_ext Er depth) false t' (fst p ++ rest) = Ok (snd p, rest)).
  { intros p r Hp Hle. subst ps. apply in_map_iff in Hp as ([x y] & <- & Hxy). cbn [fst snd] in *.
    assert (Hx : In x l) by (eapply in_combine_l; exact Hxy).
    rewrite Forall_forall in HEV. apply (HEV x Hx).
    - apply (forallb_In _ _ _ Hty Hx).
    - apply (forallb_In _ _ _ Hpx Hx).
    - pose proof (concat_in_le (encode Ew false t') x l Hx). lia.
    - lia.
    - apply Hys. exact Hxy. }
  pose proof (elems_pairs _ (depth - 1) ps rest Hpn Hpd HB) as He.
  pose proof (darr_pairs _ (depth - 1) ps Hpn Hpd HB) as Ha.
  rewrite Hf, Hs in He. rewrite Hf, Hs, Hlp in Ha.
  assert (Hu : decode_u64 (encode_u64 (lenN (concat (map (encode Ew false t') l))) ++ concat (map (encode Ew false t') l) ++ rest)
    = Ok (lenN (concat (map (encode Ew false t') l)), concat (map (encode Ew false t') l) ++ rest)).
  { apply decode_u64_encode. lia. }
  split; [|split].
  - unfold decode_vec. rewrite Hu. cbn [bind]. exact He.
  - intros Hl. eexists _, _. split; [exact Hu|]. split; [|split; [exact He|]].
    + apply N.eqb_neq. intros H0.
      pose proof (concat_len_ge (encode Ew false t') l (fun x Hx => nonempty_ne _ (forallb_In _ _ _ Hne Hx))) as Hge.
      unfold lenN in H0. destruct l; [congruence|]. cbn [length] in Hge. lia.
    + destruct l; [congruence|]. destruct ys; [discriminate|]. discriminate.
  - unfold decode_array. rewrite Hu. cbn [bind]. rewrite ensure_size_app. cbv zeta.
    rewrite to_nat_lenN, firstn_len_app, skipn_len_app. rewrite Ha. cbn [bind].
    rewrite Hlen, Nat.eqb_refl. reflexivity.
Qed.

Lemma map_evolve tk tv l ys depth rest :
  Forall (fun kv => EV (fst kv) /\ EV (snd kv)) l ->
  forallb (fun kv => typed Ew tk (fst kv) && typed Ew tv (snd kv)) l = true ->
  forallb (fun kv => prefix_ok Ew tk (fst kv) && prefix_ok Ew tv (snd kv)) l
    && forallb (fun kv => nonempty (encode Ew false tk (fst kv) ++ encode Ew false tv (snd kv))) l
    && (sumN (map (fun kv => size Ew tk (fst kv) + size Ew tv (snd kv)) l)
        =? lenN (concat (map (fun kv => encode Ew false tk (fst kv) ++ encode Ew false tv (snd kv)) l))) = true ->
  let bytes := encode_u64 (sumN (map (fun kv => size Ew tk (fst kv) + size Ew tv (snd kv)) l))
      ++ concat (map (fun kv => encode Ew false tk (fst kv) ++ encode Ew false tv (snd kv)) l) in
  lenN bytes < 2 ^ 64 -> (length (bytes ++ rest) < depth)%nat ->
  all_some (map (fun kv => match project Ew Er tk (fst kv), project Ew Er tv (snd kv) with
                           | Some a, Some b => Some (a, b) | _, _ => None end) l) = Some ys ->
  let d := dpair (dec_ty (dec_ext Er depth) false tk) (dec_ty (dec_ext Er depth) false tv) in
  exists len r1, decode_u64 (bytes ++ rest) = Ok (len, r1)
    /\ decode_elems d r1 len = Ok (ys, rest)
    /\ (l <> [] -> (len =? 0) = false /\ ys <> []).
Proof.
  intros HEV Hty Hpx bytes Hsz Hd Hys d. subst bytes. apply all_some_forall2 in Hys. apply forall2_combine in Hys as [Hlen Hys].
  apply andb_true_iff in Hpx as [Hpx Hsum]. apply andb_true_iff in Hpx as [Hpx Hne].
  apply N.eqb_eq in Hsum. rewrite Hsum in *. rewrite <- app_assoc in *. rewrite lenN_app in Hsz.
  set (enc := fun kv : val * val => encode Ew false tk (fst kv) ++ encode Ew false tv (snd kv)) in *.
  set (ps := map (fun xy => (enc (fst xy), snd xy)) (combine l ys)).
  assert (Hf : map fst ps = map enc l).
  { subst ps. rewrite map_map. cbn [fst]. clear -Hlen. revert ys Hlen. induction l as [|x l IH]; intros [|y ys] H; try discriminate; [reflexivity|].
    cbn [combine map fst]. f_equal. apply IH. cbn in H. lia. }
  assert (Hs : map snd ps = ys).
  { subst ps. rewrite map_map. cbn [snd]. clear -Hlen. revert ys Hlen. induction l as [|x l IH]; intros [|y ys] H; try discriminate; [reflexivity|].
    cbn [combine map snd]. f_equal. apply IH. cbn in H. lia. }
  assert (Hpn : forall p, In p ps -> fst p <> []).
  { intros p Hp. subst ps. apply in_map_iff in Hp as ([x y] & <- & Hxy). cbn [fst].
    apply nonempty_ne. apply (forallb_In _ _ _ Hne). eapply in_combine_l. exact Hxy. }
  assert (HB : (length (concat (map fst ps)) <= depth - 1)%nat) by (rewrite Hf; rewrite !app_length in Hd; lia).
  assert (Hpd : forall p rest, In p ps -> (length (fst p ++ rest) <= depth - 1)%nat ->
     d (fst p ++ rest) = Ok (snd p, rest)).
  { intros p r Hp Hle. subst ps. apply in_map_iff in Hp as ([x y] & <- & Hxy). cbn [fst snd] in *.
    assert (Hx : In x l) by (eapply in_combine_l; exact Hxy).
    pose proof (Hys x y Hxy) as Hpr. destruct x as [k v].
    pose proof (concat_in_le enc (k, v) l Hx) as Hle2.
    assert (Henc : enc (k, v) = encode Ew false tk k ++ encode Ew false tv v) by reflexivity.
    rewrite Henc in *. rewrite lenN_app in Hle2. cbn [fst snd] in Hpr.
    destruct (project Ew Er tk k) as [a|] eqn:Ea; [|discriminate].
    destruct (project Ew Er tv v) as [b|] eqn:Eb; [|discriminate]. injection Hpr as <-.
    subst d. unfold dpair. rewrite <- app_assoc in Hle |- *.
    rewrite Forall_forall in HEV. destruct (HEV _ Hx) as [Hk Hv]. cbn [fst snd] in *.
    pose proof (forallb_In _ _ _ Hty Hx) as Ht. cbn [fst snd] in Ht. apply andb_true_iff in Ht as [Htk Htv].
    pose proof (forallb_In _ _ _ Hpx Hx) as Hp. cbn [fst snd] in Hp. apply andb_true_iff in Hp as [Hpk Hpv].
    rewrite (Hk tk false depth _ a Htk Hpk); [|lia|lia|exact Ea]. cbn [bind].
    rewrite !app_length in Hle.
    rewrite (Hv tv false depth _ b Htv Hpv); [reflexivity|lia|rewrite app_length; lia|exact Eb]. }
  pose proof (elems_pairs _ (depth - 1) ps rest Hpn Hpd HB) as He.
  rewrite Hf, Hs in He.
  eexists _, _. split; [apply decode_u64_encode; lia|]. split; [exact He|].
  intros Hl. split.
  - apply N.eqb_neq. intros H0.
    pose proof (concat_len_ge enc l (fun x Hx => nonempty_ne _ (forallb_In _ _ _ Hne Hx))) as Hge.
    unfold lenN in H0. destruct l; [congruence|]. cbn [length] in Hge. lia.
  - destruct l; [congruence|]. destruct ys; [discriminate|]. discriminate.
Qed.

Lemma EV_all v : EV2 v.
Proof.
  induction v using val_ind'; (split; [|try discriminate]); try (intros x X; injection X as <-; exact (proj1 IHv)).
  - (* VBool *) apply EV_leaf. intros t. induction t; intros Ht; try discriminate Ht; try (split; reflexivity).
    + cbn in Ht. destruct t; discriminate.
    + rewrite typed_gen in Ht. rewrite project_gen. apply IHt. exact Ht.
  - (* VInt *) apply EV_leaf. intros t. induction t; intros Ht; try discriminate Ht; try (split; reflexivity).
    + destruct (typed_nz Ew t _ Ht) as (Hin & _ & Ht'). rewrite project_nz. apply IHt. exact Ht'.
    + rewrite typed_gen in Ht. rewrite project_gen. apply IHt. exact Ht.
  - (* VBits *) apply EV_leaf. intros t. induction t; intros Ht; try discriminate Ht; try (split; reflexivity).
    + cbn in Ht. destruct t; discriminate.
    + rewrite typed_gen in Ht. rewrite project_gen. apply IHt. exact Ht.
  - (* VBytes *) apply EV_leaf. intros t. induction t; intros Ht; try discriminate Ht; try (split; reflexivity).
    + destruct (typed_nz Ew t _ Ht) as (Hin & _ & Ht'). rewrite project_nz. apply IHt. exact Ht'.
    + rewrite typed_gen in Ht. rewrite project_gen. apply IHt. exact Ht.
  - (* VList *)
    assert (H' : Forall EV l) by (eapply Forall_impl; [|exact H]; intros a Ha; exact (proj1 Ha)).
    intros t. induction t; intros root depth rest v' Hty Hpx Hsz Hd Hpr; try discriminate Hty.
    + (* vec *)
      clear IHt. cbn [typed head_ok core andb] in Hty. cbn [prefix_ok core] in Hpx. cbn [project core] in Hpr.
      destruct (all_some (map (project Ew Er t) l)) as [ys|] eqn:Ey; [|discriminate]. injection Hpr as <-.
      cbn [encode core dec_ty] in *. apply dmap_ok.
      apply (vec_evolve t l ys depth rest H' Hty Hpx Hsz Hd Ey).
    + (* set *)
      clear IHt. cbn [typed head_ok core andb] in Hty. cbn [prefix_ok core] in Hpx. cbn [project core] in Hpr.
      apply andb_true_iff in Hty as [Hty _].
      destruct (all_some (map (project Ew Er t) l)) as [ys|] eqn:Ey; [|discriminate]. injection Hpr as <-.
      cbn [encode core dec_ty] in *. apply dmap_ok. unfold decode_hash_set.
      destruct (vec_evolve t l ys depth rest H' Hty Hpx Hsz Hd Ey) as [-> _]. reflexivity.
    + (* non_zero *)
      clear IHt. cbn [typed head_ok nonzero_val] in Hty.
      apply andb_true_iff in Hty as [Hnz Hty]. apply andb_true_iff in Hnz as [Hin Hnz].
      assert (Hne : l <> []) by (destruct l; discriminate).
      destruct t; try discriminate Hin; try discriminate Hty; cbn [core] in Hty;
        cbn [prefix_ok core] in Hpx; cbn [encode core dec_ty] in *; apply dmap_ok || idtac;
        cbn [project core] in Hpr;
        (destruct (all_some (map (project Ew Er t) l)) as [ys|] eqn:Ey; [|discriminate]); injection Hpr as <-;
        apply dmap_ok.
      * destruct (vec_evolve t l ys depth rest H' Hty Hpx Hsz Hd Ey) as (_ & Hz & _).
        destruct (Hz Hne) as (len & r1 & H1 & H2 & H3 & H4).
        unfold decode_non_zero_vec. rewrite H1. cbn [bind]. rewrite H2, H3. cbn [bind].
        destruct ys; [congruence|reflexivity].
      * apply andb_true_iff in Hty as [Hty Hnd].
        destruct (vec_evolve t l ys depth rest H' Hty Hpx Hsz Hd Ey) as (_ & Hz & _).
        destruct (Hz Hne) as (len & r1 & H1 & H2 & H3 & H4).
        unfold decode_non_zero_hash_set. rewrite H1. cbn [bind]. rewrite H2, H3. cbn [bind].
        pose proof (set_of_ne val_eqb ys H4) as Hsn.
        destruct (set_of val_eqb ys); [congruence|reflexivity].
    + (* tuple *)
      cbn [typed head_ok core andb] in Hty. cbn [prefix_ok core] in Hpx. cbn [project core] in Hpr.
      destruct (all_some (seq_map (project Ew Er) ts l)) as [ys|] eqn:Ey; [|discriminate]. injection Hpr as <-.
      apply andb_true_iff in Hpx as [Hpx Hfit]. apply N.ltb_lt in Hfit.
      cbn [encode core dec_ty is_tuple] in *. rewrite andb_true_r in *. destruct root.
      * unfold encode_tuple in *. rewrite <- app_assoc in *. rewrite lenN_app in Hsz.
        rewrite decode_u64_encode by exact Hfit. cbn [bind].
        rewrite app_length in Hd.
        rewrite (seq_evolve ts l ys); [reflexivity|exact H'|exact Hty|exact Hpx|lia|lia|exact Ey].
      * cbn [bind]. rewrite (seq_evolve ts l ys); [reflexivity|exact H'|exact Hty|exact Hpx|exact Hsz|exact Hd|exact Ey].
    + (* array *)
      clear IHt. cbn [typed head_ok core andb] in Hty. cbn [prefix_ok core] in Hpx. cbn [project core] in Hpr.
      apply andb_true_iff in Hty as [Hn Hty]. apply Nat.eqb_eq in Hn.
      destruct (all_some (map (project Ew Er t) l)) as [ys|] eqn:Ey; [|discriminate]. injection Hpr as <-.
      cbn [encode core dec_ty] in *. apply dmap_ok. rewrite <- Hn.
      apply (vec_evolve t l ys depth rest H' Hty Hpx Hsz Hd Ey).
    + rewrite encode_gen in *. rewrite typed_gen in Hty. rewrite prefix_gen in Hpx. rewrite project_gen in Hpr.
      apply IHt; assumption.
  - (* VMap *)
    assert (H' : Forall (fun kv => EV (fst kv) /\ EV (snd kv)) l).
    { eapply Forall_impl; [|exact H]. intros a [Ha Hb]. split; [exact (proj1 Ha)|exact (proj1 Hb)]. }
    intros t. induction t; intros root depth rest v' Hty Hpx Hsz Hd Hpr; try discriminate Hty.
    + cbn [typed head_ok core andb] in Hty. cbn [prefix_ok core] in Hpx. cbn [project core] in Hpr.
      apply andb_true_iff in Hty as [Hty Hnd].
      match type of Hpr with option_map _ ?X = _ => destruct X as [ys|] eqn:Ey; [|discriminate] end. injection Hpr as <-.
      cbn [encode core dec_ty] in *. unfold encode_hash_map in *. apply dmap_ok.
      destruct (map_evolve t1 t2 l ys depth rest H' Hty Hpx Hsz Hd Ey) as (len & r1 & H1 & H2 & _).
      unfold decode_hash_map, decode_vec. rewrite H1. cbn [bind]. rewrite H2. reflexivity.
    + clear IHt. cbn [typed head_ok nonzero_val] in Hty.
      apply andb_true_iff in Hty as [Hnz Hty]. apply andb_true_iff in Hnz as [Hin Hnz].
      destruct t; try discriminate Hin; try discriminate Hty; cbn [core] in Hty.
      apply andb_true_iff in Hty as [Hty Hnd].
      cbn [prefix_ok core] in Hpx. cbn [project core] in Hpr. cbn [encode core dec_ty] in *.
      match type of Hpr with option_map _ ?X = _ => destruct X as [ys|] eqn:Ey; [|discriminate] end. injection Hpr as <-.
      apply dmap_ok.
      unfold encode_hash_map in *. destruct (map_evolve t1 t2 l ys depth rest H' Hty Hpx Hsz Hd Ey) as (len & r1 & H1 & H2 & H3).
      destruct H3 as [H3 H4]; [destruct l; discriminate|].
      unfold decode_non_zero_hash_map. rewrite H1. cbn [bind]. rewrite H3, H2. cbn [bind].
      pose proof (map_of_ne val_eqb ys H4) as Hsn. destruct (map_of val_eqb ys); [congruence|reflexivity].
    + rewrite encode_gen in *. rewrite typed_gen in Hty. rewrite prefix_gen in Hpx. rewrite project_gen in Hpr.
      apply IHt; assumption.
  - (* VNone *)
    intros t. induction t; intros root depth rest v' Hty Hpx Hsz Hd Hpr; try discriminate Hty.
    + cbn [project core] in Hpr. injection Hpr as <-.
      cbn [encode core dec_ty encode_option]. unfold dmap, decode_option.
      change ([0] ++ rest) with (encode_u8 0 ++ rest).
      rewrite decode_u8_encode. reflexivity.
    + cbn in Hty. destruct t; discriminate.
    + rewrite encode_gen in *. rewrite typed_gen in Hty. rewrite prefix_gen in Hpx. rewrite project_gen in Hpr.
      apply IHt; assumption.
  - (* VSome *)
    destruct IHv as [IHv _].
    intros t. induction t; intros root depth rest v' Hty Hpx Hsz Hd Hpr; try discriminate Hty.
    + cbn [typed head_ok core andb] in Hty. cbn [prefix_ok core] in Hpx. cbn [project core] in Hpr.
      destruct (project Ew Er t v) as [y|] eqn:Ey; [|discriminate]. injection Hpr as <-.
      cbn [encode core dec_ty encode_option app] in *. unfold dmap, decode_option.
      change (1 :: encode Ew false t v ++ rest) with (encode_u8 1 ++ (encode Ew false t v ++ rest)).
      rewrite decode_u8_encode. cbn [bind]. change (1 =? 1) with true. cbv iota.
      rewrite lenN_cons in Hsz. cbn [length] in Hd.
      rewrite (IHv t false depth rest y Hty Hpx); [reflexivity|lia|lia|exact Ey].
    + cbn in Hty. destruct t; discriminate.
    + rewrite encode_gen in *. rewrite typed_gen in Hty. rewrite prefix_gen in Hpx. rewrite project_gen in Hpr.
      apply IHt; assumption.
  - (* VRec *)
    intros t. induction t; intros root depth rest v' Hty Hpx Hsz Hd Hpr; try discriminate Hty.
    + cbn in Hty. destruct t; discriminate.
    + cbn [typed head_ok core andb] in Hty. cbn [prefix_ok core] in Hpx. cbn [project core] in Hpr.
      cbn [encode core dec_ty] in *. pose proof (Hev i) as Hi.
      destruct (nth_error Ew i) as [[fw|vars]|] eqn:Ei; try discriminate.
      destruct (nth_error Er i) as [[fr|vars]|] eqn:Ej; try discriminate.
      destruct (received _ _) as [ys|] eqn:Ey in Hpr; [|discriminate]. injection Hpr as <-.
      destruct depth as [|depth]; [lia|]. cbn [dec_ext]. rewrite Ej. apply dmap_ok.
      apply (body_evolve (inst args fw) (inst args fr)); try assumption.
      * apply evolve_inst. exact Hi.
      * apply inst_ok. eapply env_struct; [exact HEw|exact Ei].
      * apply inst_ok. eapply env_struct; [exact HEr|exact Ej].
      * lia.
    + rewrite encode_gen in *. rewrite typed_gen in Hty. rewrite prefix_gen in Hpx. rewrite project_gen in Hpr.
      apply IHt; assumption.
  - (* VVar *)
    intros t. induction t; intros root depth rest v' Hty Hpx Hsz Hd Hpr; try discriminate Hty.
    + cbn in Hty. destruct t; discriminate.
    + cbn [typed head_ok core andb] in Hty. cbn [prefix_ok core] in Hpx. cbn [project core] in Hpr.
      cbn [encode core dec_ty] in *. pose proof (Hev i0) as Hi.
      destruct (nth_error Ew i0) as [[fs|vw]|] eqn:Ei; try discriminate.
      destruct (nth_error Er i0) as [[fs|vr]|] eqn:Ej; try discriminate.
      destruct (nth_error vw i) as [w|] eqn:Ev; [|discriminate].
      destruct (find_variant (v_id w) vr 0) as [[k r]|] eqn:Ek; [|discriminate].
      destruct (received _ _) as [ys|] eqn:Ey in Hpr; [|discriminate]. injection Hpr as <-.
      destruct depth as [|depth]; [lia|]. cbn [dec_ext]. rewrite Ej.
      destruct (env_enum Ew HEw _ _ Ei) as [Hndw Hallw].
      destruct (Hallw w (nth_error_In _ _ Ev)) as [Hid Hfs].
      destruct (find_variant_some _ _ _ _ _ Ek) as (_ & Hr & Hrid).
      destruct (env_enum Er HEr _ _ Ej) as [Hndr Hallr].
      pose proof (nth_error_In _ _ Hr) as Hrin.
      destruct (Hallr r Hrin) as [_ Hfr].
      unfold decode_variant_id, encode_variant_id in *. rewrite <- app_assoc in *.
      rewrite decode_u32_encode by exact Hid. cbn [bind]. rewrite Ek. apply dmap_ok.
      rewrite lenN_app in Hsz. rewrite app_length in Hd.
      apply (body_evolve (inst args (v_fields w)) (inst args (v_fields r))); try assumption.
      * apply evolve_inst. apply Hi; [eapply nth_error_In; exact Ev|exact Hrin|congruence].
      * apply inst_ok. exact Hfs.
      * apply inst_ok. exact Hfr.
      * lia.
      * lia.
    + rewrite encode_gen in *. rewrite typed_gen in Hty. rewrite prefix_gen in Hpx. rewrite project_gen in Hpr.
      apply IHt; assumption.
Qed.

Theorem evolve root t v v' rest :
  typed Ew t v = true -> prefix_ok Ew t v = true -> lenN (encode Ew root t v) < 2 ^ 64 ->
  project Ew Er t v = Some v' ->
  decode Er root t (encode Ew root t v ++ rest) = Ok (v', rest).
Proof.
  intros Ht Hp Hl Hpr. unfold decode. apply (proj1 (EV_all v)); try assumption. lia.
Qed.
End Evolve.
