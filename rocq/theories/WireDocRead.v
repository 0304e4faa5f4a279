(** The generated decoders read everything that is in the format; every value has an encoding;
    where the manual and the code agree. *)
From Verif Require Import Base Varint VarintSpec VarintProofs Wire WireProofs Codec CodecSpec CodecProofs
  SchemaSpec Safety Stable Size PrefixOk WireDoc WireDocProofs.
Local Open Scope N_scope.

Lemma app_ne_l {A} (a b : list A) : a <> [] -> a ++ b <> [].
Proof. destruct a; [congruence|discriminate]. Qed.
Lemma app_ne_r {A} (a b : list A) : b <> [] -> a ++ b <> [].
Proof. destruct a; [auto|discriminate]. Qed.

Lemma wire_nonempty E :
  (forall q t v l, wire false E q t v l -> occupies E t = true -> l <> [])
  /\ (forall t vs l, elems false E t vs l -> occupies E t = true -> (length vs <= length l)%nat)
  /\ (forall k t m l, pairs false E k t m l -> occupies E k || occupies E t = true -> (length m <= length l)%nat)
  /\ (forall ts vs l, items false E ts vs l -> existsb (occupies E) ts = true -> l <> [])
  /\ (forall fs vs l, members false E fs vs l -> True).
Proof.
  apply wire_mutind; intros; try discriminate; try exact I;
    try (eapply leb_of_nonempty; eassumption);
    try (match goal with H : leb_of _ ?p |- ?p ++ _ <> [] => apply app_ne_l; eapply leb_of_nonempty; exact H end);
    try (match goal with H : length ?l = _ |- ?l <> [] => destruct l; discriminate end);
    try (cbn [length]; lia).
  - apply app_ne_r. auto.
  - auto.
  - auto.
  - exfalso. cbn [occupies] in *. rewrite H in *. rewrite H0 in *. discriminate.
  - apply app_ne_r. discriminate.
  - rewrite app_length. cbn [length]. specialize (H0 H3). specialize (H2 H3). destruct l; [congruence|]. cbn [length]. lia.
  - rewrite !app_length. cbn [length]. specialize (H4 H5). apply orb_true_iff in H5 as [Ho|Ho].
    + specialize (H0 Ho). destruct lk; [congruence|]. cbn [length]. lia.
    + specialize (H2 Ho). destruct lv; [congruence|]. cbn [length]. lia.
  - cbn [existsb] in *. match goal with H : _ || _ = true |- _ => apply orb_true_iff in H as [Ho|Ho] end; [apply app_ne_l|apply app_ne_r]; auto.
Qed.

(** * Non-zero readers *)
Lemma nz_bytes_of r b r' : decode_bytes r = Ok (b, r') -> b <> [] -> decode_non_zero_bytes r = Ok (b, r').
Proof.
  unfold decode_bytes, decode_non_zero_bytes. intros H Hb. apply bind_ok in H as ([len r1] & -> & H). cbn [bind].
  apply ensure_ok in H as [Hle H]. destruct (N.eqb_spec len 0) as [->|_].
  - cbn in H. injection H as <- <-. congruence.
  - unfold ensure_size. replace (lenN r1 <? len) with false by lia.
    injection H as <- <-. unfold nonzero_unwrap. destruct (firstn (N.to_nat len) r1); [congruence|reflexivity].
Qed.
Lemma nz_string_of r b r' : decode_string r = Ok (b, r') -> b <> [] -> decode_non_zero_string r = Ok (b, r').
Proof.
  unfold decode_string, decode_non_zero_string. intros H Hb. apply bind_ok in H as ([c r1] & Hc & H).
  destruct (utf8_ok c) eqn:Eu; [|discriminate]. injection H as -> ->.
  rewrite (nz_bytes_of _ _ _ Hc Hb). cbn [bind]. rewrite Eu. destruct b; [congruence|reflexivity].
Qed.
Lemma dloop_nil {T} (d : dec T) n r xs : dloop d n r = Ok xs -> xs <> [] -> r <> [].
Proof. destruct r; [|discriminate]. destruct n; cbn; congruence. Qed.
Lemma elems_zero {T} (d : dec T) r1 len xs r2 : decode_elems d r1 len = Ok (xs, r2) -> xs <> [] -> len <> 0.
Proof.
  unfold decode_elems. intros H Hx ->. apply ensure_ok in H as [_ H]. cbn [N.to_nat firstn dloop bind] in H. congruence.
Qed.
Lemma nz_vec_of {T} (d : dec T) r xs r' : decode_vec d r = Ok (xs, r') -> xs <> [] -> decode_non_zero_vec d r = Ok (xs, r').
Proof.
  unfold decode_vec, decode_non_zero_vec. intros H Hx. apply bind_ok in H as ([len r1] & -> & H). cbn [bind].
  pose proof (elems_zero _ _ _ _ _ H Hx). destruct (N.eqb_spec len 0); [contradiction|]. rewrite H. cbn [bind].
  destruct xs; [congruence|reflexivity].
Qed.
Lemma set_of_nil {K} (eqb : K -> K -> bool) : set_of eqb [] = [].
Proof. reflexivity. Qed.
Lemma nz_set_of {K} (eqb : K -> K -> bool) (d : dec K) r xs r' :
  decode_hash_set eqb d r = Ok (xs, r') -> xs <> [] -> decode_non_zero_hash_set eqb d r = Ok (xs, r').
Proof.
  unfold decode_hash_set, decode_vec, decode_non_zero_hash_set. intros H Hx. apply bind_ok in H as ([l r2] & H & E).
  injection E as <- ->. apply bind_ok in H as ([len r1] & -> & H). cbn [bind].
  assert (Hl : l <> []) by (intros ->; apply Hx; reflexivity).
  pose proof (elems_zero _ _ _ _ _ H Hl). destruct (N.eqb_spec len 0); [contradiction|]. rewrite H. cbn [bind].
  destruct (set_of eqb l); [congruence|reflexivity].
Qed.
Lemma nz_map_of {K V} (eqb : K -> K -> bool) (dk : dec K) (dv : dec V) r xs r' :
  decode_hash_map eqb dk dv r = Ok (xs, r') -> xs <> [] -> decode_non_zero_hash_map eqb dk dv r = Ok (xs, r').
Proof.
  unfold decode_hash_map, decode_vec, decode_non_zero_hash_map. intros H Hx. apply bind_ok in H as ([l r2] & H & E).
  injection E as <- ->. apply bind_ok in H as ([len r1] & -> & H). cbn [bind].
  assert (Hl : l <> []) by (intros ->; apply Hx; reflexivity).
  pose proof (elems_zero _ _ _ _ _ H Hl). destruct (N.eqb_spec len 0); [contradiction|]. rewrite H. cbn [bind].
  destruct (map_of eqb l); [congruence|reflexivity].
Qed.
Lemma dmap_inv {A B} (f : A -> B) (d : dec A) r b r' : dmap f d r = Ok (b, r') -> exists a, d r = Ok (a, r') /\ f a = b.
Proof. unfold dmap. intros H. apply bind_ok in H as ([a r1] & H & E). injection E as <- <-. eauto. Qed.

Section Decoder.
Variable E : env.
Hypothesis HE : env_ok E = true.
Hypothesis HS : solid E = true.
Notation W := (wire false E).
Notation sol t := (solid_type E t = true).

Lemma solid_ext i args d : nth_error E i = Some d -> sol (TExt i args) ->
  forall t, In t (def_types d) -> sol (subst args t).
Proof.
  intros Hi Ha t Ht. unfold solid_type in *. cbn [all_ty node_solid] in Ha. apply andb_true_iff in Ha as [Ho Ha].
  eapply (all_ty_subst (node_solid E) (node_solid E)).
  - apply Forall_forall. intros a Hin. cbn [all_ty node_solid andb]. rewrite forallb_forall in Ha. apply Ha. exact Hin.
  - intros u Hu. destruct u; cbn [node_solid subst] in *; try reflexivity.
    + apply occupies_subst; assumption.
    + apply orb_true_iff in Hu as [H|H]; apply orb_true_iff; [left|right]; apply occupies_subst; assumption.
    + apply occupies_subst; assumption.
    + apply occupies_subst; assumption.
    + rewrite forallb_map. eapply forallb_imp; [|exact Hu]. apply Forall_forall. intros x _ Hx.
      apply occupies_subst; assumption.
    + right. reflexivity.
  - unfold solid in HS. rewrite forallb_forall in HS. specialize (HS d (nth_error_In _ _ Hi)).
    rewrite forallb_forall in HS. apply HS. exact Ht.
Qed.

Lemma u64_leb n p rest : leb_of n p -> n < 2 ^ 64 -> decode_u64 (p ++ rest) = Ok (n, rest).
Proof. intros Hp Hn. rewrite (leb_of_eq W64 n p Hn Hp). apply decode_u64_encode. exact Hn. Qed.

Lemma nz_read q t v l depth rest : nz_inner t = true -> nonzero_val v = true ->
  dec_ty (dec_ext E depth) q t (l ++ rest) = Ok (v, rest) ->
  dec_ty (dec_ext E depth) q (TNonZero t) (l ++ rest) = Ok (v, rest).
Proof.
  intros Hin Hnz H. destruct t; try discriminate Hin; cbn [dec_ty] in *; apply dmap_inv in H as (a & H & <-); cbn [nonzero_val dVN] in Hnz.
  - apply dmap_ok. unfold decode_non_zero_uint. rewrite H. cbn [bind]. destruct (N.eqb_spec a 0); [subst; discriminate|reflexivity].
  - apply dmap_ok. unfold decode_non_zero_sint. rewrite H. cbn [bind]. destruct (Z.eqb_spec a 0); [subst; discriminate|reflexivity].
  - apply dmap_ok. unfold decode_non_zero_uint. rewrite H. cbn [bind]. destruct (N.eqb_spec a 0); [subst; discriminate|reflexivity].
  - apply dmap_ok. unfold decode_non_zero_sint. rewrite H. cbn [bind]. destruct (Z.eqb_spec a 0); [subst; discriminate|reflexivity].
  - apply dmap_ok. apply nz_string_of; [exact H|]. intros ->. discriminate.
  - apply dmap_ok. apply nz_string_of; [exact H|]. intros ->. discriminate.
  - apply dmap_ok. apply nz_bytes_of; [exact H|]. intros ->. discriminate.
  - apply dmap_ok. apply nz_bytes_of; [exact H|]. intros ->. discriminate.
  - apply dmap_ok. apply nz_vec_of; [exact H|]. intros ->. discriminate.
  - apply dmap_ok. apply nz_map_of; [exact H|]. intros ->. discriminate.
  - apply dmap_ok. apply nz_set_of; [exact H|]. intros ->. discriminate.
Qed.

Lemma nz_root root t : nz_inner t = true -> dec_ty (dec_ext E root) true (TNonZero t) = dec_ty (dec_ext E root) false (TNonZero t).
Proof. intros H. destruct t; try discriminate H; reflexivity. Qed.

Lemma dloop_step {T} (d : dec T) n l x r : d l = Ok (x, r) -> l <> [] ->
  dloop d (S n) l = (do xs <- dloop d n r; Ok (x :: xs)).
Proof. intros H Hl. destruct l; [congruence|]. cbn [dloop]. rewrite H. reflexivity. Qed.
Lemma darr_step {T} (d : dec T) n l x r : d l = Ok (x, r) -> l <> [] ->
  darr d (S n) l = (do xs <- darr d n r; Ok (x :: xs)).
Proof. intros H Hl. destruct l; [congruence|]. cbn [darr]. rewrite H. reflexivity. Qed.

Definition Pwire q t v l := typed E t v = true -> sol t -> lenN l < 2 ^ 64 -> forall depth rest,
  (length (l ++ rest) < depth)%nat -> dec_ty (dec_ext E depth) q t (l ++ rest) = Ok (v, rest).
Definition Pelems t vs l := forallb (typed E t) vs = true -> sol t -> occupies E t = true -> lenN l < 2 ^ 64 ->
  forall depth n, (length l < depth)%nat -> (length vs <= n)%nat ->
  dloop (dec_ty (dec_ext E depth) false t) n l = Ok vs /\ darr (dec_ty (dec_ext E depth) false t) (length vs) l = Ok vs.
Definition Ppairs k t m l := forallb (fun kv => typed E k (fst kv) && typed E t (snd kv)) m = true -> sol k -> sol t ->
  occupies E k || occupies E t = true -> lenN l < 2 ^ 64 ->
  forall depth n, (length l < depth)%nat -> (length m <= n)%nat ->
  dloop (dpair (dec_ty (dec_ext E depth) false k) (dec_ty (dec_ext E depth) false t)) n l = Ok m.
Definition Pitems ts vs l := all2 (typed E) ts vs = true -> forallb (solid_type E) ts = true -> lenN l < 2 ^ 64 ->
  forall depth rest, (length (l ++ rest) < depth)%nat ->
  decode_seq (dec_ty (dec_ext E depth) false) ts (l ++ rest) = Ok (vs, rest).
Definition Pmembers fs vs l := all2 (typed E) (map f_ty fs) vs = true -> (forall f, In f fs -> sol (f_ty f)) -> lenN l < 2 ^ 64 ->
  forall pre done fuel rest depth,
  NoDup (map f_id (pre ++ fs)) -> Forall (fun f => 0 < f_id f /\ f_id f < 2 ^ 29) fs -> length done = length pre ->
  (length (l ++ [0%N] ++ rest) <= depth)%nat -> (length (l ++ [0%N] ++ rest) < fuel)%nat ->
  loop_fields (dec_ty (dec_ext E depth) true) (pre ++ fs) fuel (done ++ map (fun _ => None) fs) (l ++ [0] ++ rest)
  = Ok (done ++ slots_of fs vs, rest).

Lemma read_field f x p l l' t depth pre fs done fuel rest :
  payload_ty (f_ty f) = t ->
  leb_of (8 * f_id f + class false t) p -> typed E t x = true -> lenN l < 2 ^ 64 ->
  (forall depth rest, (length (l ++ rest) < depth)%nat -> dec_ty (dec_ext E depth) true t (l ++ rest) = Ok (x, rest)) ->
  NoDup (map f_id (pre ++ f :: fs)) -> 0 < f_id f -> f_id f < 2 ^ 29 -> length done = length pre ->
  (length ((p ++ l ++ l') ++ [0%N] ++ rest) <= depth)%nat -> (length ((p ++ l ++ l') ++ [0%N] ++ rest) < S fuel)%nat ->
  loop_fields (dec_ty (dec_ext E depth) true) (pre ++ f :: fs) (S fuel) (done ++ map (fun _ => None) (f :: fs)) ((p ++ l ++ l') ++ [0] ++ rest)
  = loop_fields (dec_ty (dec_ext E depth) true) ((pre ++ [f]) ++ fs) fuel ((done ++ [Some x]) ++ map (fun _ => None) fs) (l' ++ [0] ++ rest)
  /\ (length (l' ++ [0%N] ++ rest) <= depth)%nat /\ (length (l' ++ [0%N] ++ rest) < fuel)%nat.
Proof.
  intros Ep Hp Ht Hn Hd Hnd Hf0 Hf29 Hdone HB Hfuel.
  assert (Hpe : p = encode_id (FieldId (f_id f) (fenc_of t))).
  { eapply leb_of_unique; [exact Hp|]. apply (id_leb E _ _ x); assumption. }
  pose proof (fid_enc_len_pos (FieldId (f_id f) (fenc_of t)) Hf29) as Hpos. rewrite <- Hpe in Hpos.
  rewrite <- !app_assoc in *. rewrite !app_length in HB, Hfuel. cbn [length] in HB, Hfuel.
  split; [|rewrite !app_length; cbn [length]; lia].
  cbn [loop_fields]. rewrite Hpe. rewrite decode_id_encode by exact Hf29. cbn [bind fid_value].
  replace (f_id f =? END_MARKER) with false by (unfold END_MARKER; lia).
  rewrite (find_field_app (f_id f) pre f fs 0 Hnd eq_refl). cbn [Nat.add]. rewrite Ep.
  rewrite Hd by (rewrite !app_length; cbn [length]; lia). cbn [bind map]. rewrite <- Hdone, set_slot_app.
  f_equal; try reflexivity.
Qed.

Lemma read_struct fs vs l depth rest : fields_ok fs = true -> fs_kind fs <> KUnit -> Pmembers (fs_list fs) vs l ->
  all2 (typed E) (map f_ty (fs_list fs)) vs = true -> (forall f, In f (fs_list fs) -> sol (f_ty f)) -> lenN l < 2 ^ 64 ->
  (length ((l ++ [0%N]) ++ rest) <= depth)%nat ->
  decode_body (dec_ty (dec_ext E depth) true) fs ((l ++ [0]) ++ rest) = Ok (vs, rest).
Proof.
  intros Hok Hk HP Ht Hs Hn Hd. destruct (fields_ok_ids fs Hok) as (Hnd & Hids & _).
  unfold decode_body. rewrite <- app_assoc in *.
  pose proof (HP Ht Hs Hn [] [] (S (length (l ++ [0] ++ rest))) rest depth Hnd Hids eq_refl Hd ltac:(lia)) as G.
  change ([] ++ fs_list fs) with (fs_list fs) in G.
  change ([] ++ map (fun _ => None) (fs_list fs)) with (map (fun _ : field => @None val) (fs_list fs)) in G.
  assert (Hm : match fs_kind fs with
    | KUnit => Ok ([], l ++ [0] ++ rest)
    | _ => do (s, r1) <- loop_fields (dec_ty (dec_ext E depth) true) (fs_list fs) (S (length (l ++ [0] ++ rest)))
             (map (fun _ => None) (fs_list fs)) (l ++ [0] ++ rest);
           do vs <- assign (fs_kind fs) (fs_list fs) s; Ok (vs, r1)
    end = do (s, r1) <- loop_fields (dec_ty (dec_ext E depth) true) (fs_list fs) (S (length (l ++ [0] ++ rest)))
             (map (fun _ => None) (fs_list fs)) (l ++ [0] ++ rest);
           do vs <- assign (fs_kind fs) (fs_list fs) s; Ok (vs, r1)) by (destruct (fs_kind fs); congruence).
  rewrite Hm, G. cbn [bind]. change ([] ++ slots_of (fs_list fs) vs) with (slots_of (fs_list fs) vs).
  rewrite (assign_slots (fs_kind fs) (typed E)); [|apply typed_option|exact Ht].
  reflexivity.
Qed.

Lemma wire_read :
  (forall q t v l, W q t v l -> Pwire q t v l)
  /\ (forall t vs l, elems false E t vs l -> Pelems t vs l)
  /\ (forall k t m l, pairs false E k t m l -> Ppairs k t m l)
  /\ (forall ts vs l, items false E ts vs l -> Pitems ts vs l)
  /\ (forall fs vs l, members false E fs vs l -> Pmembers fs vs l).
Proof.
  apply wire_mutind.
  - intros q b Ht Hs Hn depth rest Hd. cbn [dec_ty]. apply dmap_ok. apply decode_bool_encode.
  - intros q n Hb Ht Hs Hn depth rest Hd. cbn [dec_ty]. apply (dmap_ok dVN). apply decode_u8_encode.
  - intros q n Hb Ht Hs Hn depth rest Hd. cbn [dec_ty]. apply dmap_ok.
    unfold decode_i8. rewrite (ensure_size_app [n] rest). cbn [app get_u8 bind]. replace (n <? 128) with true by lia. reflexivity.
  - intros q n Hb Ht Hs Hn depth rest Hd. cbn [dec_ty]. apply dmap_ok.
    unfold decode_i8. rewrite (ensure_size_app [n] rest). cbn [app get_u8 bind]. replace (n <? 128) with false by lia. reflexivity.
  - intros q w n l Hl Ht Hs Hn depth rest Hd. cbn [dec_ty]. cbn [typed head_ok core andb] in Ht.
    apply unsigned_range in Ht as [Ht _]. rewrite N2Z.id in Ht.
    apply (dmap_ok dVN). rewrite (leb_of_eq w n l Ht Hl). apply decode_uint_encode. exact Ht.
  - intros q w z l Hl Ht Hs Hn depth rest Hd. cbn [dec_ty]. cbn [typed head_ok core andb] in Ht.
    apply in_signed_range in Ht. apply dmap_ok.
    rewrite (leb_of_eq w _ l (zigzag_spec_range w z Ht) Hl).
    rewrite <- (zigzag_encode_spec w z Ht). apply decode_sint_encode. exact Ht.
  - intros q l Hl Hb Ht Hs Hn depth rest Hd. cbn [dec_ty]. apply dmap_ok.
    destruct (be_bytes_value 4 l Hl Hb) as [He Hlt].
    rewrite <- He at 1. apply decode_f32_encode. exact Hlt.
  - intros q l Hl Hb Ht Hs Hn depth rest Hd. cbn [dec_ty]. apply dmap_ok.
    destruct (be_bytes_value 8 l Hl Hb) as [He Hlt].
    rewrite <- He at 1. apply decode_f64_encode. exact Hlt.
  - intros q t s p Hx Hp Ht Hs Hn depth rest Hd. rewrite lenN_app in Hn.
    assert (Hp' : p = encode_u64 (lenN s)) by (apply leb_of_eq; [change (modulus W64) with (2 ^ 64); lia|exact Hp]).
    assert (Hb : decode_bytes ((p ++ s) ++ rest) = Ok (s, rest)).
    { rewrite Hp'. apply (decode_bytes_encode s rest). lia. }
    destruct t; try discriminate Hx; cbn [typed head_ok core andb] in Ht; cbn [dec_ty]; apply dmap_ok; try exact Hb;
      apply andb_true_iff in Ht as [_ Hu]; unfold decode_string; rewrite Hb; cbn [bind]; rewrite Hu; reflexivity.
  - intros q t vs p l Hel IH Hp Ht Hs Hn depth rest Hd. cbn [typed head_ok core andb] in Ht.
    unfold solid_type in Hs. cbn [all_ty node_solid] in Hs. apply andb_true_iff in Hs as [Ho Hs].
    rewrite lenN_app in Hn. rewrite !app_length in Hd. cbn [dec_ty]. apply dmap_ok.
    unfold decode_vec. rewrite <- app_assoc. rewrite (u64_leb (lenN l)) by (assumption || lia). cbn [bind].
    unfold decode_elems. rewrite ensure_size_app. cbv zeta. rewrite to_nat_lenN, firstn_len_app, skipn_len_app.
    pose proof (proj1 (proj2 (wire_nonempty E)) _ _ _ Hel Ho) as Hge.
    destruct (IH Ht Hs Ho ltac:(lia) depth (length l) ltac:(lia) Hge) as [-> _]. reflexivity.
  - intros q t vs p l Hel IH Hp Ht Hs Hn depth rest Hd. cbn [typed head_ok core andb] in Ht.
    apply andb_true_iff in Ht as [Ht Hu].
    unfold solid_type in Hs. cbn [all_ty node_solid] in Hs. apply andb_true_iff in Hs as [Ho Hs].
    rewrite lenN_app in Hn. rewrite !app_length in Hd. cbn [dec_ty]. apply dmap_ok.
    unfold decode_hash_set, decode_vec. rewrite <- app_assoc. rewrite (u64_leb (lenN l)) by (assumption || lia). cbn [bind].
    unfold decode_elems. rewrite ensure_size_app. cbv zeta. rewrite to_nat_lenN, firstn_len_app, skipn_len_app.
    pose proof (proj1 (proj2 (wire_nonempty E)) _ _ _ Hel Ho) as Hge.
    destruct (IH Ht Hs Ho ltac:(lia) depth (length l) ltac:(lia) Hge) as [-> _]. cbn [bind].
    rewrite set_of_nodup; [reflexivity| |].
    + intros a b Hab. apply val_eqb_eq. exact Hab.
    + apply (nodupb_NoDup val_eqb); [intros; apply val_eqb_eq|exact Hu].
  - intros q k t m p l Hel IH Hp Ht Hs Hn depth rest Hd. cbn [typed head_ok core andb] in Ht.
    apply andb_true_iff in Ht as [Ht Hu].
    unfold solid_type in Hs. cbn [all_ty node_solid] in Hs. apply andb_true_iff in Hs as [Ho Hs]. apply andb_true_iff in Hs as [Hs1 Hs2].
    rewrite lenN_app in Hn. rewrite !app_length in Hd. cbn [dec_ty]. apply dmap_ok.
    unfold decode_hash_map, decode_vec. rewrite <- app_assoc. rewrite (u64_leb (lenN l)) by (assumption || lia). cbn [bind].
    unfold decode_elems. rewrite ensure_size_app. cbv zeta. rewrite to_nat_lenN, firstn_len_app, skipn_len_app.
    pose proof (proj1 (proj2 (proj2 (wire_nonempty E))) _ _ _ _ Hel Ho) as Hge.
    rewrite (IH Ht Hs1 Hs2 Ho ltac:(lia) depth (length l) ltac:(lia) Hge). cbn [bind].
    rewrite map_of_nodup; [reflexivity| |].
    + intros a b Hab. apply val_eqb_eq. exact Hab.
    + apply (nodupb_NoDup val_eqb); [intros; apply val_eqb_eq|exact Hu].
  - intros q t n vs p l Hel IH Hp Ht Hs Hn depth rest Hd. cbn [typed head_ok core andb] in Ht.
    apply andb_true_iff in Ht as [Hlen Ht]. apply Nat.eqb_eq in Hlen.
    unfold solid_type in Hs. cbn [all_ty node_solid] in Hs. apply andb_true_iff in Hs as [Ho Hs].
    rewrite lenN_app in Hn. rewrite !app_length in Hd. cbn [dec_ty]. apply dmap_ok.
    unfold decode_array. rewrite <- app_assoc. rewrite (u64_leb (lenN l)) by (assumption || lia). cbn [bind].
    rewrite ensure_size_app. cbv zeta. rewrite to_nat_lenN, firstn_len_app, skipn_len_app.
    destruct (IH Ht Hs Ho ltac:(lia) depth (length vs) ltac:(lia) (le_n _)) as [_ G].
    rewrite <- Hlen. rewrite G. cbn [bind]. rewrite Nat.eqb_refl. reflexivity.
  - intros q ts vs p l Hel IH Hp Ht Hs Hn depth rest Hd. cbn [typed head_ok core andb] in Ht.
    unfold solid_type in Hs. cbn [all_ty node_solid andb] in Hs.
    rewrite lenN_app in Hn. rewrite <- app_assoc in *. rewrite app_length in Hd. cbn [dec_ty]. destruct q; cbn [negb andb] in Hp.
    + rewrite (u64_leb (lenN l)) by (assumption || lia). cbn [bind].
      rewrite (IH Ht Hs ltac:(lia) depth rest ltac:(lia)). reflexivity.
    + subst p. cbn [app bind]. rewrite (IH Ht Hs ltac:(lia) depth rest ltac:(lia)). reflexivity.
  - intros q t Ht Hs Hn depth rest Hd. cbn [dec_ty]. unfold dmap, decode_option.
    change ([0] ++ rest) with (encode_u8 0 ++ rest). rewrite decode_u8_encode. reflexivity.
  - intros q t v l _ IH Ht Hs Hn depth rest Hd. cbn [dec_ty]. unfold dmap, decode_option.
    change ((1 :: l) ++ rest) with (encode_u8 1 ++ (l ++ rest)). rewrite decode_u8_encode. cbn [bind].
    change (1 =? 1) with true. cbv iota. rewrite lenN_cons in Hn. cbn [app length] in Hd.
    rewrite (IH Ht Hs ltac:(lia) depth rest ltac:(lia)). reflexivity.
  - intros q t v l _ IH Ht Hs Hn depth rest Hd. destruct (typed_nz E _ _ Ht) as (Hin & Hnz & Ht').
    assert (G : dec_ty (dec_ext E depth) false (TNonZero t) (l ++ rest) = Ok (v, rest)).
    { apply nz_read; [exact Hin|exact Hnz|]. apply IH; assumption. }
    destruct q; [rewrite nz_root by exact Hin|]; exact G.
  - intros q t v l _ IH Ht Hs Hn depth rest Hd. rewrite typed_gen in Ht. cbn [dec_ty]. apply IH; assumption.
  - intros q i args fs Hi Hk Ht Hs Hn depth rest Hd. cbn [dec_ty]. destruct depth as [|depth]; [lia|]. cbn [dec_ext].
    rewrite Hi. apply dmap_ok. unfold decode_body. change (fs_kind (inst args fs)) with (fs_kind fs). rewrite Hk. reflexivity.
  - intros q i args fs vs l Hi Hk _ IH Ht Hs Hn depth rest Hd. cbn [dec_ty]. destruct depth as [|depth]; [lia|]. cbn [dec_ext].
    rewrite Hi. cbn [typed head_ok core andb] in Ht. rewrite Hi in Ht. apply dmap_ok. rewrite lenN_app in Hn.
    apply read_struct; [apply inst_ok; eapply env_struct; eassumption|exact Hk|exact IH|exact Ht| |lia|lia].
    intros f Hf. cbn [inst fs_list] in Hf. apply in_map_iff in Hf as (g & <- & Hg). cbn [subst_field f_ty].
    eapply solid_ext; [exact Hi|exact Hs|]. cbn [def_types]. apply in_map. exact Hg.
  - intros q i args vars k v p Hi Hv Hp Hk Ht Hs Hn depth rest Hd. cbn [dec_ty]. destruct depth as [|depth]; [lia|]. cbn [dec_ext].
    rewrite Hi. destruct (env_enum E HE _ _ Hi) as [Hnd Hvs]. destruct (Hvs v (nth_error_In _ _ Hv)) as [Hid Hok].
    rewrite (leb_of_eq W32 _ p Hid Hp). unfold decode_variant_id. 
    change (varint_bytes W32 (v_id v)) with (encode_u32 (v_id v)). rewrite decode_u32_encode by exact Hid. cbn [bind].
    rewrite (find_variant_nth vars k 0 v Hnd Hv). cbn [Nat.add]. apply dmap_ok. unfold decode_body.
    change (fs_kind (inst args (v_fields v))) with (fs_kind (v_fields v)). rewrite Hk. reflexivity.
  - intros q i args vars k v p vs l Hi Hv Hp Hk _ IH Ht Hs Hn depth rest Hd. cbn [dec_ty]. destruct depth as [|depth]; [lia|]. cbn [dec_ext].
    rewrite Hi. destruct (env_enum E HE _ _ Hi) as [Hnd Hvs]. destruct (Hvs v (nth_error_In _ _ Hv)) as [Hid Hok].
    assert (Hpl : p <> []) by (eapply leb_of_nonempty; exact Hp).
    assert (Hpl' : (1 <= length p)%nat) by (destruct p; [congruence|cbn; lia]).
    rewrite !lenN_app in Hn. rewrite <- app_assoc in *. rewrite app_length in Hd.
    rewrite (leb_of_eq W32 _ p Hid Hp). unfold decode_variant_id.
    change (varint_bytes W32 (v_id v)) with (encode_u32 (v_id v)). rewrite decode_u32_encode by exact Hid. cbn [bind].
    rewrite (find_variant_nth vars k 0 v Hnd Hv). cbn [Nat.add]. apply dmap_ok.
    cbn [typed head_ok core andb] in Ht. rewrite Hi, Hv in Ht.
    apply read_struct; [apply inst_ok; exact Hok|exact Hk|exact IH|exact Ht| |lia|lia].
    intros f Hf. cbn [inst fs_list] in Hf. apply in_map_iff in Hf as (g & <- & Hg). cbn [subst_field f_ty].
    eapply solid_ext; [exact Hi|exact Hs|]. cbn [def_types]. apply in_concat.
    exists (map f_ty (fs_list (v_fields v))). split; [apply in_map_iff; exists v; split; [reflexivity|eapply nth_error_In; exact Hv]|apply in_map; exact Hg].
  - intros t Ht Hs Ho Hn depth n Hd Hle. split; [destruct n; reflexivity|reflexivity].
  - intros t v vs l l' Hw IH1 _ IH2 Ht Hs Ho Hn depth n Hd Hle. cbn [forallb] in Ht. apply andb_true_iff in Ht as [Ht1 Ht2].
    rewrite lenN_app in Hn. rewrite app_length in Hd. cbn [length] in Hle |- *. destruct n as [|n]; [lia|].
    pose proof (app_ne_l l l' (proj1 (wire_nonempty E) _ _ _ _ Hw Ho)) as Hne.
    pose proof (IH1 Ht1 Hs ltac:(lia) depth l' ltac:(rewrite app_length; lia)) as Hr.
    destruct (IH2 Ht2 Hs Ho ltac:(lia) depth n ltac:(lia) ltac:(lia)) as [G1 G2].
    rewrite (dloop_step _ n _ _ _ Hr Hne), (darr_step _ _ _ _ _ Hr Hne), G1, G2. split; reflexivity.
  - intros k t Ht Hs1 Hs2 Ho Hn depth n Hd Hle. destruct n; reflexivity.
  - intros k t x v m lk lv l' Hw1 IH1 Hw2 IH2 _ IH3 Ht Hs1 Hs2 Ho Hn depth n Hd Hle. cbn [forallb fst snd] in Ht.
    apply andb_true_iff in Ht as [Ht Ht3]. apply andb_true_iff in Ht as [Ht1 Ht2].
    rewrite !lenN_app in Hn. rewrite !app_length in Hd. cbn [length] in Hle. destruct n as [|n]; [lia|].
    assert (Hne : lk ++ lv ++ l' <> []).
    { apply orb_true_iff in Ho as [Ho|Ho].
      - apply app_ne_l. apply (proj1 (wire_nonempty E) _ _ _ _ Hw1 Ho).
      - apply app_ne_r, app_ne_l. apply (proj1 (wire_nonempty E) _ _ _ _ Hw2 Ho). }
    assert (Hr : dpair (dec_ty (dec_ext E depth) false k) (dec_ty (dec_ext E depth) false t) (lk ++ lv ++ l') = Ok ((x, v), l')).
    { unfold dpair. rewrite (IH1 Ht1 Hs1 ltac:(lia) depth (lv ++ l') ltac:(rewrite !app_length; lia)). cbn [bind].
      rewrite (IH2 Ht2 Hs2 ltac:(lia) depth l' ltac:(rewrite !app_length; lia)). reflexivity. }
    rewrite (dloop_step _ n _ _ _ Hr Hne). rewrite (IH3 Ht3 Hs1 Hs2 Ho ltac:(lia) depth n ltac:(lia) ltac:(lia)). reflexivity.
  - intros Ht Hs Hn depth rest Hd. reflexivity.
  - intros t ts v vs l l' _ IH1 _ IH2 Ht Hs Hn depth rest Hd. cbn [all2 forallb] in *.
    apply andb_true_iff in Ht as [Ht1 Ht2]. apply andb_true_iff in Hs as [Hs1 Hs2]. rewrite lenN_app in Hn.
    rewrite <- app_assoc in *. cbn [decode_seq]. rewrite (IH1 Ht1 Hs1 ltac:(lia) depth (l' ++ rest) ltac:(lia)). cbn [bind].
    rewrite app_length in Hd. rewrite (IH2 Ht2 Hs2 ltac:(lia) depth rest ltac:(lia)). reflexivity.
  - intros Ht Hs Hn pre done fuel rest depth Hnd Hids Hdone HB Hfuel. destruct fuel as [|fuel]; [lia|].
    cbn [loop_fields app]. change (0 :: rest) with (encode_id (FieldId 0 EVarint) ++ rest).
    rewrite decode_id_encode by reflexivity. cbn [bind fid_value]. change (0 =? END_MARKER) with true. cbv iota.
    cbn [map slots_of]. reflexivity.
  - intros f fs v vs p l l' Ho Hp _ IH1 _ IH2 Ht Hs Hn pre done fuel rest depth Hnd Hids Hdone HB Hfuel.
    cbn [all2 map] in Ht. apply andb_true_iff in Ht as [Ht1 Ht2]. inversion Hids as [|? ? [Hf0 Hf29] Hids']; subst.
    rewrite !lenN_app in Hn. destruct fuel as [|fuel]; [lia|].
    assert (Ep : payload_ty (f_ty f) = f_ty f) by (destruct (f_ty f); try reflexivity; discriminate Ho).
    assert (Es : slot_of f v = Some v) by (unfold slot_of; destruct (f_ty f); try reflexivity; discriminate Ho).
    destruct (read_field f v p l l' (f_ty f) depth pre fs done fuel rest Ep Hp Ht1 ltac:(lia)
      (IH1 Ht1 (Hs f (or_introl eq_refl)) ltac:(lia)) Hnd Hf0 Hf29 Hdone HB Hfuel) as (-> & HB' & Hf').
    rewrite IH2; [|exact Ht2|intros g Hg; apply Hs; right; exact Hg|lia|rewrite <- app_assoc; exact Hnd|exact Hids'|rewrite !app_length; cbn; lia|exact HB'|exact Hf'].
    cbn [slots_of]. rewrite Es, <- app_assoc. reflexivity.
  - intros f t fs v vs p l l' Ho Hp _ IH1 _ IH2 Ht Hs Hn pre done fuel rest depth Hnd Hids Hdone HB Hfuel.
    cbn [all2 map] in Ht. apply andb_true_iff in Ht as [Ht1 Ht2]. inversion Hids as [|? ? [Hf0 Hf29] Hids']; subst.
    rewrite !lenN_app in Hn. destruct fuel as [|fuel]; [lia|].
    assert (Ep : payload_ty (f_ty f) = t) by (rewrite Ho; reflexivity).
    assert (Es : slot_of f (VSome v) = Some v) by (unfold slot_of; rewrite Ho; reflexivity).
    rewrite Ho in Ht1. assert (Ht1' : typed E t v = true) by exact Ht1.
    assert (Hst : sol t) by (pose proof (Hs f (or_introl eq_refl)) as G; rewrite Ho in G; exact G).
    destruct (read_field f v p l l' t depth pre fs done fuel rest Ep Hp Ht1' ltac:(lia)
      (IH1 Ht1' Hst ltac:(lia)) Hnd Hf0 Hf29 Hdone HB Hfuel) as (-> & HB' & Hf').
    rewrite IH2; [|exact Ht2|intros g Hg; apply Hs; right; exact Hg|lia|rewrite <- app_assoc; exact Hnd|exact Hids'|rewrite !app_length; cbn; lia|exact HB'|exact Hf'].
    cbn [slots_of]. rewrite Es, <- app_assoc. reflexivity.
  - intros f t fs vs l' Ho _ IH Ht Hs Hn pre done fuel rest depth Hnd Hids Hdone HB Hfuel.
    cbn [all2 map] in Ht. apply andb_true_iff in Ht as [Ht1 Ht2]. inversion Hids as [|? ? [Hf0 Hf29] Hids']; subst.
    assert (Es : slot_of f VNone = None) by (unfold slot_of; rewrite Ho; reflexivity).
    replace (pre ++ f :: fs) with ((pre ++ [f]) ++ fs) in * by (rewrite <- app_assoc; reflexivity).
    cbn [map]. replace (done ++ None :: map (fun _ => None) fs)
      with ((done ++ [None]) ++ map (fun _ : field => @None val) fs) by (rewrite <- app_assoc; reflexivity).
    rewrite IH; [|exact Ht2|intros g Hg; apply Hs; right; exact Hg|lia|exact Hnd|exact Hids'|rewrite !app_length; cbn; lia|exact HB|exact Hfuel].
    cbn [slots_of]. rewrite Es, <- app_assoc. reflexivity.
Qed.

Theorem decode_wire q t v l rest : typed E t v = true -> sol t -> W q t v l -> lenN l < 2 ^ 64 ->
  decode E q t (l ++ rest) = Ok (v, rest).
Proof. intros Ht Hs Hw Hn. unfold decode. apply (proj1 wire_read _ _ _ _ Hw); try assumption. apply le_n. Qed.
End Decoder.

(** * Every value has an encoding *)
Section Total.
Variable book : bool.
Variable E : env.
Hypothesis HE : env_ok E = true.
Notation W := (wire book E).

Definition TW (v : val) : Prop := forall t q, typed E t v = true -> exists l, W q t v l.
Definition TW2 (v : val) : Prop := TW v /\ forall x, v = VSome x -> TW x.

Lemma tw_elems t vs : Forall TW vs -> forallb (typed E t) vs = true -> exists l, elems book E t vs l.
Proof.
  induction vs as [|v vs IH]; intros HF Ht; [eexists; constructor|]. cbn [forallb] in Ht.
  inversion HF as [|? ? Hv HF']; subst. apply andb_true_iff in Ht as [H1 H2].
  destruct (Hv t false H1) as (l & Hl). destruct (IH HF' H2) as (m & Hm). eexists. econstructor; eassumption.
Qed.
Lemma tw_pairs k t m : Forall (fun kv => TW (fst kv) /\ TW (snd kv)) m ->
  forallb (fun kv => typed E k (fst kv) && typed E t (snd kv)) m = true -> exists l, pairs book E k t m l.
Proof.
  induction m as [|[x v] m IH]; intros HF Ht; [eexists; constructor|]. cbn [forallb fst snd] in Ht.
  inversion HF as [|? ? [Hx Hv] HF']; subst. apply andb_true_iff in Ht as [H1 H2]. apply andb_true_iff in H1 as [H0 H1].
  destruct (Hx k false H0) as (l1 & Hl1). destruct (Hv t false H1) as (l2 & Hl2). destruct (IH HF' H2) as (l3 & Hl3).
  eexists. econstructor; eassumption.
Qed.
Lemma tw_items ts : forall vs, Forall TW vs -> all2 (typed E) ts vs = true -> exists l, items book E ts vs l.
Proof.
  induction ts as [|t ts IH]; intros [|v vs] HF Ht; cbn [all2] in Ht; try discriminate; [eexists; constructor|].
  inversion HF as [|? ? Hv HF']; subst. apply andb_true_iff in Ht as [H1 H2].
  destruct (Hv t false H1) as (l & Hl). destruct (IH vs HF' H2) as (m & Hm). eexists. econstructor; eassumption.
Qed.
Lemma tw_members fs : forall vs, Forall TW2 vs -> all2 (typed E) (map f_ty fs) vs = true -> exists l, members book E fs vs l.
Proof.
  induction fs as [|f fs IH]; intros [|v vs] HF Ht; cbn [all2 map] in Ht; try discriminate; [eexists; constructor|].
  inversion HF as [|? ? [Hv Hv2] HF']; subst. apply andb_true_iff in Ht as [H1 H2]. destruct (IH vs HF' H2) as (m & Hm).
  destruct (optional (f_ty f)) eqn:Eo.
  - destruct (f_ty f) as [| | | | | | | | | | | | | | | |t| | | | | |] eqn:Ef; try discriminate Eo.
    destruct (typed_option E t v H1) as [->|(x & ->)].
    + eexists. eapply m_none; eassumption.
    + destruct (Hv2 x eq_refl t true H1) as (l & Hl). destruct (leb_of_exists (8 * f_id f + class book t)) as (p & Hp).
      eexists. eapply m_some; eassumption.
  - destruct (Hv (f_ty f) true H1) as (l & Hl). destruct (leb_of_exists (8 * f_id f + class book (f_ty f))) as (p & Hp).
    eexists. eapply m_field; eassumption.
Qed.

Lemma TW_all v : TW2 v.
Proof.
  induction v using val_ind'; (split; [|try discriminate]); try (intros x X; injection X as <-; exact (proj1 IHv));
  intros t; induction t; intros q Hty; try discriminate Hty;
  try (destruct (typed_nz E _ _ Hty) as (Hin & _ & Hty'); destruct (IHt false Hty') as (l0 & Hl0); exists l0; apply w_nonzero; exact Hl0);
  try (rewrite typed_gen in Hty; destruct (IHt false Hty) as (l0 & Hl0); exists l0; apply w_gen; exact Hl0);
  cbn [typed head_ok core andb] in Hty.
  - eexists. apply w_bool.
  - eexists. replace (VInt z) with (VInt (Z.of_N (Z.to_N z))) by (f_equal; lia). constructor. lia.
  - destruct (Z.ltb_spec z 0) as [Hz|Hz].
    + eexists. replace (VInt z) with (VInt (Z.of_N (Z.to_N (z + 256)) - 256)) by (f_equal; lia). apply w_i8_neg. lia.
    + eexists. replace (VInt z) with (VInt (Z.of_N (Z.to_N z))) by (f_equal; lia). apply w_i8_pos. lia.
  - apply unsigned_range in Hty as [Hu Hz]. destruct (leb_of_exists (Z.to_N z)) as (p & Hp). eexists.
    replace (VInt z) with (VInt (Z.of_N (Z.to_N z))) by (f_equal; lia). apply w_uint. exact Hp.
  - destruct (leb_of_exists (zigzag_spec z)) as (p & Hp). eexists. apply w_sint. exact Hp.
  - exists (be_bytes 4 b). rewrite <- (be_value_bytes 4 b) at 1 by (cbn; lia). apply w_f32; [apply be_bytes_length|apply be_bytes_ok].
  - exists (be_bytes 8 b). rewrite <- (be_value_bytes 8 b) at 1 by (cbn; lia). apply w_f64; [apply be_bytes_length|apply be_bytes_ok].
  - destruct (leb_of_exists (lenN l)) as (p & Hp). eexists. apply w_text; [reflexivity|exact Hp].
  - destruct (leb_of_exists (lenN l)) as (p & Hp). eexists. apply w_text; [reflexivity|exact Hp].
  - destruct (leb_of_exists (lenN l)) as (p & Hp). eexists. apply w_text; [reflexivity|exact Hp].
  - destruct (leb_of_exists (lenN l)) as (p & Hp). eexists. apply w_text; [reflexivity|exact Hp].
  - destruct (leb_of_exists (lenN l)) as (p & Hp). eexists. apply w_text; [reflexivity|exact Hp].
  - destruct (leb_of_exists (lenN l)) as (p & Hp). eexists. apply w_text; [reflexivity|exact Hp].
  - assert (H' : Forall TW l) by (eapply Forall_impl; [|exact H]; intros a Ha; exact (proj1 Ha)).
    destruct (tw_elems t l H' Hty) as (m & Hm). destruct (leb_of_exists (lenN m)) as (p & Hp). eexists. apply w_vec; eassumption.
  - assert (H' : Forall TW l) by (eapply Forall_impl; [|exact H]; intros a Ha; exact (proj1 Ha)).
    apply andb_true_iff in Hty as [Hty _].
    destruct (tw_elems t l H' Hty) as (m & Hm). destruct (leb_of_exists (lenN m)) as (p & Hp). eexists. apply w_set; eassumption.
  - assert (H' : Forall TW l) by (eapply Forall_impl; [|exact H]; intros a Ha; exact (proj1 Ha)).
    destruct (tw_items ts l H' Hty) as (m & Hm). destruct (leb_of_exists (lenN m)) as (p & Hp).
    destruct (negb book && q) eqn:Eb.
    + exists (p ++ m). apply w_tuple; [exact Hm|]. rewrite Eb. exact Hp.
    + exists ([] ++ m). apply w_tuple; [exact Hm|]. rewrite Eb. reflexivity.
  - assert (H' : Forall TW l) by (eapply Forall_impl; [|exact H]; intros a Ha; exact (proj1 Ha)).
    apply andb_true_iff in Hty as [_ Hty].
    destruct (tw_elems t l H' Hty) as (m & Hm). destruct (leb_of_exists (lenN m)) as (p & Hp).
    destruct book eqn:Eb.
    + exists ([] ++ m). apply w_array; [exact Hm|reflexivity].
    + exists (p ++ m). apply w_array; [exact Hm|exact Hp].
  - assert (H' : Forall (fun kv => TW (fst kv) /\ TW (snd kv)) l).
    { eapply Forall_impl; [|exact H]. intros a [Ha Hb]. split; [exact (proj1 Ha)|exact (proj1 Hb)]. }
    apply andb_true_iff in Hty as [Hty _].
    destruct (tw_pairs t1 t2 l H' Hty) as (m & Hm). destruct (leb_of_exists (lenN m)) as (p & Hp). eexists. apply w_map; eassumption.
  - eexists. apply w_none.
  - destruct (proj1 IHv t false Hty) as (m & Hm). eexists. apply w_some. exact Hm.
  - destruct (nth_error E i) as [[fs|vars]|] eqn:Ei; try discriminate Hty.
    pose proof (env_struct E HE _ _ Ei) as Hok. pose proof (inst_ok args fs Hok) as Hok'.
    destruct (fields_ok_ids _ Hok') as (_ & _ & Hunit). change (fs_kind (inst args fs)) with (fs_kind fs) in *.
    destruct (tw_members _ _ H Hty) as (m & Hm).
    assert (Hc : fs_kind fs = KUnit \/ fs_kind fs <> KUnit) by (destruct (fs_kind fs); auto; right; discriminate).
    destruct Hc as [Hk|Hk].
    + rewrite (Hunit Hk) in Hty. destruct vs; [|discriminate Hty]. eexists. eapply w_unit; eassumption.
    + eexists. eapply w_struct; eassumption.
  - destruct (nth_error E i0) as [[fs|vars]|] eqn:Ei; try discriminate Hty.
    destruct (nth_error vars i) as [var|] eqn:Ev; [|discriminate Hty].
    destruct (env_enum E HE _ _ Ei) as [_ Hvs]. destruct (Hvs var (nth_error_In _ _ Ev)) as [_ Hok].
    pose proof (inst_ok args _ Hok) as Hok'. destruct (fields_ok_ids _ Hok') as (_ & _ & Hunit).
    change (fs_kind (inst args (v_fields var))) with (fs_kind (v_fields var)) in *.
    destruct (tw_members _ _ H Hty) as (m & Hm). destruct (leb_of_exists (v_id var)) as (p & Hp).
    assert (Hc : fs_kind (v_fields var) = KUnit \/ fs_kind (v_fields var) <> KUnit) by (destruct (fs_kind (v_fields var)); auto; right; discriminate).
    destruct Hc as [Hk|Hk].
    + rewrite (Hunit Hk) in Hty. destruct vs; [|discriminate Hty]. eexists. eapply w_unit_variant; eassumption.
    + eexists. eapply w_variant; eassumption.
Qed.

Theorem wire_total q t v : typed E t v = true -> exists l, W q t v l.
Proof. intros. apply (proj1 (TW_all v)). assumption. Qed.
End Total.

(** * Where the manual and the code agree *)
Section Agreement.
Variable E : env.
Hypothesis HA : agreed E = true.

Lemma agreed_field_subst args t : agreed_field t = true -> agreed_field (subst args t) = true.
Proof.
  intros H. destruct t; try discriminate H; try reflexivity.
  - cbn [subst agreed_field] in *. destruct t; try discriminate H; try reflexivity.
    cbn [subst]. apply nz_inner_subst. exact H.
  - cbn [subst agreed_field] in *. apply nz_inner_subst. exact H.
Qed.

Lemma agreed_ext i args d : nth_error E i = Some d -> agreed_type (TExt i args) = true ->
  forall t, In t (def_types d) -> agreed_type (subst args t) = true /\ agreed_field (subst args t) = true.
Proof.
  intros Hi Ha t Ht. unfold agreed in HA. rewrite forallb_forall in HA. specialize (HA d (nth_error_In _ _ Hi)).
  rewrite forallb_forall in HA. specialize (HA t Ht). apply andb_true_iff in HA as [H1 H2]. split; [|apply agreed_field_subst; exact H2].
  unfold agreed_type in *. cbn [all_ty node_no_array andb] in Ha. eapply (all_ty_subst node_no_array node_no_array); [| |exact H1].
  - apply Forall_forall. intros a Hin. cbn [all_ty node_no_array andb]. rewrite forallb_forall in Ha. apply Ha. exact Hin.
  - intros u Hu. destruct u; try discriminate Hu; try reflexivity. right. reflexivity.
Qed.

Lemma class_agreed b b' t : agreed_field t = true -> class b t = class b' t.
Proof. intros H. destruct t; try discriminate H; try reflexivity. cbn in H. destruct t; try discriminate H; reflexivity. Qed.

Lemma wire_agree b b' :
  (forall q t v l, wire b E q t v l -> agreed_type t = true -> q && is_tuple t = false -> wire b' E q t v l)
  /\ (forall t vs l, elems b E t vs l -> agreed_type t = true -> elems b' E t vs l)
  /\ (forall k t m l, pairs b E k t m l -> agreed_type k = true -> agreed_type t = true -> pairs b' E k t m l)
  /\ (forall ts vs l, items b E ts vs l -> forallb agreed_type ts = true -> items b' E ts vs l)
  /\ (forall fs vs l, members b E fs vs l -> (forall f, In f fs -> agreed_type (f_ty f) = true /\ agreed_field (f_ty f) = true) -> members b' E fs vs l).
Proof.
  apply wire_mutind; intros; try (constructor; eauto; fail).
  - match goal with H : agreed_type _ = true |- _ => unfold agreed_type in H; cbn [all_ty node_no_array andb] in H; apply andb_true_iff in H as [? ?] end.
    constructor; auto.
  - match goal with H : agreed_type _ = true |- _ => discriminate H end.
  - match goal with H : agreed_type _ = true |- _ => unfold agreed_type in H; cbn [all_ty node_no_array andb] in H end.
    match goal with H : q && _ = false |- _ => cbn [is_tuple] in H; rewrite andb_true_r in H; subst q end.
    rewrite andb_false_r in *. apply w_tuple; [auto|]. rewrite andb_false_r. assumption.
  - eapply w_unit; eassumption.
  - eapply w_struct; [eassumption|assumption|]. match goal with H : _ -> members _ _ _ _ _ |- _ => apply H end.
    intros f Hf. cbn [inst fs_list] in Hf. apply in_map_iff in Hf as (g & <- & Hg). cbn [subst_field f_ty].
    eapply agreed_ext; [eassumption|assumption|]. cbn [def_types]. apply in_map. exact Hg.
  - eapply w_unit_variant; eassumption.
  - eapply w_variant; [eassumption..|]. match goal with H : _ -> members _ _ _ _ _ |- _ => apply H end.
    intros f Hf. cbn [inst fs_list] in Hf. apply in_map_iff in Hf as (g & <- & Hg). cbn [subst_field f_ty].
    eapply agreed_ext; [eassumption|assumption|]. cbn [def_types]. apply in_concat.
    exists (map f_ty (fs_list (v_fields v))). split; [apply in_map_iff; exists v; split; [reflexivity|eapply nth_error_In; eassumption]|apply in_map; exact Hg].
  - match goal with H : forallb _ (_ :: _) = true |- _ => cbn [forallb] in H; apply andb_true_iff in H as [? ?] end. constructor; auto.
  - match goal with H : forall f, _ |- _ => pose proof (H f (or_introl eq_refl)) as [G1 G2]; assert (forall g, In g fs -> agreed_type (f_ty g) = true /\ agreed_field (f_ty g) = true) by (intros g Hg; apply H; right; exact Hg) end.
    eapply m_field; [assumption|rewrite (class_agreed b' b) by exact G2; assumption| |auto].
    match goal with H : _ -> _ -> wire _ _ _ _ _ _ |- _ => apply H end; [exact G1|]. destruct (f_ty f); try reflexivity. discriminate G2.
  - match goal with H : forall f, _ |- _ => pose proof (H f (or_introl eq_refl)) as [G1 G2]; assert (forall g, In g fs -> agreed_type (f_ty g) = true /\ agreed_field (f_ty g) = true) by (intros g Hg; apply H; right; exact Hg) end.
    match goal with H : f_ty f = TOption t |- _ => rewrite H in G1, G2 end.
    eapply m_some; [eassumption| | |auto].
    + replace (class b' t) with (class b t); [assumption|]. destruct t; try discriminate G2; try reflexivity. cbn in G2. destruct t; try discriminate G2; reflexivity.
    + match goal with H : _ -> _ -> wire _ _ _ _ _ _ |- _ => apply H end; [exact G1|]. destruct t; try reflexivity. discriminate G2.
  - eapply m_none; [eassumption|]. match goal with H : _ -> members _ _ _ _ _ |- _ => apply H end.
    intros g Hg. match goal with H : forall f, _ |- _ => apply H end. right. exact Hg.
Qed.
End Agreement.
