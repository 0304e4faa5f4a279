(** Reading a body made of arbitrary fields: the field loop of the generated decoders.
    Lemmas behind C19-C22. *)
From Verif Require Import Base Varint VarintSpec VarintProofs Wire WireProofs Codec CodecSpec CodecProofs
  SchemaSpec Safety Stable EvolutionSpec.
Local Open Scope N_scope.

Lemma payload_cons e es : payload (e :: es) =
  encode_id (FieldId (e_id e) (e_class e)) ++ e_bytes e ++ payload es.
Proof. unfold payload, encode_field. cbn [map concat]. rewrite <- !app_assoc. reflexivity. Qed.

Definition apply_entry (fr : list field) (s : slots) (e : entry) : slots :=
  match find_field (e_id e) fr 0 with Some (k, _) => set_slot k (e_val e) s | None => s end.

Definition entry_reads (d : ty -> dec val) (B : nat) (fr : list field) (e : entry) : Prop :=
  0 < e_id e /\ e_id e < 2 ^ 29 /\
  match find_field (e_id e) fr 0 with
  | Some (_, f) => forall r, (length (e_bytes e ++ r) < B)%nat ->
      d (payload_ty (f_ty f)) (e_bytes e ++ r) = Ok (e_val e, r)
  | None => forall r, decode_skip (e_class e) (e_bytes e ++ r) = Ok r
  end.

Lemma loop_entries d fr B rest : forall es fuel s,
  Forall (entry_reads d B fr) es ->
  (length (payload es ++ rest) <= B)%nat -> (length (payload es ++ rest) < fuel)%nat ->
  loop_fields d fr fuel s (payload es ++ rest) = Ok (fold_left (apply_entry fr) es s, rest).
Proof.
  induction es as [|e es IH]; intros fuel s Hes HB Hfuel.
  - destruct fuel as [|fuel]; [lia|]. cbn [loop_fields fold_left].
    change (payload []) with (encode_id (FieldId 0 EVarint)).
    rewrite decode_id_encode by reflexivity. reflexivity.
  - inversion Hes as [|? ? (H0 & H29 & He) Hes']; subst. rewrite payload_cons in *.
    rewrite <- !app_assoc in *.
    destruct fuel as [|fuel]; [lia|]. cbn [loop_fields fold_left].
    rewrite decode_id_encode by exact H29. cbn [bind fid_value fid_enc].
    replace (e_id e =? END_MARKER) with false by (unfold END_MARKER; lia).
    pose proof (fid_enc_len_pos (FieldId (e_id e) (e_class e)) H29) as Hpos.
    rewrite app_length in HB, Hfuel. unfold apply_entry at 2.
    destruct (find_field (e_id e) fr 0) as [[k f]|].
    + rewrite He by lia. cbn [bind]. rewrite app_length in HB, Hfuel. apply IH; [exact Hes'|lia|lia].
    + rewrite He. cbn [bind]. rewrite app_length in HB, Hfuel. apply IH; [exact Hes'|lia|lia].
Qed.

(** Slots as a function of the field id. *)
Lemma find_field_some id fs : forall k n f, find_field id fs k = Some (n, f) -> In f fs /\ f_id f = id.
Proof.
  induction fs as [|g fs IH]; intros k n f H; [discriminate|]. cbn [find_field] in H.
  destruct (N.eqb_spec (f_id g) id) as [He|_].
  - injection H as <- <-. split; [left; reflexivity|exact He].
  - apply IH in H as [H1 H2]. split; [right; exact H1|exact H2].
Qed.

Lemma find_field_none id fs : forall k, find_field id fs k = None -> forall f, In f fs -> f_id f <> id.
Proof.
  induction fs as [|g fs IH]; intros k H f Hf; [contradiction|]. cbn [find_field] in H.
  destruct (N.eqb_spec (f_id g) id) as [He|Hne]; [discriminate|].
  destruct Hf as [<-|Hf]; [exact Hne|]. eapply IH; eassumption.
Qed.

Lemma find_field_in id fs k : In id (map f_id fs) -> exists n f, find_field id fs k = Some (n, f).
Proof.
  intros H. destruct (find_field id fs k) as [[n f]|] eqn:E; [eauto|].
  exfalso. apply in_map_iff in H as (f & Hf & Hin). apply (find_field_none _ _ _ E f Hin Hf).
Qed.

Lemma set_slot_map (g : N -> option val) id v fs : NoDup (map f_id fs) ->
  forall k n f, find_field id fs k = Some (n, f) -> (k <= n)%nat /\
  set_slot (n - k) v (map (fun f => g (f_id f)) fs)
  = map (fun f => if f_id f =? id then Some v else g (f_id f)) fs.
Proof.
  induction fs as [|h fs IH]; intros Hnd k n f H; [discriminate|]. cbn [find_field] in H.
  cbn [map] in Hnd. inversion Hnd as [|? ? Hni Hnd']; subst.
  destruct (N.eqb_spec (f_id h) id) as [He|Hne].
  - injection H as <- <-. split; [lia|]. rewrite Nat.sub_diag. cbn [map set_slot].
    rewrite He, N.eqb_refl. f_equal. apply map_ext_in. intros a Ha.
    destruct (N.eqb_spec (f_id a) id) as [Ha'|_]; [|reflexivity].
    exfalso. apply Hni. rewrite He, <- Ha'. apply in_map. exact Ha.
  - destruct (IH Hnd' (S k) n f H) as [Hle Hs]. split; [lia|].
    replace (n - k)%nat with (S (n - S k)) by lia. cbn [map set_slot].
    rewrite Hs. destruct (N.eqb_spec (f_id h) id); [congruence|]. reflexivity.
Qed.

Lemma fold_entries fr : NoDup (map f_id fr) -> forall es (g : N -> option val),
  fold_left (apply_entry fr) es (map (fun f => g (f_id f)) fr)
  = map (fun f => match last_value (f_id f) es with Some v => Some v | None => g (f_id f) end) fr.
Proof.
  intros Hnd. induction es as [|e es IH]; intros g; cbn [fold_left last_value]; [reflexivity|].
  unfold apply_entry at 2. destruct (find_field (e_id e) fr 0) as [[k f]|] eqn:Ef.
  - destruct (set_slot_map g (e_id e) (e_val e) fr Hnd 0 k f Ef) as [_ Hs].
    rewrite Nat.sub_0_r in Hs. rewrite Hs.
    rewrite (IH (fun i => if i =? e_id e then Some (e_val e) else g i)).
    apply map_ext. intros a. destruct (last_value (f_id a) es); [reflexivity|].
    rewrite (N.eqb_sym (e_id e)). destruct (f_id a =? e_id e); reflexivity.
  - rewrite IH. apply map_ext_in. intros a Ha. destruct (last_value (f_id a) es); [reflexivity|].
    destruct (N.eqb_spec (e_id e) (f_id a)) as [He|_]; [|reflexivity].
    exfalso. apply (find_field_none _ _ _ Ef a Ha). congruence.
Qed.

Lemma assign_collect kind es fr :
  assign kind fr (map (fun f => last_value (f_id f) es) fr) = collect kind fr es.
Proof.
  induction fr as [|f fr IH]; [reflexivity|]. cbn [map assign collect]. rewrite IH.
  destruct (f_ty f), (last_value (f_id f) es); reflexivity.
Qed.

Lemma body_entries d fs B rest es :
  fs_kind fs <> KUnit -> NoDup (map f_id (fs_list fs)) ->
  Forall (entry_reads d B (fs_list fs)) es ->
  (length (payload es ++ rest) <= B)%nat ->
  decode_body d fs (payload es ++ rest) = (do vs <- collect (fs_kind fs) (fs_list fs) es; Ok (vs, rest)).
Proof.
  intros Hk Hnd Hes HB. unfold decode_body.
  assert (Hl : loop_fields d (fs_list fs) (S (length (payload es ++ rest)))
     (map (fun _ => None) (fs_list fs)) (payload es ++ rest)
     = Ok (map (fun f => last_value (f_id f) es) (fs_list fs), rest)).
  { rewrite (loop_entries d (fs_list fs) B rest es) by (try assumption; lia). do 2 f_equal.
    rewrite (fold_entries (fs_list fs) Hnd es (fun _ => None)). apply map_ext. intros a.
    destruct (last_value (f_id a) es); reflexivity. }
  rewrite Hl. cbn [bind]. rewrite assign_collect. destruct (fs_kind fs); try reflexivity. congruence.
Qed.

(** The public form: [entry_fits] speaks about the decoder of the field's type on its own. *)
Definition entry_fits (E : env) (fr : list field) (e : entry) : Prop :=
  0 < e_id e /\ e_id e < 2 ^ 29 /\
  ((exists f, In f fr /\ f_id f = e_id e
      /\ forall r, decode E true (payload_ty (f_ty f)) (e_bytes e ++ r) = Ok (e_val e, r))
   \/ ((forall f, In f fr -> f_id f <> e_id e)
       /\ forall r, decode_skip (e_class e) (e_bytes e ++ r) = Ok r)).

Lemma NoDup_id_eq fr f g : NoDup (map f_id fr) -> In f fr -> In g fr -> f_id f = f_id g -> f = g.
Proof.
  induction fr as [|h fr IH]; intros Hnd Hf Hg He; [contradiction|]. cbn [map] in Hnd.
  inversion Hnd as [|? ? Hni Hnd']; subst. destruct Hf as [->|Hf], Hg as [->|Hg]; try reflexivity.
  - exfalso. apply Hni. rewrite He. apply in_map. exact Hg.
  - exfalso. apply Hni. rewrite <- He. apply in_map. exact Hf.
  - apply IH; assumption.
Qed.

Lemma decode_deeper E root t r x r' depth : (length r < depth)%nat ->
  decode E root t r = Ok (x, r') -> dec_ty (dec_ext E depth) root t r = Ok (x, r').
Proof.
  intros Hd H. unfold decode in H.
  eapply ext_le_same; [|exact H]. apply dec_ty_stable. intros i args. apply dec_ext_stable. lia.
Qed.

Lemma fits_reads E fr e depth : NoDup (map f_id fr) -> entry_fits E fr e ->
  entry_reads (dec_ty (dec_ext E depth) true) depth fr e.
Proof.
  intros Hnd (H0 & H29 & He). split; [exact H0|]. split; [exact H29|].
  destruct (find_field (e_id e) fr 0) as [[k g]|] eqn:Ef.
  - apply find_field_some in Ef as [Hg Hid]. destruct He as [(f & Hf & Hfid & Hd)|(Hn & _)].
    + replace g with f by (eapply NoDup_id_eq; [exact Hnd|exact Hf|exact Hg|congruence]).
      intros r Hr. apply decode_deeper; [exact Hr|apply Hd].
    + exfalso. apply (Hn g Hg Hid).
  - destruct He as [(f & Hf & Hfid & _)|(_ & Hs)]; [|exact Hs].
    exfalso. apply (find_field_none _ _ _ Ef f Hf Hfid).
Qed.

Lemma struct_entries E i args fs es rest root :
  nth_error E i = Some (DStruct fs) -> fs_kind fs <> KUnit -> fields_ok fs = true ->
  Forall (entry_fits E (fs_list (inst args fs))) es ->
  decode E root (TExt i args) (payload es ++ rest)
  = do vs <- collect (fs_kind fs) (fs_list (inst args fs)) es; Ok (VRec vs, rest).
Proof.
  intros Hi Hk Hok Hes. destruct (fields_ok_ids _ (inst_ok args fs Hok)) as (Hnd & _ & _).
  unfold decode. cbn [dec_ty dec_ext]. rewrite Hi. unfold dmap.
  rewrite (body_entries _ (inst args fs) (length (payload es ++ rest)) rest es).
  - cbn [inst fs_kind]. destruct (collect _ _ es); reflexivity.
  - exact Hk.
  - exact Hnd.
  - eapply Forall_impl; [|exact Hes]. intros e. apply fits_reads. exact Hnd.
  - lia.
Qed.

Lemma find_variant_some id vars : forall k n v, find_variant id vars k = Some (n, v) ->
  (k <= n)%nat /\ nth_error vars (n - k) = Some v /\ v_id v = id.
Proof.
  induction vars as [|w vars IH]; intros k n v H; [discriminate|]. cbn [find_variant] in H.
  destruct (N.eqb_spec (v_id w) id) as [He|_].
  - injection H as <- <-. rewrite Nat.sub_diag. repeat split; [lia|exact He].
  - apply IH in H as (H1 & H2 & H3). split; [lia|]. split; [|exact H3].
    replace (n - k)%nat with (S (n - S k)) by lia. exact H2.
Qed.

Lemma find_variant_none id vars : forall k, find_variant id vars k = None <-> ~ In id (map v_id vars).
Proof.
  induction vars as [|w vars IH]; intros k; [split; [intros _ []|reflexivity]|]. cbn [find_variant map In].
  destruct (N.eqb_spec (v_id w) id) as [He|Hne].
  - split; [discriminate|]. intros H. exfalso. apply H. left. exact He.
  - rewrite IH. split; intros H; [intros [X|X]; [congruence|apply H; exact X]|intros X; apply H; right; exact X].
Qed.

Lemma variant_entries E i args vars k var es rest root :
  nth_error E i = Some (DEnum vars) -> def_ok (DEnum vars) = true ->
  nth_error vars k = Some var -> fs_kind (v_fields var) <> KUnit ->
  Forall (entry_fits E (fs_list (inst args (v_fields var)))) es ->
  decode E root (TExt i args) (encode_variant_id (v_id var) ++ payload es ++ rest)
  = do vs <- collect (fs_kind (v_fields var)) (fs_list (inst args (v_fields var))) es; Ok (VVar k vs, rest).
Proof.
  intros Hi Hok Hv Hk Hes. cbn [def_ok] in Hok. apply andb_true_iff in Hok as [Hnv Hall].
  assert (Hin : In var vars) by (eapply nth_error_In; exact Hv).
  pose proof (forallb_In _ _ _ Hall Hin) as Hvar. apply andb_true_iff in Hvar as [Hid Hok].
  apply N.ltb_lt in Hid.
  destruct (fields_ok_ids _ (inst_ok args _ Hok)) as (Hnd & _ & _).
  unfold decode. cbn [dec_ty dec_ext]. rewrite Hi.
  unfold decode_variant_id, encode_variant_id. rewrite decode_u32_encode by exact Hid. cbn [bind].
  rewrite (find_variant_nth vars k 0 var); [|apply (nodupb_NoDup N.eqb); [apply N.eqb_eq|exact Hnv]|exact Hv].
  cbn [Nat.add]. unfold dmap.
  assert (Hpos : (0 < length (encode_u32 (v_id var)))%nat).
  { pose proof (encode_uint_nonempty W32 (v_id var) Hid). unfold encode_u32. destruct (encode_uint W32 (v_id var)); [congruence|cbn; lia]. }
  set (L := length (encode_u32 (v_id var) ++ payload es ++ rest)).
  rewrite (body_entries _ (inst args (v_fields var)) L rest es).
  - cbn [inst fs_kind]. destruct (collect _ _ es); reflexivity.
  - exact Hk.
  - exact Hnd.
  - eapply Forall_impl; [|exact Hes]. intros e. apply fits_reads. exact Hnd.
  - subst L. rewrite (app_length (encode_u32 _)). lia.
Qed.

(** Order does not matter for distinct ids. *)
From Coq Require Import Permutation.
Lemma last_value_notin id es : ~ In id (map e_id es) -> last_value id es = None.
Proof.
  induction es as [|e es IH]; intros H; [reflexivity|]. cbn [last_value map In] in *.
  rewrite IH by tauto. destruct (N.eqb_spec (e_id e) id); [tauto|reflexivity].
Qed.

Lemma last_value_perm id es es' : Permutation es es' -> NoDup (map e_id es) -> last_value id es = last_value id es'.
Proof.
  induction 1 as [|e es es' HP IH|e f es|es es' es'' H1 IH1 H2 IH2]; intros Hnd; [reflexivity| | |].
  - cbn [map] in Hnd. inversion Hnd; subst. cbn [last_value]. rewrite IH by assumption. reflexivity.
  - cbn [map] in Hnd. inversion Hnd as [|? ? Hni Hnd']; subst. inversion Hnd' as [|? ? Hni' Hnd'']; subst.
    cbn [last_value]. destruct (last_value id es); [reflexivity|].
    destruct (N.eqb_spec (e_id e) id), (N.eqb_spec (e_id f) id); try reflexivity.
    exfalso. apply Hni. left. congruence.
  - rewrite IH1 by exact Hnd. apply IH2. eapply Permutation_NoDup; [|exact Hnd]. apply Permutation_map. exact H1.
Qed.

Lemma collect_ext kind fr es es' : (forall f, In f fr -> last_value (f_id f) es = last_value (f_id f) es') ->
  collect kind fr es = collect kind fr es'.
Proof.
  induction fr as [|f fr IH]; intros H; [reflexivity|]. cbn [collect].
  rewrite (H f (or_introl eq_refl)), IH by (intros g Hg; apply H; right; exact Hg). reflexivity.
Qed.

Lemma last_value_in id es : In id (map e_id es) -> exists v, last_value id es = Some v.
Proof.
  induction es as [|e es IH]; intros H; [contradiction|]. cbn [last_value map In] in *.
  destruct (last_value id es) as [v|] eqn:E; [eauto|]. destruct H as [->|H].
  - rewrite N.eqb_refl. eauto.
  - apply IH in H as [v H]. discriminate.
Qed.

Lemma last_value_app id a b : last_value id (a ++ b) =
  match last_value id b with Some v => Some v | None => last_value id a end.
Proof.
  induction a as [|e a IH]; cbn [app last_value]; [destruct (last_value id b); reflexivity|].
  rewrite IH. destruct (last_value id b); reflexivity.
Qed.

Lemma last_value_dup id es1 e es2 : In (e_id e) (map e_id es2) ->
  last_value id (es1 ++ e :: es2) = last_value id (es1 ++ es2).
Proof.
  intros H. rewrite !last_value_app. cbn [last_value].
  destruct (last_value id es2) eqn:E; [reflexivity|].
  destruct (N.eqb_spec (e_id e) id) as [He|]; [|reflexivity].
  rewrite He in H. apply last_value_in in H as [v H]. congruence.
Qed.

Lemma collect_missing kind es pre post f : optional f = false -> ~ In (f_id f) (map e_id es) ->
  (forall g, In g pre -> optional g = true \/ In (f_id g) (map e_id es)) ->
  collect kind (pre ++ f :: post) es
  = Err (MissingField (f_id f) (match kind with KNamed => Some (f_name f) | _ => None end)).
Proof.
  intros Ho Hn. induction pre as [|g pre IH]; intros Hpre; cbn [app collect].
  - rewrite last_value_notin by exact Hn. unfold optional in Ho. destruct (f_ty f); (discriminate || reflexivity).
  - rewrite IH by (intros h Hh; apply Hpre; right; exact Hh). cbn [bind].
    destruct (Hpre g (or_introl eq_refl)) as [Hg|Hg].
    + unfold optional in Hg. destruct (f_ty g); try discriminate. destruct (last_value (f_id g) es); reflexivity.
    + apply last_value_in in Hg as [v ->]. destruct (f_ty g); reflexivity.
Qed.

Lemma collect_complete kind es fr :
  (forall g, In g fr -> optional g = true \/ In (f_id g) (map e_id es)) ->
  exists vs, collect kind fr es = Ok vs
    /\ Forall2 (fun f v => v = match last_value (f_id f) es with
                               | Some x => if optional f then VSome x else x
                               | None => VNone
                               end) fr vs.
Proof.
  induction fr as [|f fr IH]; intros H; cbn [collect]; [exists []; split; [reflexivity|constructor]|].
  destruct IH as (vs & Hc & HF); [intros g Hg; apply H; right; exact Hg|]. rewrite Hc. cbn [bind].
  destruct (H f (or_introl eq_refl)) as [Ho|Hin].
  - unfold optional in *. destruct (f_ty f) eqn:Et; try discriminate.
    destruct (last_value (f_id f) es) eqn:El; (eexists; split; [reflexivity|constructor; [|exact HF]]);
      rewrite Et, El; reflexivity.
  - apply last_value_in in Hin as [x El]. rewrite El. unfold optional in *.
    destruct (f_ty f) eqn:Et; (eexists; split; [reflexivity|constructor; [|exact HF]]);
      rewrite Et, El; reflexivity.
Qed.
