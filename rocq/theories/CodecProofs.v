(** Round trip of the generated codec. *)
From Verif Require Import Base Varint VarintSpec VarintProofs Wire WireProofs Codec CodecSpec.
Local Open Scope N_scope.

(** * Induction on values *)

Section ValInd.
Variable P : val -> Prop.
Hypothesis HBool : forall b, P (VBool b).
Hypothesis HInt : forall z, P (VInt z).
Hypothesis HBits : forall b, P (VBits b).
Hypothesis HBytes : forall l, P (VBytes l).
Hypothesis HList : forall l, Forall P l -> P (VList l).
Hypothesis HMap : forall l, Forall (fun kv => P (fst kv) /\ P (snd kv)) l -> P (VMap l).
Hypothesis HNone : P VNone.
Hypothesis HSome : forall v, P v -> P (VSome v).
Hypothesis HRec : forall vs, Forall P vs -> P (VRec vs).
Hypothesis HVar : forall i vs, Forall P vs -> P (VVar i vs).

Fixpoint val_ind' (v : val) : P v :=
  let go := fix go (l : list val) : Forall P l :=
    match l with
    | [] => Forall_nil _
    | x :: l' => Forall_cons x (val_ind' x) (go l')
    end in
  let go2 := fix go2 (l : list (val * val)) : Forall (fun kv => P (fst kv) /\ P (snd kv)) l :=
    match l with
    | [] => Forall_nil _
    | x :: l' => Forall_cons x (conj (val_ind' (fst x)) (val_ind' (snd x))) (go2 l')
    end in
  match v with
  | VBool b => HBool b
  | VInt z => HInt z
  | VBits b => HBits b
  | VBytes l => HBytes l
  | VList l => HList l (go l)
  | VMap l => HMap l (go2 l)
  | VNone => HNone
  | VSome x => HSome x (val_ind' x)
  | VRec vs => HRec vs (go vs)
  | VVar i vs => HVar i vs (go vs)
  end.
End ValInd.

Lemma list_eqb_eq {A} (eqb : A -> A -> bool) x y :
  Forall (fun a => forall b, eqb a b = true <-> a = b) x ->
  (list_eqb eqb x y = true <-> x = y).
Proof.
  intros H. revert y. induction H as [|a x Ha Hx IH]; intros [|b y]; cbn [list_eqb].
  - split; reflexivity.
  - split; discriminate.
  - split; discriminate.
  - rewrite andb_true_iff, Ha, IH. split.
    + intros [-> ->]. reflexivity.
    + intros H. injection H as -> ->. auto.
Qed.

Lemma val_eqb_eq a : forall b, val_eqb a b = true <-> a = b.
Proof.
  induction a using val_ind'; intros y; destruct y; cbn [val_eqb];
    try (split; discriminate).
  - rewrite Bool.eqb_true_iff. split; congruence.
  - rewrite Z.eqb_eq. split; congruence.
  - rewrite N.eqb_eq. split; congruence.
  - rewrite list_eqb_eq by (apply Forall_forall; intros; apply N.eqb_eq). split; congruence.
  - rewrite list_eqb_eq by exact H. split; congruence.
  - rewrite list_eqb_eq; [split; congruence|].
    eapply Forall_impl; [|exact H]. intros [k v] [Hk Hv] [k' v']. cbn [fst snd] in *.
    rewrite andb_true_iff, Hk, Hv. split; [intros [-> ->]; reflexivity|].
    intros X; injection X as -> ->; auto.
  - split; reflexivity.
  - rewrite IHa. split; congruence.
  - rewrite list_eqb_eq by exact H. split; congruence.
  - rewrite andb_true_iff, Nat.eqb_eq, list_eqb_eq by exact H.
    split; [intros [-> ->]; reflexivity|]. intros X; injection X as -> ->; auto.
Qed.

Lemma nodupb_NoDup {A} (eqb : A -> A -> bool) l :
  (forall a b, eqb a b = true <-> a = b) -> nodupb eqb l = true <-> NoDup l.
Proof.
  intros Heq. induction l as [|x l IH]; cbn [nodupb].
  - split; [constructor|reflexivity].
  - rewrite andb_true_iff, negb_true_iff, IH. split.
    + intros [H1 H2]. constructor; [|exact H2]. intros Hin.
      assert (existsb (eqb x) l = true); [|congruence].
      apply existsb_exists. exists x. split; [exact Hin|]. apply Heq. reflexivity.
    + intros H. inversion H as [|? ? H1 H2]; subst. split; [|exact H2].
      destruct (existsb (eqb x) l) eqn:Ex; [|reflexivity]. exfalso.
      apply existsb_exists in Ex as (y & Hy & Exy). apply Heq in Exy. subst y. auto.
Qed.

(** * The field loop *)

Definition slot_of (f : field) (v : val) : option val :=
  match f_ty f, v with
  | TOption _, VSome x => Some x
  | TOption _, _ => None
  | _, _ => Some v
  end.

Fixpoint slots_of (fs : list field) (vs : list val) : slots :=
  match fs, vs with
  | f :: fs', v :: vs' => slot_of f v :: slots_of fs' vs'
  | _, _ => []
  end.

Lemma find_field_app id pre f fs k :
  NoDup (map f_id (pre ++ f :: fs)) -> id = f_id f ->
  find_field id (pre ++ f :: fs) k = Some (k + length pre, f)%nat.
Proof.
  revert k. induction pre as [|g pre IH]; intros k Hnd ->; cbn [app find_field length].
  - rewrite N.eqb_refl. do 2 f_equal. lia.
  - cbn [app map] in Hnd. inversion Hnd as [|? ? Hni Hnd']; subst.
    destruct (N.eqb_spec (f_id g) (f_id f)) as [He|_].
    + exfalso. apply Hni. rewrite He. rewrite map_app. apply in_or_app. right. left. reflexivity.
    + rewrite IH by (auto). do 2 f_equal. lia.
Qed.

Lemma set_slot_app (done : slots) o v rest :
  set_slot (length done) v (done ++ o :: rest) = done ++ Some v :: rest.
Proof. induction done as [|x done IH]; cbn [length app set_slot]; [reflexivity|]. rewrite IH. reflexivity. Qed.

Lemma fid_enc_len_pos f : fid_value f < 2 ^ 29 -> (0 < length (encode_id f))%nat.
Proof.
  intros H. pose proof (encode_uint_nonempty W32 _ (fid_into_lt f H)) as Hne.
  unfold encode_id, encode_u32. destruct (encode_uint W32 (fid_into_u32 f)); [congruence|]. cbn. lia.
Qed.

(** An encoder of one field, as emitted by [encode_fields]. *)
Definition encode_one (enc : bool -> ty -> val -> list N) (f : field) (v : val) : list N :=
  match f_ty f with
  | TOption t =>
      match v with
      | VSome x => encode_field_option (FieldId (f_id f) (fenc_of t)) (enc true t) (Some x)
      | _ => encode_field_option (FieldId (f_id f) (fenc_of t)) (enc true t) None
      end
  | t => encode_field (FieldId (f_id f) (fenc_of t)) (enc true t v)
  end.

Lemma encode_fields_cons enc f fs v vs :
  encode_fields enc (f :: fs) (v :: vs) = encode_one enc f v ++ encode_fields enc fs vs.
Proof. reflexivity. Qed.

(** What [encode_one] writes: nothing for an absent optional field, else id and payload. *)
Lemma encode_one_cases enc f v :
  (slot_of f v = None /\ encode_one enc f v = [])
  \/ exists x, slot_of f v = Some x
       /\ encode_one enc f v =
          encode_id (FieldId (f_id f) (fenc_of (payload_ty (f_ty f)))) ++ enc true (payload_ty (f_ty f)) x.
Proof.
  unfold slot_of, encode_one, payload_ty.
  destruct (f_ty f); try (right; exists v; split; reflexivity).
  destruct v; try (left; split; reflexivity). right. eexists. split; reflexivity.
Qed.

Lemma loop_fields_encode (enc : bool -> ty -> val -> list N) (d : ty -> dec val) (B : nat) :
  forall fs vs pre done fuel rest,
  NoDup (map f_id (pre ++ fs)) ->
  Forall (fun f => 0 < f_id f /\ f_id f < 2 ^ 29) fs ->
  length done = length pre ->
  length vs = length fs ->
  (forall f v x r, In (f, v) (combine fs vs) -> slot_of f v = Some x ->
     (length (enc true (payload_ty (f_ty f)) x ++ r) < B)%nat ->
     d (payload_ty (f_ty f)) (enc true (payload_ty (f_ty f)) x ++ r) = Ok (x, r)) ->
  (length (encode_fields enc fs vs ++ encode_u32 END_MARKER ++ rest) <= B)%nat ->
  (length (encode_fields enc fs vs ++ encode_u32 END_MARKER ++ rest) < fuel)%nat ->
  loop_fields d (pre ++ fs) fuel (done ++ map (fun _ => None) fs)
    (encode_fields enc fs vs ++ encode_u32 END_MARKER ++ rest)
  = Ok (done ++ slots_of fs vs, rest).
Proof.
  induction fs as [|f fs IH]; intros vs pre done fuel rest Hnd Hids Hdone Hlen Hd HB Hfuel.
  - destruct vs; [|discriminate]. cbn [encode_fields app slots_of map] in *.
    destruct fuel as [|fuel]; [lia|]. cbn [loop_fields].
    change (encode_u32 END_MARKER) with (encode_id (FieldId 0 EVarint)).
    rewrite decode_id_encode by reflexivity. cbn [bind fid_value].
    change (0 =? END_MARKER) with true. cbv iota. rewrite app_nil_r. reflexivity.
  - destruct vs as [|v vs]; [discriminate|]. cbn [length] in Hlen.
    rewrite encode_fields_cons, <- app_assoc in *.
    inversion Hids as [|? ? [Hf0 Hf29] Hids']; subst.
    cbn [map slots_of].
    assert (Hpre : pre ++ f :: fs = (pre ++ [f]) ++ fs) by (rewrite <- app_assoc; reflexivity).
    destruct (encode_one_cases enc f v) as [[Hs He]|(x & Hs & He)]; rewrite He in *; rewrite Hs.
    + cbn [app] in *.
      replace (done ++ None :: map (fun _ => None) fs)
        with ((done ++ [None]) ++ map (fun _ : field => @None val) fs) by (rewrite <- app_assoc; reflexivity).
      rewrite Hpre. rewrite (IH vs (pre ++ [f])).
      * rewrite <- app_assoc. reflexivity.
      * rewrite <- Hpre. exact Hnd.
      * exact Hids'.
      * rewrite !app_length. cbn. lia.
      * lia.
      * intros g w y r Hin. apply Hd. right. exact Hin.
      * exact HB.
      * exact Hfuel.
    + set (t := payload_ty (f_ty f)) in *.
      destruct fuel as [|fuel]; [lia|]. cbn [loop_fields].
      rewrite <- app_assoc in HB, Hfuel |- *.
      rewrite decode_id_encode by exact Hf29. cbn [bind fid_value].
      replace (f_id f =? END_MARKER) with false by (unfold END_MARKER; lia).
      rewrite (find_field_app (f_id f) pre f fs 0 Hnd eq_refl). cbn [Nat.add].
      fold t.
      pose proof (fid_enc_len_pos (FieldId (f_id f) (fenc_of t)) Hf29) as Hpos.
      rewrite app_length in HB, Hfuel.
      rewrite (Hd f v x); [|left; reflexivity|exact Hs|fold t; lia].
      cbn [bind]. rewrite <- Hdone, set_slot_app.
      replace (done ++ Some x :: map (fun _ => None) fs)
        with ((done ++ [Some x]) ++ map (fun _ : field => @None val) fs) by (rewrite <- app_assoc; reflexivity).
      rewrite app_length in HB, Hfuel.
      rewrite Hpre. rewrite (IH vs (pre ++ [f])).
      * rewrite <- app_assoc. reflexivity.
      * rewrite <- Hpre. exact Hnd.
      * exact Hids'.
      * rewrite !app_length. cbn. lia.
      * lia.
      * intros g w y r Hin. apply Hd. right. exact Hin.
      * lia.
      * lia.
Qed.

(** [all2] as a relation. *)
Lemma all2_length p ts vs : all2 p ts vs = true -> length ts = length vs.
Proof.
  revert ts. induction vs as [|v vs IH]; intros [|t ts] H; cbn in *; try discriminate; [reflexivity|].
  apply andb_true_iff in H as [_ H]. f_equal. apply IH. exact H.
Qed.

Lemma all2_combine p ts vs : all2 p ts vs = true ->
  forall t v, In (t, v) (combine ts vs) -> p t v = true.
Proof.
  revert ts. induction vs as [|v vs IH]; intros [|t ts] H t' v' Hin; cbn in *; try contradiction.
  apply andb_true_iff in H as [H1 H2]. destruct Hin as [Hin|Hin].
  - injection Hin as <- <-. exact H1.
  - eapply IH; eassumption.
Qed.

Lemma assign_slots kind (p : ty -> val -> bool) fs vs :
  (forall t v, p (TOption t) v = true -> v = VNone \/ exists x, v = VSome x) ->
  all2 p (map f_ty fs) vs = true ->
  assign kind fs (slots_of fs vs) = Ok vs.
Proof.
  intros Hopt. revert vs. induction fs as [|f fs IH]; intros [|v vs] H; cbn in H; try discriminate;
    [reflexivity|].
  apply andb_true_iff in H as [Hp H]. cbn [slots_of assign]. unfold slot_of.
  specialize (IH vs H).
  destruct (f_ty f) eqn:Ef; rewrite ?IH; try reflexivity.
  destruct (Hopt _ _ Hp) as [->|[x ->]]; cbn [bind]; rewrite ?IH; reflexivity.
Qed.

Lemma fields_ok_ids fs : fields_ok fs = true ->
  NoDup (map f_id (fs_list fs))
  /\ Forall (fun f => 0 < f_id f /\ f_id f < 2 ^ 29) (fs_list fs)
  /\ (fs_kind fs = KUnit -> fs_list fs = []).
Proof.
  unfold fields_ok. rewrite !andb_true_iff. intros [[H1 H2] H3]. split; [|split].
  - apply (nodupb_NoDup N.eqb); [apply N.eqb_eq|exact H1].
  - apply Forall_forall. intros f Hf. rewrite forallb_forall in H2. specialize (H2 f Hf). lia.
  - intros Hk. rewrite Hk in H3. destruct (fs_list fs); [reflexivity|discriminate].
Qed.

Lemma inst_ids args fs : map f_id (fs_list (inst args fs)) = map f_id (fs_list fs).
Proof. unfold inst. cbn [fs_list]. rewrite map_map. reflexivity. Qed.

Lemma inst_ok args fs : fields_ok fs = true -> fields_ok (inst args fs) = true.
Proof.
  unfold fields_ok. rewrite inst_ids. rewrite !andb_true_iff. intros [[H1 H2] H3].
  split; [split|]; [exact H1| |].
  - unfold inst. cbn [fs_list]. rewrite forallb_forall in *. intros f Hf.
    apply in_map_iff in Hf as (g & <- & Hg). apply (H2 g Hg).
  - unfold inst. cbn [fs_list fs_kind]. destruct (fs_kind fs), (fs_list fs); try reflexivity. discriminate.
Qed.

Lemma find_variant_nth vars : forall idx k var, NoDup (map v_id vars) ->
  nth_error vars idx = Some var -> find_variant (v_id var) vars k = Some (k + idx, var)%nat.
Proof.
  induction vars as [|v vars IH]; intros idx k var Hnd H; [destruct idx; discriminate|].
  cbn [find_variant]. cbn [map] in Hnd. inversion Hnd as [|? ? Hni Hnd']; subst.
  destruct idx as [|idx]; cbn [nth_error] in H.
  - injection H as ->. rewrite N.eqb_refl. do 2 f_equal. lia.
  - destruct (N.eqb_spec (v_id v) (v_id var)) as [He|_].
    + exfalso. apply Hni. rewrite He. apply in_map. eapply nth_error_In. exact H.
    + rewrite (IH idx (S k) var Hnd' H). do 2 f_equal. lia.
Qed.

Lemma encode_fields_in enc fs : forall vs f v x, In (f, v) (combine fs vs) -> slot_of f v = Some x ->
  lenN (enc true (payload_ty (f_ty f)) x) <= lenN (encode_fields enc fs vs).
Proof.
  induction fs as [|g fs IH]; intros [|w vs] f v x Hin Hs; cbn [combine] in Hin; try contradiction.
  rewrite encode_fields_cons, lenN_app. destruct Hin as [Hin|Hin].
  - injection Hin as -> ->. destruct (encode_one_cases enc f v) as [[Hn _]|(y & Hy & ->)]; [congruence|].
    rewrite Hs in Hy. injection Hy as <-. rewrite lenN_app. lia.
  - specialize (IH vs f v x Hin Hs). lia.
Qed.

Lemma combine_map_l {A B C} (g : A -> C) (l : list A) (m : list B) a b :
  In (a, b) (combine l m) -> In (g a, b) (combine (map g l) m).
Proof.
  revert m. induction l as [|x l IH]; intros [|y m] H; cbn in *; try contradiction.
  destruct H as [H|H]; [left; congruence|right; apply IH; exact H].
Qed.

Lemma forallb_In {A} (p : A -> bool) l x : forallb p l = true -> In x l -> p x = true.
Proof. intros H Hx. rewrite forallb_forall in H. apply H. exact Hx. Qed.

Lemma nonempty_ne {A} (l : list A) : nonempty l = true -> l <> [].
Proof. destruct l; [discriminate|]. discriminate. Qed.

Lemma concat_in_le {A} (enc : A -> list N) x xs : In x xs -> lenN (enc x) <= lenN (concat (map enc xs)).
Proof.
  induction xs as [|y xs IH]; intros H; [contradiction|]. cbn [map concat]. rewrite lenN_app.
  destruct H as [->|H]; [lia|]. specialize (IH H). lia.
Qed.

Lemma dmap_ok {A B} (f : A -> B) (d : dec A) r a r' : d r = Ok (a, r') -> dmap f d r = Ok (f a, r').
Proof. intros H. unfold dmap. rewrite H. reflexivity. Qed.

Lemma unsigned_range w z : in_unsigned w z = true -> Z.to_N z < modulus w /\ (0 <= z)%Z.
Proof.
  unfold in_unsigned, modulus. intros H.
  assert (Z.of_N (2 ^ bits w) = 2 ^ Z.of_N (bits w))%Z by (destruct w; reflexivity). lia.
Qed.

Lemma in_signed_range w z : in_signed w z = true -> signed_range (bits w) z.
Proof. unfold in_signed, signed_range. intros H. lia. Qed.

Lemma lenN_encode_bytes l : lenN (encode_bytes l) < 2 ^ 64 -> lenN l < 2 ^ 64.
Proof. unfold encode_bytes. rewrite lenN_app. lia. Qed.

Lemma dVN_id z : (0 <= z)%Z -> dVN (Z.to_N z) = VInt z.
Proof. intros H. unfold dVN. f_equal. lia. Qed.

Section Main.
Variable E : env.
Hypothesis HE : env_ok E = true.

Lemma env_struct i fs : nth_error E i = Some (DStruct fs) -> fields_ok fs = true.
Proof.
  intros H. apply nth_error_In in H. unfold env_ok in HE. rewrite forallb_forall in HE.
  apply (HE _ H).
Qed.

Lemma env_enum i vars : nth_error E i = Some (DEnum vars) ->
  NoDup (map v_id vars)
  /\ forall v, In v vars -> v_id v < 2 ^ 32 /\ fields_ok (v_fields v) = true.
Proof.
  intros H. apply nth_error_In in H. unfold env_ok in HE. rewrite forallb_forall in HE.
  specialize (HE _ H). cbn [def_ok] in HE. apply andb_true_iff in HE as [H1 H2]. split.
  - apply (nodupb_NoDup N.eqb); [apply N.eqb_eq|exact H1].
  - intros v Hv. rewrite forallb_forall in H2. specialize (H2 v Hv). apply andb_true_iff in H2 as [Ha Hb]. split; [lia|exact Hb].
Qed.

(** The round trip at one value; [typed], [prefix_ok] as in the specification. *)
Definition RT (v : val) : Prop :=
  forall t root depth rest,
  typed E t v = true -> prefix_ok E t v = true ->
  lenN (encode E root t v) < 2 ^ 64 ->
  (length (encode E root t v ++ rest) < depth)%nat ->
  dec_ty (dec_ext E depth) root t (encode E root t v ++ rest) = Ok (v, rest).

Lemma typed_option t v : typed E (TOption t) v = true -> v = VNone \/ exists x, v = VSome x.
Proof. destruct v; cbn; intros H; try discriminate; eauto. Qed.

Lemma typed_slot f v x : typed E (f_ty f) v = true -> slot_of f v = Some x ->
  typed E (payload_ty (f_ty f)) x = true.
Proof.
  unfold slot_of, payload_ty. destruct (f_ty f); try (intros H X; injection X as <-; exact H).
  destruct v; intros H X; try discriminate. injection X as <-. exact H.
Qed.

Lemma prefix_slot f v x : prefix_ok E (f_ty f) v = true -> slot_of f v = Some x ->
  prefix_ok E (payload_ty (f_ty f)) x = true.
Proof.
  unfold slot_of, payload_ty. destruct (f_ty f); try (intros H X; injection X as <-; exact H).
  destruct v; intros H X; try discriminate. injection X as <-. exact H.
Qed.

(** [RT] for a value and, if it is [Some x], for [x]. *)
Definition RT2 (v : val) : Prop := RT v /\ forall x, v = VSome x -> RT x.

Lemma RT_slot f v x : RT2 v -> slot_of f v = Some x -> RT x.
Proof.
  intros [H1 H2]. unfold slot_of. destruct (f_ty f); try (intros X; injection X as <-; exact H1).
  destruct v; intros X; try discriminate. injection X as <-. apply H2. reflexivity.
Qed.

Lemma decode_body_encode fs vs depth rest :
  fields_ok fs = true ->
  Forall RT2 vs ->
  all2 (typed E) (map f_ty (fs_list fs)) vs = true ->
  all2 (prefix_ok E) (map f_ty (fs_list fs)) vs = true ->
  lenN (encode_body (encode E) fs vs) < 2 ^ 64 ->
  (length (encode_body (encode E) fs vs ++ rest) <= depth)%nat ->
  decode_body (dec_ty (dec_ext E depth) true) fs (encode_body (encode E) fs vs ++ rest) = Ok (vs, rest).
Proof.
  intros Hok HRT Hty Hpx Hsz Hdepth. destruct (fields_ok_ids fs Hok) as (Hnd & Hids & Hunit).
  pose proof (all2_length _ _ _ Hty) as Hlen. rewrite map_length in Hlen.
  assert (Hgen : fs_kind fs <> KUnit ->
    decode_body (dec_ty (dec_ext E depth) true) fs (encode_body (encode E) fs vs ++ rest) = Ok (vs, rest)).
  { intros Hk. unfold decode_body. unfold encode_body in *.
    assert (Hm : match fs_kind fs with KUnit => [] | _ => encode_fields (encode E) (fs_list fs) vs ++ encode_u32 END_MARKER end
       = encode_fields (encode E) (fs_list fs) vs ++ encode_u32 END_MARKER) by (destruct (fs_kind fs); congruence).
    rewrite Hm in *. rewrite <- app_assoc in *.
    assert (Hl : loop_fields (dec_ty (dec_ext E depth) true) (fs_list fs)
        (S (length (encode_fields (encode E) (fs_list fs) vs ++ encode_u32 END_MARKER ++ rest)))
        (map (fun _ => None) (fs_list fs))
        (encode_fields (encode E) (fs_list fs) vs ++ encode_u32 END_MARKER ++ rest)
        = Ok (slots_of (fs_list fs) vs, rest)).
    { apply (loop_fields_encode (encode E) (dec_ty (dec_ext E depth) true) depth (fs_list fs) vs [] []).
      - exact Hnd.
      - exact Hids.
      - reflexivity.
      - symmetry. exact Hlen.
      - intros f v x r Hin Hs Hlt.
        assert (Hv : In v vs) by (eapply in_combine_r; exact Hin).
        rewrite Forall_forall in HRT. specialize (HRT v Hv).
        pose proof (RT_slot f v x HRT Hs) as HX.
        apply HX.
        + eapply typed_slot; [|exact Hs]. eapply all2_combine; [exact Hty|].
          apply combine_map_l. exact Hin.
        + eapply prefix_slot; [|exact Hs]. eapply all2_combine; [exact Hpx|].
          apply combine_map_l. exact Hin.
        + pose proof (encode_fields_in (encode E) (fs_list fs) vs f v x Hin Hs) as Hle.
          rewrite lenN_app in Hsz. lia.
        + exact Hlt.
      - exact Hdepth.
      - lia. }
    rewrite Hl. cbn [bind].
    rewrite (assign_slots (fs_kind fs) (typed E)); [|apply typed_option|exact Hty].
    destruct (fs_kind fs); try reflexivity. congruence. }
  destruct (fs_kind fs) eqn:Ek; try (apply Hgen; discriminate).
  unfold decode_body, encode_body. rewrite Ek. cbn [app].
  rewrite (Hunit eq_refl) in Hlen. destruct vs; [reflexivity|discriminate].
Qed.

Lemma decode_seq_encode ts vs depth rest :
  Forall RT vs -> all2 (typed E) ts vs = true -> all2 (prefix_ok E) ts vs = true ->
  lenN (encode_seq (encode E) ts vs) < 2 ^ 64 ->
  (length (encode_seq (encode E) ts vs ++ rest) < depth)%nat ->
  decode_seq (dec_ty (dec_ext E depth) false) ts (encode_seq (encode E) ts vs ++ rest) = Ok (vs, rest).
Proof.
  intros HRT. revert ts. induction HRT as [|v vs Hv HRT IH]; intros [|t ts] Hty Hpx Hsz Hd;
    cbn in Hty, Hpx; try discriminate; [reflexivity|].
  apply andb_true_iff in Hty as [Ht Hty]. apply andb_true_iff in Hpx as [Hp Hpx].
  cbn [encode_seq decode_seq] in *. rewrite <- app_assoc in *. rewrite lenN_app in Hsz.
  rewrite Hv; [|exact Ht|exact Hp|lia|exact Hd]. cbn [bind].
  rewrite app_length in Hd. rewrite IH; [reflexivity|exact Hty|exact Hpx|lia|lia].
Qed.

(** Everything needed about the content of a vec/set/array. *)
Lemma elems_ok t' l depth :
  Forall RT l -> forallb (typed E t') l = true ->
  forallb (prefix_ok E t') l && forallb (fun x => nonempty (encode E false t' x)) l
    && (sumN (map (size E t') l) =? lenN (concat (map (encode E false t') l))) = true ->
  lenN (encode_vec (size E t') (encode E false t') l) < 2 ^ 64 ->
  sumN (map (size E t') l) = lenN (concat (map (encode E false t') l))
  /\ sumN (map (size E t') l) < 2 ^ 64
  /\ (forall x, In x l -> encode E false t' x <> [])
  /\ (forall x rest, In x l -> (length (encode E false t' x ++ rest) <= depth)%nat ->
        dec_ty (dec_ext E (S depth)) false t' (encode E false t' x ++ rest) = Ok (x, rest)).
Proof.
  intros HRT Hty Hpx Hsz. apply andb_true_iff in Hpx as [Hpx Hsum]. apply andb_true_iff in Hpx as [Hpx Hne].
  apply N.eqb_eq in Hsum. unfold encode_vec in Hsz. rewrite lenN_app in Hsz.
  split; [exact Hsum|]. split; [lia|]. split.
  - intros x Hx. apply nonempty_ne. apply (forallb_In _ _ _ Hne Hx).
  - intros x rest Hx Hd. rewrite Forall_forall in HRT.
    apply (HRT x Hx t' false).
    + apply (forallb_In _ _ _ Hty Hx).
    + apply (forallb_In _ _ _ Hpx Hx).
    + pose proof (concat_in_le (encode E false t') x l Hx). lia.
    + lia.
Qed.

Lemma decode_vec_encode t' l depth rest :
  Forall RT l -> forallb (typed E t') l = true ->
  forallb (prefix_ok E t') l && forallb (fun x => nonempty (encode E false t' x)) l
    && (sumN (map (size E t') l) =? lenN (concat (map (encode E false t') l))) = true ->
  lenN (encode_vec (size E t') (encode E false t') l) < 2 ^ 64 ->
  (length (encode_vec (size E t') (encode E false t') l ++ rest) < depth)%nat ->
  decode_vec (dec_ty (dec_ext E depth) false t') (encode_vec (size E t') (encode E false t') l ++ rest)
  = Ok (l, rest)
  /\ (l <> [] ->
      decode_non_zero_vec (dec_ty (dec_ext E depth) false t')
        (encode_vec (size E t') (encode E false t') l ++ rest) = Ok (l, rest))
  /\ decode_array (length l) (dec_ty (dec_ext E depth) false t')
        (encode_vec (size E t') (encode E false t') l ++ rest) = Ok (l, rest).
Proof.
  intros HRT Hty Hpx Hsz Hd. destruct depth as [|depth]; [lia|].
  destruct (elems_ok t' l depth HRT Hty Hpx Hsz) as (Hsum & Hlt & Hne & Hel).
  unfold encode_vec in *. rewrite Hsum in *. rewrite <- app_assoc in *.
  assert (HB : (length (concat (map (encode E false t') l)) <= depth)%nat)
    by (rewrite !app_length in Hd; lia).
  pose proof (decode_elems_encode _ _ depth l rest Hne Hel HB) as He.
  unfold decode_vec, decode_non_zero_vec, decode_array.
  rewrite decode_u64_encode by exact Hlt. cbn [bind]. split; [exact He|]. split.
  - intros Hl. destruct (N.eqb_spec (lenN (concat (map (encode E false t') l))) 0) as [H0|_].
    + exfalso. pose proof (concat_len_ge (encode E false t') l Hne) as Hge. unfold lenN in H0.
      destruct l; [congruence|]. cbn [length] in Hge. lia.
    + rewrite He. cbn [bind]. destruct l; [congruence|]. reflexivity.
  - rewrite ensure_size_app. cbv zeta. rewrite to_nat_lenN, firstn_len_app, skipn_len_app.
    rewrite (darr_encode _ _ depth l Hne Hel HB). cbn [bind]. rewrite Nat.eqb_refl. reflexivity.
Qed.

Lemma decode_map_encode tk tv l depth rest :
  Forall (fun kv => RT (fst kv) /\ RT (snd kv)) l ->
  forallb (fun kv => typed E tk (fst kv) && typed E tv (snd kv)) l = true ->
  forallb (fun kv => prefix_ok E tk (fst kv) && prefix_ok E tv (snd kv)) l
    && forallb (fun kv => nonempty (encode E false tk (fst kv) ++ encode E false tv (snd kv))) l
    && (sumN (map (fun kv => size E tk (fst kv) + size E tv (snd kv)) l)
        =? lenN (concat (map (fun kv => encode E false tk (fst kv) ++ encode E false tv (snd kv)) l))) = true ->
  let bytes := encode_u64 (sumN (map (fun kv => size E tk (fst kv) + size E tv (snd kv)) l))
      ++ concat (map (fun kv => encode E false tk (fst kv) ++ encode E false tv (snd kv)) l) in
  lenN bytes < 2 ^ 64 ->
  (length (bytes ++ rest) < depth)%nat ->
  NoDup (map fst l) ->
  decode_hash_map val_eqb (dec_ty (dec_ext E depth) false tk) (dec_ty (dec_ext E depth) false tv) (bytes ++ rest)
  = Ok (l, rest)
  /\ (l <> [] ->
      decode_non_zero_hash_map val_eqb (dec_ty (dec_ext E depth) false tk) (dec_ty (dec_ext E depth) false tv)
        (bytes ++ rest) = Ok (l, rest)).
Proof.
  intros HRT Hty Hpx bytes Hsz Hd Hnd. subst bytes.
  apply andb_true_iff in Hpx as [Hpx Hsum]. apply andb_true_iff in Hpx as [Hpx Hne].
  apply N.eqb_eq in Hsum. rewrite Hsum in *. rewrite <- app_assoc in *.
  set (enc := fun kv : val * val => encode E false tk (fst kv) ++ encode E false tv (snd kv)) in *.
  rewrite lenN_app in Hsz.
  assert (HB : (length (concat (map enc l)) <= depth)%nat) by (rewrite !app_length in Hd; lia).
  assert (Hne' : forall x, In x l -> enc x <> []).
  { intros x Hx. apply nonempty_ne. apply (forallb_In _ _ _ Hne Hx). }
  assert (Hlen : (length (concat (map enc l)) < depth)%nat).
  { rewrite !app_length in Hd. lia. }
  assert (Hel : forall x rest, In x l -> (length (enc x ++ rest) <= depth - 1)%nat ->
     dpair (dec_ty (dec_ext E depth) false tk) (dec_ty (dec_ext E depth) false tv) (enc x ++ rest) = Ok (x, rest)).
  { intros [k v] r Hx Hle.
    pose proof (concat_in_le enc (k, v) l Hx) as Hle2.
    assert (Henc : enc (k, v) = encode E false tk k ++ encode E false tv v) by reflexivity.
    rewrite Henc in *. rewrite lenN_app in Hle2. unfold dpair. rewrite <- app_assoc in Hle |- *.
    rewrite Forall_forall in HRT. destruct (HRT _ Hx) as [Hk Hv]. cbn [fst snd] in *.
    pose proof (forallb_In _ _ _ Hty Hx) as Ht. cbn [fst snd] in Ht. apply andb_true_iff in Ht as [Htk Htv].
    pose proof (forallb_In _ _ _ Hpx Hx) as Hp. cbn [fst snd] in Hp. apply andb_true_iff in Hp as [Hpk Hpv].
    rewrite Hk; [|exact Htk|exact Hpk|lia|lia]. cbn [bind].
    rewrite !app_length in Hle.
    rewrite Hv; [reflexivity|exact Htv|exact Hpv|lia|rewrite app_length; lia]. }
  assert (HB' : (length (concat (map enc l)) <= depth - 1)%nat) by lia.
  pose proof (decode_elems_encode _ enc (depth - 1) l rest Hne' Hel HB') as He.
  assert (Hmap : map_of val_eqb l = l).
  { apply map_of_nodup; [|exact Hnd]. intros a b Hab. apply val_eqb_eq. exact Hab. }
  unfold decode_hash_map, decode_non_zero_hash_map, decode_vec.
  rewrite decode_u64_encode by lia. cbn [bind]. rewrite He. cbn [bind]. rewrite Hmap. split; [reflexivity|].
  intros Hl. destruct (N.eqb_spec (lenN (concat (map enc l))) 0) as [H0|_].
  - exfalso. pose proof (concat_len_ge enc l Hne') as Hge. unfold lenN in H0.
    destruct l; [congruence|]. cbn [length] in Hge. lia.
  - destruct l; [congruence|]. reflexivity.
Qed.

Lemma encode_gen root t v : encode E root (TGen t) v = encode E false t v.
Proof.
  destruct v; try reflexivity. cbn [encode core is_tuple].
  destruct (core t); try reflexivity. rewrite andb_false_r. reflexivity.
Qed.

Lemma typed_gen t v : typed E (TGen t) v = typed E t v.
Proof. destruct v; reflexivity. Qed.

Lemma prefix_gen t v : prefix_ok E (TGen t) v = prefix_ok E t v.
Proof. destruct v; reflexivity. Qed.

Lemma RT_all v : RT2 v.
Proof.
  induction v using val_ind'; (split; [|try discriminate]); try (intros x X; injection X as <-; exact (proj1 IHv)).
  - (* VBool *)
    intros t. induction t; intros root depth rest Hty Hpx Hsz Hd; try discriminate Hty.
    + cbn. apply dmap_ok. apply decode_bool_encode.
    + cbn in Hty. destruct t; discriminate.
    + rewrite encode_gen in *. rewrite typed_gen in Hty. rewrite prefix_gen in Hpx.
      apply IHt; assumption.
  - (* VInt *)
    intros t. induction t; intros root depth rest Hty Hpx Hsz Hd; try discriminate Hty.
    + cbn [typed head_ok core andb] in Hty. cbn [encode core dec_ty].
      replace (VInt z) with (dVN (Z.to_N z)) by (apply dVN_id; lia). apply dmap_ok. apply decode_u8_encode.
    + cbn [typed head_ok core andb] in Hty. cbn [encode core dec_ty].
      apply dmap_ok. apply decode_i8_encode. lia.
    + cbn [typed head_ok core andb] in Hty. cbn [encode core dec_ty].
      apply unsigned_range in Hty as [Hu Hz]. replace (VInt z) with (dVN (Z.to_N z)) by (apply dVN_id; exact Hz). apply dmap_ok.
      apply decode_uint_encode. exact Hu.
    + cbn [typed head_ok core andb] in Hty. cbn [encode core dec_ty].
      apply dmap_ok. apply decode_sint_encode. apply in_signed_range. exact Hty.
    + clear IHt. cbn [typed head_ok nonzero_val] in Hty.
      apply andb_true_iff in Hty as [Hnz Hty]. apply andb_true_iff in Hnz as [Hin Hnz].
      destruct t; try discriminate Hin; try discriminate Hty; cbn [core] in Hty; cbn [encode core dec_ty].
      * replace (VInt z) with (dVN (Z.to_N z)) by (apply dVN_id; lia). apply dmap_ok. unfold decode_non_zero_uint.
        rewrite decode_u8_encode. cbn [bind]. destruct (N.eqb_spec (Z.to_N z) 0); [lia|reflexivity].
      * apply dmap_ok. unfold decode_non_zero_sint. rewrite decode_i8_encode by lia. cbn [bind].
        destruct (Z.eqb_spec z 0); [lia|reflexivity].
      * apply unsigned_range in Hty as [Hu Hz]. replace (VInt z) with (dVN (Z.to_N z)) by (apply dVN_id; lia). apply dmap_ok.
        unfold decode_non_zero_uint. rewrite decode_uint_encode by exact Hu. cbn [bind].
        destruct (N.eqb_spec (Z.to_N z) 0); [lia|reflexivity].
      * apply dmap_ok. unfold decode_non_zero_sint.
        rewrite decode_sint_encode by (apply in_signed_range; exact Hty). cbn [bind].
        destruct (Z.eqb_spec z 0); [lia|reflexivity].
    + rewrite encode_gen in *. rewrite typed_gen in Hty. rewrite prefix_gen in Hpx.
      apply IHt; assumption.
  - (* VBits *)
    intros t. induction t; intros root depth rest Hty Hpx Hsz Hd; try discriminate Hty.
    + cbn [typed head_ok core andb] in Hty. cbn [encode core dec_ty].
      apply dmap_ok. apply decode_f32_encode. lia.
    + cbn [typed head_ok core andb] in Hty. cbn [encode core dec_ty].
      apply dmap_ok. apply decode_f64_encode. lia.
    + cbn in Hty. destruct t; discriminate.
    + rewrite encode_gen in *. rewrite typed_gen in Hty. rewrite prefix_gen in Hpx.
      apply IHt; assumption.
  - (* VBytes *)
    intros t. induction t; intros root depth rest Hty Hpx Hsz Hd; try discriminate Hty;
      try (cbn [typed head_ok core andb] in Hty; cbn [encode core dec_ty] in *;
           apply lenN_encode_bytes in Hsz; apply dmap_ok;
           first [ apply decode_string_encode; [exact Hsz|]; apply andb_true_iff in Hty; apply Hty
                 | apply decode_bytes_encode; exact Hsz ]).
    + clear IHt. cbn [typed head_ok nonzero_val] in Hty.
      apply andb_true_iff in Hty as [Hnz Hty]. apply andb_true_iff in Hnz as [Hin Hnz].
      assert (Hb : lenN l < 2 ^ 64 ->
        decode_non_zero_bytes (encode_bytes l ++ rest) = Ok (l, rest)).
      { intros Hl. unfold decode_non_zero_bytes, encode_bytes. rewrite <- app_assoc.
        rewrite decode_u64_encode by exact Hl. cbn [bind].
        destruct (N.eqb_spec (lenN l) 0) as [H0|_]; [destruct l; [discriminate|unfold lenN in H0; cbn in H0; lia]|].
        rewrite ensure_size_app, to_nat_lenN, firstn_len_app, skipn_len_app.
        destruct l; [discriminate|reflexivity]. }
      destruct t; try discriminate Hin; try discriminate Hty; cbn [core] in Hty;
        cbn [encode core dec_ty] in *; apply lenN_encode_bytes in Hsz; apply dmap_ok;
        try (apply Hb; exact Hsz);
        (unfold decode_non_zero_string; rewrite (Hb Hsz); cbn [bind];
         apply andb_true_iff in Hty as [_ Hu]; rewrite Hu; destruct l; [discriminate|reflexivity]).
    + rewrite encode_gen in *. rewrite typed_gen in Hty. rewrite prefix_gen in Hpx.
      apply IHt; assumption.
  - (* VList *)
    assert (H' : Forall RT l) by (eapply Forall_impl; [|exact H]; intros a Ha; exact (proj1 Ha)).
    intros t. induction t; intros root depth rest Hty Hpx Hsz Hd; try discriminate Hty.
    + (* vec *)
      clear IHt. cbn [typed head_ok core andb] in Hty. cbn [prefix_ok core] in Hpx.
      cbn [encode core dec_ty] in *. apply dmap_ok.
      apply (decode_vec_encode t l depth rest H' Hty Hpx Hsz Hd).
    + (* set *)
      clear IHt. cbn [typed head_ok core andb] in Hty. cbn [prefix_ok core] in Hpx.
      apply andb_true_iff in Hty as [Hty Hnd].
      cbn [encode core dec_ty] in *. apply dmap_ok. unfold decode_hash_set.
      destruct (decode_vec_encode t l depth rest H' Hty Hpx Hsz Hd) as [-> _]. cbn [bind].
      rewrite set_of_nodup; [reflexivity| |].
      * intros a b Hab. apply val_eqb_eq. exact Hab.
      * apply (nodupb_NoDup val_eqb); [intros; apply val_eqb_eq|exact Hnd].
    + (* non_zero *)
      clear IHt. cbn [typed head_ok nonzero_val] in Hty.
      apply andb_true_iff in Hty as [Hnz Hty]. apply andb_true_iff in Hnz as [Hin Hnz].
      assert (Hne : l <> []) by (destruct l; discriminate).
      destruct t; try discriminate Hin; try discriminate Hty; cbn [core] in Hty;
        cbn [prefix_ok core] in Hpx; cbn [encode core dec_ty] in *; apply dmap_ok.
      * destruct (decode_vec_encode t l depth rest H' Hty Hpx Hsz Hd) as (_ & Hz & _). apply Hz. exact Hne.
      * apply andb_true_iff in Hty as [Hty Hnd].
        destruct (decode_vec_encode t l depth rest H' Hty Hpx Hsz Hd) as (_ & Hz & _).
        specialize (Hz Hne). unfold decode_non_zero_vec in Hz. unfold decode_non_zero_hash_set.
        apply bind_ok in Hz as ([len r1] & -> & Hz). cbn [bind].
        destruct (len =? 0); [discriminate|]. apply bind_ok in Hz as ([xs r2] & -> & Hz). cbn [bind].
        apply nonzero_unwrap_ok in Hz as (-> & -> & _).
        rewrite set_of_nodup.
        -- destruct xs; [congruence|reflexivity].
        -- intros a b Hab. apply val_eqb_eq. exact Hab.
        -- apply (nodupb_NoDup val_eqb); [intros; apply val_eqb_eq|exact Hnd].
    + (* tuple *)
      cbn [typed head_ok core andb] in Hty. cbn [prefix_ok core] in Hpx.
      apply andb_true_iff in Hpx as [Hpx Hfit]. apply N.ltb_lt in Hfit.
      cbn [encode core dec_ty is_tuple] in *. rewrite andb_true_r in *. destruct root.
      * unfold encode_tuple in *. rewrite <- app_assoc in *. rewrite lenN_app in Hsz.
        rewrite decode_u64_encode by exact Hfit. cbn [bind].
        rewrite app_length in Hd.
        rewrite decode_seq_encode; [reflexivity|exact H'|exact Hty|exact Hpx|lia|lia].
      * cbn [bind]. rewrite decode_seq_encode; [reflexivity|exact H'|exact Hty|exact Hpx|exact Hsz|exact Hd].
    + (* array *)
      clear IHt. cbn [typed head_ok core andb] in Hty. cbn [prefix_ok core] in Hpx.
      apply andb_true_iff in Hty as [Hn Hty]. apply Nat.eqb_eq in Hn.
      cbn [encode core dec_ty] in *. apply dmap_ok. rewrite <- Hn.
      apply (decode_vec_encode t l depth rest H' Hty Hpx Hsz Hd).
    + rewrite encode_gen in *. rewrite typed_gen in Hty. rewrite prefix_gen in Hpx.
      apply IHt; assumption.
  - (* VMap *)
    assert (H' : Forall (fun kv => RT (fst kv) /\ RT (snd kv)) l).
    { eapply Forall_impl; [|exact H]. intros a [Ha Hb]. split; [exact (proj1 Ha)|exact (proj1 Hb)]. }
    intros t. induction t; intros root depth rest Hty Hpx Hsz Hd; try discriminate Hty.
    + cbn [typed head_ok core andb] in Hty. cbn [prefix_ok core] in Hpx.
      apply andb_true_iff in Hty as [Hty Hnd].
      cbn [encode core dec_ty] in *. apply dmap_ok.
      apply (decode_map_encode t1 t2 l depth rest H' Hty Hpx Hsz Hd).
      apply (nodupb_NoDup val_eqb); [intros; apply val_eqb_eq|exact Hnd].
    + clear IHt. cbn [typed head_ok nonzero_val] in Hty.
      apply andb_true_iff in Hty as [Hnz Hty]. apply andb_true_iff in Hnz as [Hin Hnz].
      destruct t; try discriminate Hin; try discriminate Hty; cbn [core] in Hty.
      apply andb_true_iff in Hty as [Hty Hnd].
      cbn [prefix_ok core] in Hpx. cbn [encode core dec_ty] in *. apply dmap_ok.
      apply (decode_map_encode t1 t2 l depth rest H' Hty Hpx Hsz Hd).
      * apply (nodupb_NoDup val_eqb); [intros; apply val_eqb_eq|exact Hnd].
      * destruct l; discriminate.
    + rewrite encode_gen in *. rewrite typed_gen in Hty. rewrite prefix_gen in Hpx.
      apply IHt; assumption.
  - (* VNone *)
    intros t. induction t; intros root depth rest Hty Hpx Hsz Hd; try discriminate Hty.
    + cbn [encode core dec_ty encode_option]. unfold dmap, decode_option.
      change ([0] ++ rest) with (encode_u8 0 ++ rest).
      rewrite decode_u8_encode. reflexivity.
    + cbn in Hty. destruct t; discriminate.
    + rewrite encode_gen in *. rewrite typed_gen in Hty. rewrite prefix_gen in Hpx.
      apply IHt; assumption.
  - (* VSome *)
    destruct IHv as [IHv _].
    intros t. induction t; intros root depth rest Hty Hpx Hsz Hd; try discriminate Hty.
    + cbn [typed head_ok core andb] in Hty. cbn [prefix_ok core] in Hpx.
      cbn [encode core dec_ty encode_option app] in *. unfold dmap, decode_option.
      change (1 :: encode E false t v ++ rest) with (encode_u8 1 ++ (encode E false t v ++ rest)).
      rewrite decode_u8_encode. cbn [bind]. change (1 =? 1) with true. cbv iota.
      rewrite lenN_cons in Hsz. cbn [length] in Hd.
      rewrite IHv; [reflexivity|exact Hty|exact Hpx|lia|lia].
    + cbn in Hty. destruct t; discriminate.
    + rewrite encode_gen in *. rewrite typed_gen in Hty. rewrite prefix_gen in Hpx.
      apply IHt; assumption.
  - (* VRec *)
    intros t. induction t; intros root depth rest Hty Hpx Hsz Hd; try discriminate Hty.
    + cbn in Hty. destruct t; discriminate.
    + cbn [typed head_ok core andb] in Hty. cbn [prefix_ok core] in Hpx.
      cbn [encode core dec_ty] in *.
      destruct (nth_error E i) as [[fs|vars]|] eqn:Ei; try discriminate.
      destruct depth as [|depth]; [lia|]. cbn [dec_ext]. rewrite Ei. apply dmap_ok.
      apply decode_body_encode; [apply inst_ok; eapply env_struct; exact Ei|exact H|exact Hty|exact Hpx|exact Hsz|lia].
    + rewrite encode_gen in *. rewrite typed_gen in Hty. rewrite prefix_gen in Hpx.
      apply IHt; assumption.
  - (* VVar *)
    intros t. induction t; intros root depth rest Hty Hpx Hsz Hd; try discriminate Hty.
    + cbn in Hty. destruct t; discriminate.
    + cbn [typed head_ok core andb] in Hty. cbn [prefix_ok core] in Hpx.
      cbn [encode core dec_ty] in *.
      destruct (nth_error E i0) as [[fs|vars]|] eqn:Ei; try discriminate.
      destruct (nth_error vars i) as [var|] eqn:Ev; [|discriminate].
      destruct depth as [|depth]; [lia|]. cbn [dec_ext]. rewrite Ei.
      destruct (env_enum _ _ Ei) as [Hnd Hall].
      destruct (Hall var (nth_error_In _ _ Ev)) as [Hid Hfs].
      unfold decode_variant_id, encode_variant_id in *. rewrite <- app_assoc in *.
      rewrite decode_u32_encode by exact Hid. cbn [bind].
      rewrite (find_variant_nth vars i 0 var Hnd Ev). cbn [Nat.add]. apply dmap_ok.
      rewrite lenN_app in Hsz. rewrite app_length in Hd.
      apply decode_body_encode; [apply inst_ok; exact Hfs|exact H|exact Hty|exact Hpx|lia|lia].
    + rewrite encode_gen in *. rewrite typed_gen in Hty. rewrite prefix_gen in Hpx.
      apply IHt; assumption.
Qed.
End Main.
