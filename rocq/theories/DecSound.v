(** What a decoder returns is a value of the type it was asked for. *)
From Verif Require Import Base Varint VarintSpec VarintProofs Wire WireProofs Codec CodecSpec CodecProofs Safety WireMore.
Local Open Scope N_scope.

(** On bytes, [d] only returns values satisfying [P], and what it leaves are bytes. *)
Definition yields {A} (d : dec A) (P : A -> Prop) : Prop :=
  forall r a r', bytes_ok r = true -> d r = Ok (a, r') -> P a /\ bytes_ok r' = true.

Lemma bytes_skipn n l : bytes_ok l = true -> bytes_ok (skipn n l) = true.
Proof. unfold bytes_ok. rewrite !forallb_forall. intros H x Hx. apply H. apply (in_skipn_in n l x Hx) || (rewrite <- (firstn_skipn n l); apply in_or_app; right; exact Hx). Qed.
Lemma bytes_firstn n l : bytes_ok l = true -> bytes_ok (firstn n l) = true.
Proof. unfold bytes_ok. rewrite !forallb_forall. intros H x Hx. apply H. rewrite <- (firstn_skipn n l). apply in_or_app. left. exact Hx. Qed.
Lemma ensure_inv {A} r n (k : res A) a : ensure_size r n k = Ok a -> n <= lenN r /\ k = Ok a.
Proof. unfold ensure_size. destruct (N.ltb_spec (lenN r) n); [discriminate|]. intros Hk. split; assumption. Qed.

Lemma yields_weaken {A} (d : dec A) (P Q : A -> Prop) : yields d P -> (forall a, P a -> Q a) -> yields d Q.
Proof. intros H HPQ r a r' Hr Hd. destruct (H r a r' Hr Hd). split; auto. Qed.
Lemma yields_dmap {A B} (f : A -> B) (d : dec A) (P : A -> Prop) (Q : B -> Prop) : yields d P -> (forall a, P a -> Q (f a)) -> yields (dmap f d) Q.
Proof.
  intros H HPQ r b r' Hr Hd. unfold dmap in Hd. apply bind_ok in Hd as ([a r1] & H1 & H2). injection H2 as <- <-.
  destruct (H r a r1 Hr H1). split; auto.
Qed.

Lemma yields_u8 : yields decode_u8 (fun b => b < 256).
Proof.
  intros r a r' Hr H. unfold decode_u8 in H. apply ensure_inv in H as [_ H]. destruct r as [|b r]; [discriminate|]. cbn [get_u8] in H.
  injection H as <- <-. unfold bytes_ok in Hr. cbn [forallb] in Hr. apply andb_prop in Hr as [Hb Hr]. split; [apply N.ltb_lt; exact Hb|exact Hr].
Qed.
Lemma yields_bool : yields decode_bool (fun _ => True).
Proof.
  intros r a r' Hr H. unfold decode_bool in H. apply ensure_inv in H as [_ H]. destruct r as [|b r]; [discriminate|]. cbn [get_u8 bind] in H.
  assert (r = r') by congruence. subst r'. unfold bytes_ok in Hr. cbn [forallb] in Hr. apply andb_prop in Hr as [Hb Hr]. split; [exact I|exact Hr].
Qed.
Lemma yields_i8 : yields decode_i8 (fun z => (-128 <= z < 128)%Z).
Proof.
  intros r a r' Hr H. unfold decode_i8 in H. apply ensure_inv in H as [_ H]. destruct r as [|b r]; [discriminate|]. cbn [get_u8 bind] in H.
  assert (r = r') by congruence. assert (Ha : a = (if b <? 128 then Z.of_N b else (Z.of_N b - 256)%Z)) by congruence. subst r'.
  unfold bytes_ok in Hr. cbn [forallb] in Hr. apply andb_prop in Hr as [Hb Hr]. apply N.ltb_lt in Hb. split; [|exact Hr].
  destruct (N.ltb_spec b 128); lia.
Qed.
Lemma yields_uint w : yields (decode_uint w) (fun v => v < 2 ^ bits w).
Proof.
  intros r a r' Hr H. unfold decode_uint in H. destruct (decode_arr w r) as [[v n]|] eqn:E; [|discriminate]. injection H as <- <-.
  destruct (c06_ok w r v n Hr E) as [Hv _]. split; [exact Hv|apply bytes_skipn; exact Hr].
Qed.
Lemma yields_sint w : yields (decode_sint w) (fun z => in_signed w z = true).
Proof.
  intros r a r' Hr H. unfold decode_sint, decode_arr_signed in H. destruct (decode_arr w r) as [[v n]|] eqn:E; [|discriminate]. injection H as <- <-.
  destruct (c06_ok w r v n Hr E) as [Hv _]. split; [|apply bytes_skipn; exact Hr].
  pose proof (zigzag_decode_range w v Hv) as Hs. unfold signed_range in Hs. unfold in_signed. lia.
Qed.
Lemma of_be_bound l : bytes_ok l = true -> of_be l < 256 ^ lenN l.
Proof.
  unfold of_be, bytes_ok. assert (G : forall l a, forallb byte_ok l = true -> fold_left (fun a b => a * 256 + b) l a < (a + 1) * 256 ^ lenN l).
  { clear. induction l as [|b l IH]; intros a H; [unfold lenN; cbn [length fold_left N.of_nat N.pow]; lia|]. cbn [forallb] in H. apply andb_prop in H as [Hb H].
    cbn [fold_left]. apply N.ltb_lt in Hb. specialize (IH (a * 256 + b) H). unfold lenN in *. cbn [length]. rewrite Nat2N.inj_succ, N.pow_succ_r'. nia. }
  intros H. specialize (G l 0 H). lia.
Qed.
Lemma yields_fixed n : yields (decode_fixed n) (fun v => v < 256 ^ n).
Proof.
  intros r a r' Hr H. unfold decode_fixed in H. apply ensure_inv in H as [Hn H]. injection H as <- <-. split; [|apply bytes_skipn; exact Hr].
  pose proof (of_be_bound _ (bytes_firstn (N.to_nat n) r Hr)) as Hb. unfold lenN in *. rewrite firstn_length in Hb.
  replace (N.of_nat (Nat.min (N.to_nat n) (length r))) with n in Hb by lia. exact Hb.
Qed.
Lemma yields_bytes : yields decode_bytes (fun l => bytes_ok l = true).
Proof.
  intros r a r' Hr H. unfold decode_bytes in H. apply bind_ok in H as ([len r1] & H1 & H). apply ensure_inv in H as [_ H]. injection H as <- <-.
  destruct (yields_uint W64 r len r1 Hr H1) as [_ Hr1]. split; [apply bytes_firstn|apply bytes_skipn]; exact Hr1.
Qed.
Lemma yields_string : yields decode_string (fun l => bytes_ok l && utf8_ok l = true).
Proof.
  intros r a r' Hr H. unfold decode_string in H. apply bind_ok in H as ([b r1] & H1 & H). destruct (yields_bytes r b r1 Hr H1) as [Hb Hr1].
  destruct (utf8_ok b) eqn:Eu; [|discriminate]. injection H as <- <-. rewrite Hb, Eu. split; [reflexivity|exact Hr1].
Qed.

(** Collections. *)
Lemma yields_loop {T} (d : dec T) P : yields d P -> forall n r xs, bytes_ok r = true -> dloop d n r = Ok xs -> Forall P xs.
Proof.
  intros Hd n. induction n as [|n IH]; intros r xs Hr H; destruct r as [|b r]; cbn [dloop] in H; try discriminate H; try (injection H as <-; constructor).
  apply bind_ok in H as ([x r'] & H1 & H). apply bind_ok in H as (l & H2 & H). injection H as <-. destruct (Hd _ _ _ Hr H1) as [Hx Hr'].
  constructor; [exact Hx|exact (IH r' l Hr' H2)].
Qed.
Lemma yields_vec {T} (d : dec T) P : yields d P -> yields (decode_vec d) (Forall P).
Proof.
  intros Hd r xs r' Hr H. unfold decode_vec in H. apply bind_ok in H as ([len r1] & H1 & H). destruct (yields_uint W64 r len r1 Hr H1) as [_ Hr1].
  unfold decode_elems in H. apply ensure_inv in H as [_ H]. cbv zeta in H. apply bind_ok in H as (l & H2 & H). injection H as <- <-.
  split; [exact (yields_loop d P Hd _ _ _ (bytes_firstn _ _ Hr1) H2)|apply bytes_skipn; exact Hr1].
Qed.
Lemma yields_pair {K V} (dk : dec K) (dv : dec V) P Q : yields dk P -> yields dv Q -> yields (dpair dk dv) (fun kv => P (fst kv) /\ Q (snd kv)).
Proof.
  intros Hk Hv r a r' Hr H. unfold dpair in H. apply bind_ok in H as ([k r1] & H1 & H). apply bind_ok in H as ([v r2] & H2 & H). injection H as <- <-.
  destruct (Hk _ _ _ Hr H1) as [HP Hr1]. destruct (Hv _ _ _ Hr1 H2) as [HQ Hr2]. split; [split; assumption|exact Hr2].
Qed.
Lemma map_of_in {K V} (eqb : K -> K -> bool) (P : K -> Prop) (Q : V -> Prop) l : Forall (fun kv => P (fst kv) /\ Q (snd kv)) l ->
  Forall (fun kv => P (fst kv) /\ Q (snd kv)) (map_of eqb l).
Proof.
  unfold map_of. assert (G : forall l m, Forall (fun kv : K * V => P (fst kv) /\ Q (snd kv)) l -> Forall (fun kv => P (fst kv) /\ Q (snd kv)) m ->
    Forall (fun kv => P (fst kv) /\ Q (snd kv)) (fold_left (fun m kv => map_insert eqb (fst kv) (snd kv) m) l m)).
  { clear l. induction l as [|[k v] l IH]; intros m Hl Hm; [exact Hm|]. inversion Hl as [|? ? Hkv Hl']; subst. cbn [fold_left]. apply IH; [exact Hl'|].
    cbn [fst snd] in *. clear - Hm Hkv. induction Hm as [|[k' v'] m [H1 H2] Hm IH]; cbn [map_insert]; [repeat constructor; apply Hkv|].
    destruct (eqb k k'); constructor; cbn [fst snd] in *; auto. split; [exact H1|apply Hkv]. }
  intros H. apply G; [exact H|constructor].
Qed.
Lemma yields_map {K V} (eqb : K -> K -> bool) (dk : dec K) (dv : dec V) P Q : (forall a b, eqb a b = true <-> a = b) -> yields dk P -> yields dv Q ->
  yields (decode_hash_map eqb dk dv) (fun m => Forall (fun kv => P (fst kv) /\ Q (snd kv)) m /\ NoDup (map fst m)).
Proof.
  intros He Hk Hv r m r' Hr H. unfold decode_hash_map in H. apply bind_ok in H as ([l r1] & H1 & H). injection H as <- <-.
  destruct (yields_vec _ _ (yields_pair dk dv P Q Hk Hv) _ _ _ Hr H1) as [Hl Hr1]. split; [|exact Hr1]. split; [apply map_of_in; exact Hl|].
  apply (map_of_spec eqb He l).
Qed.
Lemma yields_set {K} (eqb : K -> K -> bool) (d : dec K) P : (forall a b, eqb a b = true <-> a = b) -> yields d P ->
  yields (decode_hash_set eqb d) (fun s => Forall P s /\ NoDup s).
Proof.
  intros He Hd r m r' Hr H. unfold decode_hash_set in H. apply bind_ok in H as ([l r1] & H1 & H). injection H as <- <-.
  destruct (yields_vec _ _ Hd _ _ _ Hr H1) as [Hl Hr1]. split; [|exact Hr1]. destruct (set_of_spec eqb He l) as [Hn Hi]. split; [|exact Hn].
  rewrite Forall_forall in *. intros x Hx. apply Hl, Hi, Hx.
Qed.
Lemma yields_option {T} (d : dec T) P : yields d P -> yields (decode_option d) (fun o => match o with Some v => P v | None => True end).
Proof.
  intros Hd r o r' Hr H. unfold decode_option in H. apply bind_ok in H as ([t r1] & H1 & H). destruct (yields_u8 _ _ _ Hr H1) as [_ Hr1].
  destruct (t =? 1); [|injection H as <- <-; split; [exact I|exact Hr1]]. apply bind_ok in H as ([v r2] & H2 & H). injection H as <- <-. exact (Hd _ _ _ Hr1 H2).
Qed.
Lemma yields_arr {T} (d : dec T) P : yields d P -> forall n r xs, bytes_ok r = true -> darr d n r = Ok xs -> Forall P xs.
Proof.
  intros Hd n. induction n as [|n IH]; intros r xs Hr H; destruct r as [|b r]; cbn [darr] in H; try (injection H as <-; constructor).
  apply bind_ok in H as ([x r'] & H1 & H). apply bind_ok in H as (l & H2 & H). injection H as <-. destruct (Hd _ _ _ Hr H1) as [Hx Hr'].
  constructor; [exact Hx|exact (IH r' l Hr' H2)].
Qed.
Lemma yields_array {T} n (d : dec T) P : yields d P -> yields (decode_array n d) (fun l => length l = n /\ Forall P l).
Proof.
  intros Hd r xs r' Hr H. unfold decode_array in H. apply bind_ok in H as ([len r1] & H1 & H). destruct (yields_uint W64 r len r1 Hr H1) as [_ Hr1].
  apply ensure_inv in H as [_ H]. cbv zeta in H. apply bind_ok in H as (l & H2 & H). destruct (Nat.eqb_spec (length l) n) as [Hn|]; [|discriminate].
  injection H as <- <-. split; [|apply bytes_skipn; exact Hr1]. split; [exact Hn|exact (yields_arr d P Hd _ _ _ (bytes_firstn _ _ Hr1) H2)].
Qed.

Lemma nz_dec_ty ext root t r : nz_inner t = true -> dec_ty ext root (TNonZero t) r = nz_spec (dec_ty ext root t r).
Proof.
  intros Hin. destruct t; try discriminate Hin; cbn [dec_ty].
  - unfold dmap, decode_non_zero_uint. destruct (decode_u8 r) as [[v r1]| | |]; try reflexivity.
    cbn [bind nz_spec dVN nonzero_val]. destruct v; reflexivity.
  - unfold dmap, decode_non_zero_sint. destruct (decode_i8 r) as [[v r1]| | |]; try reflexivity.
    cbn [bind nz_spec nonzero_val]. destruct (v =? 0)%Z; reflexivity.
  - unfold dmap, decode_non_zero_uint. destruct (decode_uint w r) as [[v r1]| | |]; try reflexivity.
    cbn [bind nz_spec dVN nonzero_val]. destruct v; reflexivity.
  - unfold dmap, decode_non_zero_sint. destruct (decode_sint w r) as [[v r1]| | |]; try reflexivity.
    cbn [bind nz_spec nonzero_val]. destruct (v =? 0)%Z; reflexivity.
  - apply nz_string_spec. reflexivity.
  - apply nz_string_spec. reflexivity.
  - apply nz_bytes_spec. reflexivity.
  - apply nz_bytes_spec. reflexivity.
  - transitivity (nz_spec (dmap VList (fun r => do (l, r1) <- decode_vec (dec_ty ext false t) r; Ok (id l, r1)) r)).
    + apply (nz_elems_spec (dec_ty ext false t) id VList r); auto.
    + f_equal. unfold dmap. destruct (decode_vec (dec_ty ext false t) r) as [[l r1]| | |]; reflexivity.
  - apply (nz_elems_spec _ (map_of val_eqb) VMap r); [reflexivity|apply map_of_ne'|reflexivity].
  - apply (nz_elems_spec _ (set_of val_eqb) VList r); [reflexivity|apply set_of_ne'|reflexivity].
Qed.

Section WithEnv.
Variable E : env.
Definition is_a (t : ty) : val -> Prop := fun v => typed E t v = true.

Lemma typed_eq t v : typed E t v = head_ok t v && match core t, v with
  | TBool, VBool _ => true
  | TU8, VInt z => ((0 <=? z) && (z <? 256))%Z
  | TI8, VInt z => ((-128 <=? z) && (z <? 128))%Z
  | TUInt w, VInt z => in_unsigned w z
  | TSInt w, VInt z => in_signed w z
  | TF32, VBits b => b <? 2 ^ 32
  | TF64, VBits b => b <? 2 ^ 64
  | (TString | TStringRef | TBoxString), VBytes l => bytes_ok l && utf8_ok l
  | (TBytes | TBytesRef | TBoxBytes), VBytes l => bytes_ok l
  | TVec t', VList l => forallb (typed E t') l
  | TSet t', VList l => forallb (typed E t') l && nodupb val_eqb l
  | TArray t' n, VList l => (length l =? n)%nat && forallb (typed E t') l
  | TMap tk tv, VMap l =>
      forallb (fun kv => typed E tk (fst kv) && typed E tv (snd kv)) l && nodupb val_eqb (map fst l)
  | TOption t', VSome x => typed E t' x
  | TOption t', VNone => true
  | TTuple ts, VList l => all2 (typed E) ts l
  | TExt i args, VRec vs =>
      match nth_error E i with
      | Some (DStruct fs) => all2 (typed E) (map f_ty (fs_list (inst args fs))) vs
      | _ => false
      end
  | TExt i args, VVar idx vs =>
      match nth_error E i with
      | Some (DEnum vars) =>
          match nth_error vars idx with
          | Some var => all2 (typed E) (map f_ty (fs_list (inst args (v_fields var)))) vs
          | None => false
          end
      | _ => false
      end
  | _, _ => false
  end.
Proof. destruct v; reflexivity. Qed.
Lemma is_a_gen t v : is_a t v -> is_a (TGen t) v.
Proof. unfold is_a. rewrite !typed_eq. exact (fun H => H). Qed.
Lemma is_a_nz t v : nz_inner t = true -> is_a t v -> nonzero_val v = true -> is_a (TNonZero t) v.
Proof.
  unfold is_a. rewrite (typed_eq (TNonZero t)), (typed_eq t). intros Ht H Hv. cbn [head_ok core]. rewrite Ht, Hv. cbn [andb].
  apply andb_prop in H as [_ H]. exact H.
Qed.
Lemma all_typed t l : Forall (is_a t) l -> forallb (typed E t) l = true.
Proof. rewrite forallb_forall, Forall_forall. exact (fun H => H). Qed.
Lemma val_eqb_iff a b : val_eqb a b = true <-> a = b.
Proof. apply val_eqb_eq. Qed.

Lemma seq_typed d ts : (forall t, In t ts -> yields (d t) (is_a t)) -> yields (decode_seq d ts) (fun l => all2 (typed E) ts l = true).
Proof.
  induction ts as [|t ts IH]; intros H r vs r' Hr Hd; cbn [decode_seq] in Hd; [injection Hd as <- <-; split; [reflexivity|exact Hr]|].
  apply bind_ok in Hd as ([v r1] & H1 & Hd). apply bind_ok in Hd as ([l r2] & H2 & Hd). injection Hd as <- <-.
  destruct (H t (or_introl eq_refl) _ _ _ Hr H1) as [Hv Hr1]. destruct (IH (fun x Hx => H x (or_intror Hx)) _ _ _ Hr1 H2) as [Hl Hr2].
  split; [|exact Hr2]. cbn [all2]. unfold is_a in Hv. rewrite Hv, Hl. reflexivity.
Qed.

Lemma dec_ty_typed ext : (forall i args, yields (ext i args) (is_a (TExt i args))) -> forall t root, yields (dec_ty ext root t) (is_a t).
Proof.
  intros He t. induction t as [t Hl|t IH|k v IHk IHv|t IH|t IH|t IH|ts IH|t n IH|i args IH|t IH] using ty_ind'; intros root.
  - destruct t; try discriminate Hl; cbn [dec_ty].
    + eapply yields_dmap; [apply yields_bool|reflexivity].
    + eapply yields_dmap; [apply yields_u8|]. intros a Ha. cbv beta in Ha. unfold is_a, dVN. rewrite typed_eq. cbn [head_ok core andb]. lia.
    + eapply yields_dmap; [apply yields_i8|]. intros a Ha. cbv beta in Ha. unfold is_a. rewrite typed_eq. cbn [head_ok core andb]. lia.
    + eapply yields_dmap; [apply yields_uint|]. intros a Ha. cbv beta in Ha. unfold is_a, dVN. rewrite typed_eq. cbn [head_ok core andb]. unfold in_unsigned.
      rewrite <- (N2Z.inj_pow 2). cbn [Z.of_N] in *. lia.
    + eapply yields_dmap; [apply yields_sint|]. intros a Ha. cbv beta in Ha. unfold is_a. rewrite typed_eq. cbn [head_ok core andb]. exact Ha.
    + eapply yields_dmap; [apply yields_fixed|]. intros a Ha. cbv beta in Ha. unfold is_a. rewrite typed_eq. cbn [head_ok core andb]. apply N.ltb_lt. exact Ha.
    + eapply yields_dmap; [apply yields_fixed|]. intros a Ha. cbv beta in Ha. unfold is_a. rewrite typed_eq. cbn [head_ok core andb]. apply N.ltb_lt. exact Ha.
    + eapply yields_dmap; [apply yields_string|]. intros a Ha. cbv beta in Ha. unfold is_a. rewrite typed_eq. exact Ha.
    + eapply yields_dmap; [apply yields_string|]. intros a Ha. cbv beta in Ha. unfold is_a. rewrite typed_eq. exact Ha.
    + eapply yields_dmap; [apply yields_string|]. intros a Ha. cbv beta in Ha. unfold is_a. rewrite typed_eq. exact Ha.
    + eapply yields_dmap; [apply yields_bytes|]. intros a Ha. cbv beta in Ha. unfold is_a. rewrite typed_eq. exact Ha.
    + eapply yields_dmap; [apply yields_bytes|]. intros a Ha. cbv beta in Ha. unfold is_a. rewrite typed_eq. exact Ha.
    + eapply yields_dmap; [apply yields_bytes|]. intros a Ha. cbv beta in Ha. unfold is_a. rewrite typed_eq. exact Ha.
    + intros r a r' _ H. discriminate H.
  - eapply yields_dmap; [apply yields_vec, IH|]. intros l Hl. unfold is_a. rewrite typed_eq. cbn [head_ok core andb]. apply all_typed. exact Hl.
  - eapply yields_dmap; [apply (yields_map val_eqb); [exact val_eqb_iff|apply IHk|apply IHv]|]. intros m [Hm Hn]. unfold is_a. rewrite typed_eq. cbn [head_ok core andb].
    apply (nodupb_NoDup val_eqb _ val_eqb_iff) in Hn. rewrite Hn, andb_true_r. rewrite forallb_forall. rewrite Forall_forall in Hm.
    intros kv Hkv. destruct (Hm kv Hkv) as [H1 H2]. unfold is_a in H1, H2. rewrite H1, H2. reflexivity.
  - eapply yields_dmap; [apply (yields_set val_eqb); [exact val_eqb_iff|apply IH]|]. intros l [Hl Hn]. unfold is_a. rewrite typed_eq. cbn [head_ok core andb].
    apply (nodupb_NoDup val_eqb _ val_eqb_iff) in Hn. rewrite Hn, (all_typed _ _ Hl). reflexivity.
  - eapply yields_dmap; [apply yields_option, IH|]. intros [v|] Hv; unfold is_a; rewrite typed_eq; cbn [head_ok core andb]; [exact Hv|reflexivity].
  - intros r a r' Hr H. destruct (nz_inner t) eqn:En.
    + rewrite (nz_dec_ty ext root t r En) in H. unfold nz_spec in H. destruct (dec_ty ext root t r) as [[v r1]| | |] eqn:Ed; try discriminate H.
      destruct (nonzero_val v) eqn:Ev; [|discriminate H]. injection H as <- <-. destruct (IH root r v r1 Hr Ed) as [Hv Hr1].
      split; [apply is_a_nz; assumption|exact Hr1].
    + cbn [dec_ty] in H. destruct t; try discriminate En; discriminate H.
  - intros r a r' Hr H. cbn [dec_ty] in H. apply bind_ok in H as ([x r1] & H1 & H). apply bind_ok in H as ([vs r2] & H2 & H). injection H as <- <-.
    assert (Hr1 : bytes_ok r1 = true).
    { destruct root; [exact (proj2 (yields_uint W64 r x r1 Hr H1))|injection H1 as _ <-; exact Hr]. }
    rewrite Forall_forall in IH. destruct (seq_typed (dec_ty ext false) ts (fun t Ht => IH t Ht false) r1 vs r2 Hr1 H2) as [Hv Hr2].
    split; [|exact Hr2]. unfold is_a. rewrite typed_eq. exact Hv.
  - eapply yields_dmap; [apply yields_array, IH|]. intros l [Hn Hl]. unfold is_a. rewrite typed_eq. cbn [head_ok core andb].
    rewrite (all_typed _ _ Hl), andb_true_r. apply Nat.eqb_eq. exact Hn.
  - apply He.
  - cbn [dec_ty]. eapply yields_weaken; [apply IH|]. intros v. apply is_a_gen.
Qed.

(** Structs and variants. *)
Definition slot_ok (t : ty) (o : option val) : Prop := match o with Some v => is_a (payload_ty t) v | None => True end.
Lemma set_slot_ok : forall ts s k t v, Forall2 slot_ok ts s -> nth_error ts k = Some t -> is_a (payload_ty t) v -> Forall2 slot_ok ts (set_slot k v s).
Proof.
  intros ts s k t v H. revert k. induction H as [|u o ts s Ho H IH]; intros k Hk Hv; [destruct k; discriminate Hk|].
  destruct k as [|k]; cbn [nth_error set_slot] in *; [injection Hk as <-; constructor; [exact Hv|exact H]|constructor; [exact Ho|apply IH; assumption]].
Qed.
Lemma find_field_nth id fs : forall k j f, find_field id fs k = Some (j, f) -> exists i, j = (k + i)%nat /\ nth_error fs i = Some f.
Proof.
  induction fs as [|g fs IH]; intros k j f H; cbn [find_field] in H; [discriminate|]. destruct (f_id g =? id).
  - injection H as <- <-. exists 0%nat. split; [lia|reflexivity].
  - destruct (IH (S k) j f H) as (i & -> & Hi). exists (S i). split; [lia|exact Hi].
Qed.
Lemma loop_typed d fs : (forall t, yields (d t) (is_a t)) -> forall n s r s' r', bytes_ok r = true -> Forall2 slot_ok (map f_ty fs) s ->
  loop_fields d fs n s r = Ok (s', r') -> Forall2 slot_ok (map f_ty fs) s' /\ bytes_ok r' = true.
Proof.
  intros Hd n. induction n as [|n IH]; intros s r s' r' Hr Hs H; [discriminate|]. cbn [loop_fields] in H. apply bind_ok in H as ([id r1] & H1 & H).
  assert (Hr1 : bytes_ok r1 = true).
  { unfold decode_id in H1. apply bind_ok in H1 as ([raw r2] & H1 & H2). destruct (yields_uint W32 r raw r2 Hr H1) as [_ Hr2].
    destruct (fid_from_u32 raw); [|discriminate]. injection H2 as _ <-. exact Hr2. }
  destruct (fid_value id =? END_MARKER); [injection H as <- <-; split; assumption|].
  destruct (find_field (fid_value id) fs 0) as [[k f]|] eqn:Ef.
  - apply bind_ok in H as ([v r2] & H2 & H). destruct (Hd _ _ _ _ Hr1 H2) as [Hv Hr2]. destruct (find_field_nth _ _ _ _ _ Ef) as (i & -> & Hi).
    refine (IH _ _ _ _ Hr2 _ H). apply (set_slot_ok _ _ _ (f_ty f)); [exact Hs| |exact Hv]. cbn [Nat.add]. rewrite nth_error_map, Hi. reflexivity.
  - apply bind_ok in H as (r2 & H2 & H). refine (IH _ _ _ _ _ Hs H). apply decode_skip_suffix in H2. destruct H2 as [x Hx]. 
    rewrite Hx in Hr1. unfold bytes_ok in *. rewrite forallb_app in Hr1. apply andb_prop in Hr1. apply Hr1.
Qed.
Lemma assign_typed kind fs s vs : Forall2 slot_ok (map f_ty fs) s -> assign kind fs s = Ok vs -> all2 (typed E) (map f_ty fs) vs = true.
Proof.
  intros H. remember (map f_ty fs) as ts eqn:Et. revert fs Et vs. induction H as [|t o ts s Ho H IH]; intros fs Et vs Ha.
  - destruct fs; [|discriminate]. injection Ha as <-. reflexivity.
  - destruct fs as [|f fs]; [discriminate|]. cbn [map] in Et. injection Et as -> Et. cbn [assign] in Ha. unfold slot_ok, is_a in Ho.
    destruct (f_ty f) eqn:Ef; destruct o as [v|]; try discriminate Ha;
      apply bind_ok in Ha as (l & Hl & Ha); injection Ha as <-; cbn [all2]; rewrite (IH fs Et l Hl), andb_true_r; try exact Ho; reflexivity.
Qed.
Lemma none_ok (fs : list field) : Forall2 slot_ok (map f_ty fs) (map (fun _ => None) fs).
Proof. induction fs as [|f fs IH]; [apply Forall2_nil|]. cbn [map]. apply Forall2_cons; [exact I|exact IH]. Qed.
Lemma body_typed d fs : (forall t, yields (d t) (is_a t)) -> (fs_kind fs = KUnit -> fs_list fs = []) ->
  yields (decode_body d fs) (fun vs => all2 (typed E) (map f_ty (fs_list fs)) vs = true).
Proof.
  intros Hd Hu r vs r' Hr H. unfold decode_body in H. destruct (fs_kind fs) eqn:Ek.
  3: { injection H as <- <-. rewrite (Hu eq_refl). split; [reflexivity|exact Hr]. }
  all: apply bind_ok in H as ([s r1] & H1 & H); apply bind_ok in H as (l & H2 & H); injection H as <- <-;
    destruct (loop_typed d (fs_list fs) Hd _ _ _ _ _ Hr (none_ok (fs_list fs)) H1) as [Hs Hr1];
    split; [exact (assign_typed _ _ _ _ Hs H2)|exact Hr1].
Qed.
Lemma find_variant_nth id vs : forall k j v, find_variant id vs k = Some (j, v) -> exists i, j = (k + i)%nat /\ nth_error vs i = Some v.
Proof.
  induction vs as [|g vs IH]; intros k j v H; cbn [find_variant] in H; [discriminate|]. destruct (v_id g =? id).
  - injection H as <- <-. exists 0%nat. split; [lia|reflexivity].
  - destruct (IH (S k) j v H) as (i & -> & Hi). exists (S i). split; [lia|exact Hi].
Qed.
Hypothesis Hok : forall d fs, In d E -> In fs (match d with DStruct fs => [fs] | DEnum vs => map v_fields vs end) -> fs_kind fs = KUnit -> fs_list fs = [].
Lemma unit_inst d fs args : In d E -> In fs (match d with DStruct fs => [fs] | DEnum vs => map v_fields vs end) ->
  fs_kind (inst args fs) = KUnit -> fs_list (inst args fs) = [].
Proof. intros Hd Hf Hk. unfold inst in *. cbn [fs_kind fs_list] in *. rewrite (Hok d fs Hd Hf Hk). reflexivity. Qed.
Lemma dec_ext_typed n : forall i args, yields (dec_ext E n i args) (is_a (TExt i args)).
Proof.
  induction n as [|n IH]; intros i args r v r' Hr H; [discriminate|]. cbn [dec_ext] in H.
  assert (Hd : forall t, yields (dec_ty (dec_ext E n) true t) (is_a t)) by (intros t; apply dec_ty_typed; exact IH).
  destruct (nth_error E i) as [d|] eqn:Ei; [|discriminate]. pose proof (unit_inst d) as Hdo. specialize (fun fs args => Hdo fs args (nth_error_In _ _ Ei)).
  destruct d as [fs|vs].
  - unfold dmap in H. apply bind_ok in H as ([l r1] & H1 & H). injection H as <- <-.
    destruct (body_typed _ (inst args fs) Hd (Hdo fs args (or_introl eq_refl)) _ _ _ Hr H1) as [Hl Hr1]. split; [|exact Hr1].
    unfold is_a. rewrite typed_eq. cbn [head_ok core andb]. rewrite Ei. exact Hl.
  - apply bind_ok in H as ([id r1] & H1 & H). destruct (yields_uint W32 _ _ _ Hr H1) as [_ Hr1]. destruct (find_variant id vs 0) as [[k w]|] eqn:Ef; [|discriminate].
    destruct (find_variant_nth _ _ _ _ _ Ef) as (j & -> & Hj). cbn [Nat.add] in *.
    unfold dmap in H. apply bind_ok in H as ([l r2] & H2 & H). injection H as <- <-.
    destruct (body_typed _ (inst args (v_fields w)) Hd (Hdo _ args (in_map v_fields _ _ (nth_error_In _ _ Hj))) _ _ _ Hr1 H2) as [Hl Hr2]. split; [|exact Hr2].
    unfold is_a. rewrite typed_eq. cbn [head_ok core andb]. rewrite Ei, Hj. exact Hl.
Qed.
Theorem decode_typed root t r v r' : bytes_ok r = true -> decode E root t r = Ok (v, r') -> typed E t v = true.
Proof. intros Hr H. exact (proj1 (dec_ty_typed _ (dec_ext_typed _) t root r v r' Hr H)). Qed.
End WithEnv.
