(** Further lemmas for the property theorems about the wire level (C11, C17, C26, C27). *)
From Verif Require Import Base Varint VarintSpec VarintProofs Wire WireProofs Codec CodecSpec CodecProofs Stable.
Local Open Scope N_scope.

(** * C11 *)
Lemma fid_exact id e : id < 2 ^ 32 ->
  (fid_from_u32 (fid_into_u32 (FieldId id e)) = Some (FieldId id e) <-> id < 2 ^ 29).
Proof.
  intros Hid. split; [|intros H; apply fid_roundtrip; exact H].
  intros H. unfold fid_from_u32 in H. destruct (fenc_from_u32 _); [|discriminate].
  assert (Hv : N.shiftr (fid_into_u32 (FieldId id e)) 3 = id) by congruence. clear H.
  assert (Hlt : fid_into_u32 (FieldId id e) < 2 ^ 32).
  { unfold fid_into_u32. cbn [fid_value fid_enc].
    assert (Hs : N.shiftl id 3 mod 2 ^ 32 = N.shiftl (id mod 2 ^ 29) 3).
    { rewrite !N.shiftl_mul_pow2. change (2 ^ 32) with (2 ^ 29 * 2 ^ 3). rewrite N.mul_mod_distr_r; [reflexivity| |]; discriminate. }
    rewrite Hs.
    assert (He : fenc_u32 e < 8) by (destruct e; reflexivity).
    assert (Hm : id mod 2 ^ 29 < 2 ^ 29) by (apply N.mod_lt; discriminate).
    rewrite N.lor_comm. rewrite <- N.lxor_lor.
    - rewrite <- N.add_nocarry_lxor.
      + rewrite N.shiftl_mul_pow2. change (2 ^ 3) with 8. change (2 ^ 32) with (2 ^ 29 * 8). lia.
      + apply N.bits_inj. intros n. rewrite N.land_spec, N.bits_0.
        destruct (N.ltb_spec n 3).
        * rewrite N.shiftl_spec_low by assumption. apply andb_false_r.
        * replace (N.testbit (fenc_u32 e) n) with false; [reflexivity|]. symmetry.
          apply N.bits_above_log2. destruct e; cbn; lia.
    - apply N.bits_inj. intros n. rewrite N.land_spec, N.bits_0.
      destruct (N.ltb_spec n 3).
      + rewrite N.shiftl_spec_low by assumption. apply andb_false_r.
      + replace (N.testbit (fenc_u32 e) n) with false; [reflexivity|]. symmetry.
        apply N.bits_above_log2. destruct e; cbn; lia. }
  rewrite <- Hv, N.shiftr_div_pow2. change (2 ^ 3) with 8. change (2 ^ 32) with (2 ^ 29 * 8) in Hlt.
  apply N.div_lt_upper_bound; [discriminate|]. lia.
Qed.

(** * C17 *)

Lemma dloop_ne {T} (d : dec T) n r xs : r <> [] -> dloop d n r = Ok xs -> xs <> [].
Proof.
  destruct r as [|b r]; [congruence|]. intros _ H. destruct n as [|n]; cbn [dloop] in H; [discriminate|].
  apply bind_ok in H as ([x r'] & _ & H). apply bind_ok in H as (ys & _ & H). injection H as <-. discriminate.
Qed.

Lemma elems_zero {T} (d : dec T) r : decode_elems d r 0 = Ok ([], r).
Proof. unfold decode_elems, ensure_size. replace (lenN r <? 0) with false by lia. reflexivity. Qed.

Lemma elems_ne {T} (d : dec T) r len xs r' : len <> 0 -> decode_elems d r len = Ok (xs, r') -> xs <> [].
Proof.
  intros Hl H. unfold decode_elems in H. apply ensure_ok in H as [Hle H].
  apply bind_ok in H as (ys & H & He). injection He as <- <-.
  eapply dloop_ne; [|exact H]. intros Hn. apply (f_equal (@length N)) in Hn.
  rewrite firstn_length in Hn. cbn in Hn. unfold lenN in Hle. lia.
Qed.

(** The decoder of [non_zero<T>] in terms of the decoder of [T]. *)
Definition nz_spec (o : res (val * list N)) : res (val * list N) :=
  match o with
  | Ok (v, r) => if nonzero_val v then Ok (v, r) else Err EZero
  | x => x
  end.

Lemma nz_bytes_spec (f : list N -> val) r : (forall l, nonzero_val (f l) = negb (match l with [] => true | _ => false end)) ->
  dmap f decode_non_zero_bytes r = nz_spec (dmap f decode_bytes r).
Proof.
  intros Hf. unfold dmap, decode_non_zero_bytes, decode_bytes.
  destruct (decode_u64 r) as [[len r1]| | |]; try reflexivity. cbn [bind].
  destruct (N.eqb_spec len 0) as [->|Hn].
  - unfold ensure_size. replace (lenN r1 <? 0) with false by lia. cbn [N.to_nat firstn bind nz_spec].
    rewrite Hf. reflexivity.
  - unfold ensure_size. destruct (N.ltb_spec (lenN r1) len) as [|Hle]; [reflexivity|].
    cbn [bind]. unfold nz_spec. rewrite Hf.
    assert (Hne : firstn (N.to_nat len) r1 <> []).
    { intros H. apply (f_equal (@length N)) in H. rewrite firstn_length in H. unfold lenN in Hle. cbn in H. lia. }
    destruct (firstn (N.to_nat len) r1); [congruence|reflexivity].
Qed.

Lemma nz_string_spec (f : list N -> val) r : (forall l, nonzero_val (f l) = negb (match l with [] => true | _ => false end)) ->
  dmap f decode_non_zero_string r = nz_spec (dmap f decode_string r).
Proof.
  intros Hf. unfold dmap, decode_non_zero_string, decode_string.
  pose proof (nz_bytes_spec f r Hf) as H. unfold dmap in H.
  destruct (decode_bytes r) as [[b r1]| | |] eqn:E; cbn [bind nz_spec] in H |- *.
  - rewrite Hf in H. destruct b as [|x b]; cbn [negb] in H.
    + destruct (decode_non_zero_bytes r) as [[b' r']| | |]; cbn [bind] in H; try discriminate H.
      injection H as ->. cbn [bind utf8_ok nz_spec]. rewrite Hf. reflexivity.
    + assert (Hb : decode_non_zero_bytes r = Ok (x :: b, r1)).
      { revert E. clear H. unfold decode_bytes, decode_non_zero_bytes. intros H.
        apply bind_ok in H as ([len r0] & -> & H). cbn [bind]. apply ensure_ok in H as [Hle H].
        injection H as H1 H2. destruct (N.eqb_spec len 0) as [->|Hn]; [discriminate|].
        unfold ensure_size. replace (lenN r0 <? len) with false by lia. rewrite H1, H2. reflexivity. }
      rewrite Hb. cbn [bind]. destruct (utf8_ok (x :: b)); [|reflexivity]. cbn [bind nonzero_unwrap nz_spec].
      rewrite Hf. reflexivity.
  - destruct (decode_non_zero_bytes r) as [[b' r']| | |]; cbn [bind] in H; try discriminate H. exact H.
  - destruct (decode_non_zero_bytes r) as [[b' r']| | |]; cbn [bind] in H; try discriminate H. reflexivity.
  - destruct (decode_non_zero_bytes r) as [[b' r']| | |]; cbn [bind] in H; try discriminate H. reflexivity.
Qed.

Lemma nz_elems_spec {T U} (d : dec T) (g : list T -> list U) (f : list U -> val) r :
  g [] = [] -> (forall l, l <> [] -> g l <> []) ->
  (forall l, nonzero_val (f l) = negb (match l with [] => true | _ => false end)) ->
  dmap f (fun r => do (len, r1) <- decode_u64 r; if len =? 0 then Err EZero else
            do (xs, r2) <- decode_elems d r1 len; nonzero_unwrap (g xs) r2) r
  = nz_spec (dmap f (fun r => do (l, r1) <- decode_vec d r; Ok (g l, r1)) r).
Proof.
  intros Hg0 Hg Hf. unfold dmap, decode_vec. destruct (decode_u64 r) as [[len r1]| | |]; try reflexivity. cbn [bind].
  destruct (N.eqb_spec len 0) as [->|Hn].
  - rewrite elems_zero. cbn [bind nz_spec]. rewrite Hg0, Hf. reflexivity.
  - destruct (decode_elems d r1 len) as [[xs r2]| | |] eqn:E; try reflexivity. cbn [bind nz_spec].
    apply (elems_ne d r1 len xs r2 Hn) in E. apply Hg in E. rewrite Hf. destruct (g xs); [congruence|reflexivity].
Qed.

Lemma set_of_ne' {K} eqb (l : list K) : l <> [] -> set_of eqb l <> [].
Proof.
  destruct l as [|x l]; [congruence|]. intros _. unfold set_of. cbn [fold_left].
  assert (G : forall l (s : list K), s <> [] -> fold_left (fun s k => set_insert eqb k s) l s <> []).
  { clear. induction l as [|y l IH]; intros s Hs; [exact Hs|]. cbn [fold_left]. apply IH.
    unfold set_insert. destruct (existsb (eqb y) s); [exact Hs|]. destruct s; discriminate. }
  apply G. discriminate.
Qed.

Lemma map_of_ne' {K V} eqb (l : list (K * V)) : l <> [] -> map_of eqb l <> [].
Proof.
  destruct l as [|x l]; [congruence|]. intros _. unfold map_of. cbn [fold_left].
  assert (G : forall l (s : list (K * V)), s <> [] ->
    fold_left (fun m kv => map_insert eqb (fst kv) (snd kv) m) l s <> []).
  { clear. induction l as [|y l IH]; intros s Hs; [exact Hs|]. cbn [fold_left]. apply IH.
    destruct s as [|[a b] s]; [congruence|]. cbn [map_insert]. destruct (eqb (fst y) a); discriminate. }
  apply G. discriminate.
Qed.

Lemma nz_decode E root t r : nz_inner t = true ->
  decode E root (TNonZero t) r = nz_spec (decode E root t r).
Proof.
  intros Hin. unfold decode. destruct t; try discriminate Hin; cbn [dec_ty].
  - unfold dmap, decode_non_zero_uint. destruct (decode_u8 r) as [[v r1]| | |]; try reflexivity.
    cbn [bind nz_spec dVN nonzero_val]. destruct v; reflexivity.
  - unfold dmap, decode_non_zero_sint. destruct (decode_i8 r) as [[v r1]| | |]; try reflexivity.
    cbn [bind nz_spec nonzero_val]. destruct (v =? 0)%Z; reflexivity.
  - unfold dmap, decode_non_zero_uint. destruct (decode_uint w r) as [[v r1]| | |]; try reflexivity.
    cbn [bind nz_spec dVN nonzero_val]. destruct v; reflexivity.
  - unfold dmap, decode_non_zero_sint. destruct (decode_sint w r) as [[v r1]| | |]; try reflexivity.
    cbn [bind nz_spec nonzero_val]. destruct (v =? 0)%Z; reflexivity.
  - apply nz_string_spec. reflexivity.
  - apply nz_string_spec. reflexivity.
  - apply nz_bytes_spec. reflexivity.
  - apply nz_bytes_spec. reflexivity.
  - set (d := dec_ty (dec_ext E (S (length r))) false t).
    transitivity (nz_spec (dmap VList (fun r => do (l, r1) <- decode_vec d r; Ok (id l, r1)) r)).
    + apply (nz_elems_spec d id VList r); auto.
    + f_equal. unfold dmap. destruct (decode_vec d r) as [[l r1]| | |]; reflexivity.
  - apply (nz_elems_spec _ (map_of val_eqb) VMap r); [reflexivity|apply map_of_ne'|reflexivity].
  - apply (nz_elems_spec _ (set_of val_eqb) VList r); [reflexivity|apply set_of_ne'|reflexivity].
Qed.

(** * C26: maps and sets *)

(** The last value paired with a key. *)
Fixpoint last_of {K V} (eqb : K -> K -> bool) (k : K) (l : list (K * V)) : option V :=
  match l with
  | [] => None
  | (k', v) :: l' =>
      match last_of eqb k l' with
      | Some w => Some w
      | None => if eqb k k' then Some v else None
      end
  end.

(** The value a map holds for a key. *)
Fixpoint lookup {K V} (eqb : K -> K -> bool) (k : K) (m : list (K * V)) : option V :=
  match m with
  | [] => None
  | (k', v) :: m' => if eqb k k' then Some v else lookup eqb k m'
  end.

Section Assoc.
Context {K V : Type} (eqb : K -> K -> bool).
Hypothesis Heq : forall a b, eqb a b = true <-> a = b.

Lemma eqb_refl' a : eqb a a = true.
Proof. apply Heq. reflexivity. Qed.

Lemma insert_keys k (v : V) m : forall x, In x (map fst (map_insert eqb k v m)) <-> x = k \/ In x (map fst m).
Proof.
  induction m as [|[k' v'] m IH]; intros x; cbn [map_insert map In fst].
  - split; intros [H|H]; auto.
  - destruct (eqb k k') eqn:E; cbn [map In fst].
    + apply Heq in E. subst k'. split; intros H; [|destruct H as [H|H]]; auto.
    + rewrite IH. split; intros [H|[H|H]]; auto.
Qed.

Lemma insert_nodup k (v : V) m : NoDup (map fst m) -> NoDup (map fst (map_insert eqb k v m)).
Proof.
  induction m as [|[k' v'] m IH]; intros H; cbn [map_insert map fst].
  - constructor; [intros []|constructor].
  - cbn [map fst] in H. inversion H as [|? ? Hni Hnd]; subst. destruct (eqb k k') eqn:E; cbn [map fst].
    + exact H.
    + constructor; [|apply IH; exact Hnd]. rewrite insert_keys. intros [X|X]; [|apply Hni; exact X].
      subst k'. rewrite eqb_refl' in E. discriminate.
Qed.

Lemma insert_lookup k (v : V) m x : lookup eqb x (map_insert eqb k v m) = if eqb x k then Some v else lookup eqb x m.
Proof.
  induction m as [|[k' v'] m IH]; cbn [map_insert lookup]; [reflexivity|].
  destruct (eqb k k') eqn:E; cbn [lookup].
  - apply Heq in E. subst k'. destruct (eqb x k); reflexivity.
  - rewrite IH. destruct (eqb x k') eqn:E1, (eqb x k) eqn:E2; try reflexivity.
    apply Heq in E1, E2. subst. rewrite eqb_refl' in E. discriminate.
Qed.

Lemma map_of_spec (l : list (K * V)) :
  NoDup (map fst (map_of eqb l)) /\ (forall k, lookup eqb k (map_of eqb l) = last_of eqb k l).
Proof.
  unfold map_of.
  assert (G : forall (l m : list (K * V)), NoDup (map fst m) ->
    NoDup (map fst (fold_left (fun m kv => map_insert eqb (fst kv) (snd kv) m) l m))
    /\ forall k, lookup eqb k (fold_left (fun m kv => map_insert eqb (fst kv) (snd kv) m) l m)
        = match last_of eqb k l with Some v => Some v | None => lookup eqb k m end).
  { clear l. induction l as [|[k v] l IH]; intros m Hm; cbn [fold_left last_of].
    - split; [exact Hm|reflexivity].
    - cbn [fst snd]. destruct (IH (map_insert eqb k v m) (insert_nodup k v m Hm)) as [H1 H2].
      split; [exact H1|]. intros x. rewrite H2, insert_lookup.
      destruct (last_of eqb x l); [reflexivity|]. destruct (eqb x k); reflexivity. }
  destruct (G l [] (NoDup_nil _)) as [H1 H2]. split; [exact H1|]. intros k. rewrite H2. cbn.
  destruct (last_of eqb k l); reflexivity.
Qed.

Lemma set_of_spec (l : list K) : NoDup (set_of eqb l) /\ (forall k, In k (set_of eqb l) <-> In k l).
Proof.
  unfold set_of.
  assert (G : forall (l s : list K), NoDup s ->
    NoDup (fold_left (fun s k => set_insert eqb k s) l s)
    /\ forall k, In k (fold_left (fun s k => set_insert eqb k s) l s) <-> In k s \/ In k l).
  { clear l. induction l as [|k l IH]; intros s Hs; cbn [fold_left].
    - split; [exact Hs|]. intros k. cbn. tauto.
    - assert (Hi : NoDup (set_insert eqb k s) /\ forall x, In x (set_insert eqb k s) <-> In x s \/ x = k).
      { unfold set_insert. destruct (existsb (eqb k) s) eqn:E.
        - split; [exact Hs|]. intros x. split; [auto|]. intros [H|H]; [exact H|].
          apply existsb_exists in E as (y & Hy & Ey). apply Heq in Ey. subst. exact Hy.
        - split.
          + clear IH. induction s as [|y s IHs]; [repeat constructor; intros []|].
            inversion Hs as [|? ? Hni Hnd]; subst. cbn [existsb] in E. apply orb_false_iff in E as [E1 E2].
            cbn [app]. constructor; [|apply IHs; assumption].
            intros X. apply in_app_or in X as [X|[X|[]]]; [apply Hni; exact X|]. subst y.
            rewrite eqb_refl' in E1. discriminate.
          + intros x. rewrite in_app_iff. cbn. split; intros [H|H]; auto. destruct H; auto. contradiction. }
      destruct Hi as [Hi1 Hi2]. destruct (IH _ Hi1) as [H1 H2]. split; [exact H1|]. intros x. rewrite H2, Hi2.
      cbn [In]. split; intros [[H|H]|H] || intros [H|H]; auto; destruct H; auto. }
  destruct (G l [] (NoDup_nil _)) as [H1 H2]. split; [exact H1|]. intros k. rewrite H2. cbn. tauto.
Qed.
End Assoc.

(** A payload whose elements decode one by one. *)
Lemma vec_payload {T} (d : dec T) (enc : T -> list N) xs rest :
  (forall x, In x xs -> enc x <> []) ->
  (forall x r, In x xs -> d (enc x ++ r) = Ok (x, r)) ->
  lenN (concat (map enc xs)) < 2 ^ 64 ->
  decode_vec d (encode_u64 (lenN (concat (map enc xs))) ++ concat (map enc xs) ++ rest) = Ok (xs, rest).
Proof.
  intros Hne Hd Hl. unfold decode_vec. rewrite decode_u64_encode by exact Hl. cbn [bind].
  apply (decode_elems_encode d enc (length (concat (map enc xs)))); [exact Hne| |apply le_n].
  intros x r Hx _. apply Hd. exact Hx.
Qed.

(** * C27 *)
Lemma advance_concat n (cs : list (list N)) : concat (advance n cs) = skipn n (concat cs).
Proof.
  revert n. induction cs as [|c cs IH]; intros n; cbn [advance concat]; [destruct n; reflexivity|].
  destruct (Nat.ltb_spec n (length c)) as [H|H].
  - cbn [concat]. rewrite skipn_app. replace (n - length c)%nat with 0%nat; [reflexivity|]. symmetry. apply Nat.sub_0_le. apply Nat.lt_le_incl. exact H.
  - rewrite IH, skipn_app, (skipn_all2 c) by exact H. reflexivity.
Qed.

Lemma chunk_prefix cs : exists r, concat cs = chunk cs ++ r.
Proof.
  induction cs as [|c cs [r IH]]; [exists []; reflexivity|]. destruct c as [|b c]; cbn [chunk concat app].
  - exists r. exact IH.
  - exists (concat cs). reflexivity.
Qed.

Lemma chunked_same w cs v n : decode_arr w (chunk cs) = Some (v, n) ->
  decode_uint w (concat cs) = Ok (v, concat (advance (N.to_nat n) cs))
  /\ decode_uint_chunked w cs = Ok (v, advance (N.to_nat n) cs).
Proof.
  intros H. split; [|unfold decode_uint_chunked; rewrite H; reflexivity].
  destruct (chunk_prefix cs) as [r Hr]. unfold decode_uint. rewrite advance_concat.
  rewrite Hr. unfold decode_arr in *. destruct (vdec_stable _ _ _ _ _ r _ _ H) as [-> _]. reflexivity.
Qed.
