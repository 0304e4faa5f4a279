(** Consequences of [Safety]: schema-level instances, and stability of decoders under
    appending bytes (from which rejection of truncated input follows). *)
From Verif Require Import Base Varint VarintSpec VarintProofs Wire WireProofs Codec CodecSpec CodecProofs SchemaSpec Safety.
Local Open Scope N_scope.

(** * Node conditions survive instantiation *)

Lemma forallb_map {A B} (f : A -> B) p l : forallb p (map f l) = forallb (fun x => p (f x)) l.
Proof. induction l as [|x l IH]; [reflexivity|]. cbn. rewrite IH. reflexivity. Qed.

Lemma forallb_imp {A} (p q : A -> bool) l : Forall (fun x => p x = true -> q x = true) l ->
  forallb p l = true -> forallb q l = true.
Proof.
  induction 1 as [|x l Hx Hl IH]; intros H; [reflexivity|]. cbn in *.
  apply andb_true_iff in H as [H1 H2]. rewrite Hx, IH; auto.
Qed.

Lemma all_ty_subst (p q : ty -> bool) args :
  Forall (fun a => all_ty q (TGen a) = true) args ->
  (forall t, p t = true -> match t with TParam i => nth_error args i <> None \/ q (TParam i) = true
                                  | _ => q (subst args t) = true end) ->
  forall t, all_ty p t = true -> all_ty q (subst args t) = true.
Proof.
  intros Ha Hpq t.
  induction t as [t Hl|t IHt|k v IHk IHv|t IHt|t IHt|t IHt|ts IHts|t n IHt|i ts IHts|t IHt] using ty_ind';
    intros H; pose proof (all_ty_node _ _ H) as Hn; pose proof (Hpq _ Hn) as Hq.
  - destruct t; try discriminate Hl; try (cbn [all_ty subst] in *; rewrite Hq; reflexivity).
    cbn [subst]. destruct (nth_error args i) as [a|] eqn:E.
    + rewrite Forall_forall in Ha. apply Ha. eapply nth_error_In. exact E.
    + destruct Hq as [Hq|Hq]; [congruence|]. cbn [all_ty]. rewrite Hq. reflexivity.
  - cbn [all_ty subst] in *. apply andb_true_iff in H as [_ H]. rewrite Hq, IHt by exact H. reflexivity.
  - cbn [all_ty subst] in *. apply andb_true_iff in H as [_ H]. apply andb_true_iff in H as [H1 H2].
    rewrite Hq, IHk, IHv by assumption. reflexivity.
  - cbn [all_ty subst] in *. apply andb_true_iff in H as [_ H]. rewrite Hq, IHt by exact H. reflexivity.
  - cbn [all_ty subst] in *. apply andb_true_iff in H as [_ H]. rewrite Hq, IHt by exact H. reflexivity.
  - cbn [all_ty subst] in *. apply andb_true_iff in H as [_ H]. rewrite Hq, IHt by exact H. reflexivity.
  - cbn [all_ty subst] in *. apply andb_true_iff in H as [_ H]. rewrite Hq, forallb_map.
    apply (forallb_imp _ _ _ IHts H).
  - cbn [all_ty subst] in *. apply andb_true_iff in H as [_ H]. rewrite Hq, IHt by exact H. reflexivity.
  - cbn [all_ty subst] in *. apply andb_true_iff in H as [_ H]. rewrite Hq, forallb_map.
    apply (forallb_imp _ _ _ IHts H).
  - cbn [all_ty subst] in *. apply andb_true_iff in H as [_ H]. rewrite Hq, IHt by exact H. reflexivity.
Qed.

Lemma all_ty_and p q t : all_ty (fun t => p t && q t) t = all_ty p t && all_ty q t.
Proof.
  induction t as [t Hl|t IHt|k v IHk IHv|t IHt|t IHt|t IHt|ts IHts|t n IHt|i ts IHts|t IHt] using ty_ind'.
  1:{ destruct t; try discriminate Hl; cbn [all_ty]; rewrite !andb_true_r; reflexivity. }
  all: cbn [all_ty].
  all: try (rewrite IHt; destruct (p _), (q _), (all_ty p t), (all_ty q t); reflexivity).
  - rewrite IHk, IHv. destruct (p _), (q _), (all_ty p k), (all_ty q k), (all_ty p v), (all_ty q v); reflexivity.
  - assert (G : forallb (all_ty (fun t => p t && q t)) ts = forallb (all_ty p) ts && forallb (all_ty q) ts).
    { induction IHts as [|x l Hx Hl IH]; [reflexivity|]. cbn. rewrite Hx, IH.
      destruct (all_ty p x), (all_ty q x), (forallb (all_ty p) l), (forallb (all_ty q) l); reflexivity. }
    rewrite G. destruct (p _), (q _), (forallb (all_ty p) ts), (forallb (all_ty q) ts); reflexivity.
  - assert (G : forallb (all_ty (fun t => p t && q t)) ts = forallb (all_ty p) ts && forallb (all_ty q) ts).
    { induction IHts as [|x l Hx Hl IH]; [reflexivity|]. cbn. rewrite Hx, IH.
      destruct (all_ty p x), (all_ty q x), (forallb (all_ty p) l), (forallb (all_ty q) l); reflexivity. }
    rewrite G. destruct (p _), (q _), (forallb (all_ty p) ts), (forallb (all_ty q) ts); reflexivity.
Qed.

Lemma all_defs_nth p ar E : all_defs p ar E = true ->
  forall i d, nth_error E i = Some d ->
  exists n, nth_error ar i = Some n /\ forall t, In t (def_types d) -> all_ty (p n) t = true.
Proof.
  revert ar. induction E as [|d E IH]; intros [|n ar] H i d' Hi; cbn in H; try discriminate.
  - destruct i; discriminate.
  - apply andb_true_iff in H as [H1 H2]. destruct i as [|i]; cbn [nth_error] in *.
    + injection Hi as <-. exists n. split; [reflexivity|]. intros t Ht.
      rewrite forallb_forall in H1. apply H1. exact Ht.
    + apply (IH ar H2 i d' Hi).
Qed.

Lemma all_defs_len p ar E : all_defs p ar E = true -> length ar = length E.
Proof.
  revert ar. induction E as [|d E IH]; intros [|n ar] H; cbn in *; try discriminate; [reflexivity|].
  apply andb_true_iff in H as [_ H]. f_equal. apply IH. exact H.
Qed.

Lemma nz_inner_subst args t : nz_inner t = true -> nz_inner (subst args t) = true.
Proof. destruct t; try discriminate; intros _; reflexivity. Qed.

Lemma occupies_subst E args t :
  forallb (occupies E) args = true -> occupies E t = true -> occupies E (subst args t) = true.
Proof.
  intros Ha.
  induction t as [t Hl|t IHt|k v IHk IHv|t IHt|t IHt|t IHt|ts IHts|t n IHt|i ts IHts|t IHt] using ty_ind'; intros H;
    try reflexivity.
  - destruct t; try discriminate Hl; try reflexivity. cbn [subst].
    destruct (nth_error args i) as [a|] eqn:Ea; [|reflexivity]. cbn [occupies].
    rewrite forallb_forall in Ha. apply Ha. eapply nth_error_In. exact Ea.
  - cbn [subst occupies] in *. apply IHt. exact H.
  - cbn [subst occupies] in *. apply existsb_exists in H as (u & Hu & Ho). apply existsb_exists.
    exists (subst args u). split; [apply in_map; exact Hu|]. rewrite Forall_forall in IHts. apply IHts; assumption.
  - cbn [subst occupies] in *. exact H.
  - cbn [subst occupies] in *. apply IHt. exact H.
Qed.

Lemma node_loops_subst E args t :
  forallb (occupies E) args = true -> node_loops E t = true ->
  match t with TParam i => True | _ => node_loops E (subst args t) = true end.
Proof.
  intros Ha H. destruct t; cbn [node_loops subst] in *; try exact I; try reflexivity.
  - apply occupies_subst; assumption.
  - apply orb_true_iff in H as [H|H]; apply orb_true_iff; [left|right]; apply occupies_subst; assumption.
  - apply occupies_subst; assumption.
  - rewrite forallb_map. eapply forallb_imp; [|exact H]. apply Forall_forall. intros x _ Hx.
    apply occupies_subst; assumption.
Qed.

Lemma loop_free_sub E : loop_free E = true ->
  forall i args d, nth_error E i = Some d -> all_ty (node_loops E) (TExt i args) = true ->
  forall t, In t (def_types d) -> all_ty (node_loops E) (subst args t) = true.
Proof.
  intros HE i args d Hi Ha t Ht. cbn [all_ty node_loops] in Ha. apply andb_true_iff in Ha as [Ho Ha].
  eapply (all_ty_subst (node_loops E) (node_loops E)).
  - apply Forall_forall. intros a Hin. cbn [all_ty node_loops andb]. rewrite forallb_forall in Ha. apply Ha. exact Hin.
  - intros u Hu. pose proof (node_loops_subst E args u Ho Hu) as G. destruct u; try exact G. right. reflexivity.
  - unfold loop_free in HE. rewrite forallb_forall in HE. specialize (HE d (nth_error_In _ _ Hi)).
    rewrite forallb_forall in HE. apply HE. exact Ht.
Qed.

(** C15, termination. *)
Lemma decode_terminates E root t r :
  loop_free E = true -> loop_free_type E t = true -> decode E root t r <> Diverge.
Proof.
  intros HE Ht Hd.
  pose proof (decode_ok E true false (node_loops E) (fun _ t H => H)) as G.
  specialize (G ltac:(intros X; discriminate X) (loop_free_sub E HE) root t r Ht).
  rewrite Hd in G. cbn in G. discriminate.
Qed.

(** C16, no panic. *)
Lemma decode_no_panic ar E root t r :
  wf_schema ar E = true -> array_free E = true ->
  wf_type ar t = true -> array_free_type t = true -> decode E root t r <> Panic.
Proof.
  intros HE HA Ht Hta Hd.
  set (p := fun t => node_wf ar 0 t && node_no_array t).
  pose proof (all_defs_len _ _ _ HE) as Hlen.
  pose proof (decode_ok E false true p) as G.
  assert (H1 : false = true -> forall t, p t = true -> node_loops E t = true) by discriminate.
  specialize (G H1).
  assert (H2 : true = true -> forall t, p t = true ->
    match t with
    | TNonZero t' => nz_inner t' = true
    | TArray _ _ | TParam _ => False
    | TExt i _ => nth_error E i <> None
    | _ => True
    end).
  { intros _ u Hu. unfold p in Hu. apply andb_true_iff in Hu as [Hw Hna].
    destruct u; try exact I; cbn in *; try discriminate; [exact Hw|].
    destruct (nth_error ar i) as [k|] eqn:Ei; [|discriminate].
    assert (i < length ar)%nat by (apply nth_error_Some; congruence).
    apply nth_error_Some. lia. }
  specialize (G H2).
  assert (H3 : forall i args d, nth_error E i = Some d -> all_ty p (TExt i args) = true ->
    forall t, In t (def_types d) -> all_ty p (subst args t) = true).
  { intros i args d Hi Ha u Hu.
    destruct (all_defs_nth _ _ _ HE i d Hi) as (n & Hn & Hall).
    cbn [all_ty] in Ha. apply andb_true_iff in Ha as [Hnode Ha].
    unfold p in Hnode. cbn [node_wf node_no_array] in Hnode. rewrite Hn, andb_true_r in Hnode.
    apply Nat.eqb_eq in Hnode.
    eapply (all_ty_subst (fun t => node_wf ar n t && node_no_array t) p).
    - apply Forall_forall. intros a Hin. cbn [all_ty p node_wf node_no_array andb].
      rewrite forallb_forall in Ha. apply Ha. exact Hin.
    - intros w Hw. apply andb_true_iff in Hw as [Hw Hna].
      destruct w; cbn [subst p node_wf node_no_array] in *; unfold p; cbn [node_wf node_no_array];
        try reflexivity; try discriminate.
      + rewrite nz_inner_subst by exact Hw. reflexivity.
      + rewrite map_length, Hw. reflexivity.
      + rewrite map_length, andb_true_r. exact Hw.
      + left. apply nth_error_Some. rewrite Hnode. apply Nat.ltb_lt. exact Hw.
    - rewrite all_ty_and. rewrite (Hall u Hu). unfold array_free in HA. rewrite forallb_forall in HA.
      specialize (HA d (nth_error_In _ _ Hi)). rewrite forallb_forall in HA. rewrite (HA u Hu). reflexivity. }
  specialize (G H3 root t r).
  rewrite Hd in G. cbn in G. cut (true = false); [discriminate|]. apply G.
  unfold p. rewrite all_ty_and. apply andb_true_iff. split; assumption.
Qed.

(** * Stability *)

Definition ext_le {A} (d d' : dec A) : Prop :=
  forall r x r' s, d r = Ok (x, r') -> d' (r ++ s) = Ok (x, r' ++ s).

Lemma ext_le_same {A} (d d' : dec A) r x r' : ext_le d d' -> d r = Ok (x, r') -> d' r = Ok (x, r').
Proof. intros H Hd. specialize (H r x r' [] Hd). rewrite !app_nil_r in H. exact H. Qed.

Lemma le_dmap {A B} (f : A -> B) d d' : ext_le d d' -> ext_le (dmap f d) (dmap f d').
Proof.
  intros H r x r' s Hd. unfold dmap in *. apply bind_ok in Hd as ([a r1] & H1 & H2).
  injection H2 as <- <-. rewrite (H _ _ _ s H1). reflexivity.
Qed.

Lemma ensure_stable {A} r s n (k : res A) : n <= lenN r -> ensure_size (r ++ s) n k = k.
Proof. intros H. unfold ensure_size. rewrite lenN_app. destruct (N.ltb_spec (lenN r + lenN s) n); [lia|reflexivity]. Qed.

Lemma skipn_stable (r s : list N) n : (n <= length r)%nat -> skipn n (r ++ s) = skipn n r ++ s.
Proof. intros H. rewrite skipn_app. replace (n - length r)%nat with 0%nat by lia. reflexivity. Qed.
Lemma firstn_stable (r s : list N) n : (n <= length r)%nat -> firstn n (r ++ s) = firstn n r.
Proof. intros H. rewrite firstn_app. replace (n - length r)%nat with 0%nat by lia. cbn. apply app_nil_r. Qed.

Lemma get_u8_stable : ext_le get_u8 get_u8.
Proof. intros [|b r] x r' s H; [discriminate|]. injection H as <- <-. reflexivity. Qed.

Lemma u8_stable : ext_le decode_u8 decode_u8.
Proof.
  intros r x r' s H. apply ensure_ok in H as [Hl H]. unfold decode_u8. rewrite ensure_stable by exact Hl.
  apply get_u8_stable. exact H.
Qed.
Lemma bool_stable : ext_le decode_bool decode_bool.
Proof.
  intros r x r' s H. apply ensure_ok in H as [Hl H]. unfold decode_bool. rewrite ensure_stable by exact Hl.
  apply bind_ok in H as ([b r1] & H1 & H2). rewrite (get_u8_stable _ _ _ s H1). cbn [bind].
  injection H2 as <- <-. reflexivity.
Qed.
Lemma i8_stable : ext_le decode_i8 decode_i8.
Proof.
  intros r x r' s H. apply ensure_ok in H as [Hl H]. unfold decode_i8. rewrite ensure_stable by exact Hl.
  apply bind_ok in H as ([b r1] & H1 & H2). rewrite (get_u8_stable _ _ _ s H1). cbn [bind].
  injection H2 as <- <-. reflexivity.
Qed.

Lemma vdec_stable w n : forall i acc r s v k, vdec w n i acc r = Some (v, k) ->
  vdec w n i acc (r ++ s) = Some (v, k) /\ k <= i + lenN r.
Proof.
  induction n as [|n IH]; intros i acc r s v k H; [discriminate|]. destruct r as [|b r]; [discriminate|].
  cbn [vdec app] in *. rewrite lenN_cons. destruct (N.land b 128 =? 0).
  - injection H as <- <-. split; [reflexivity|lia].
  - destruct (IH _ _ _ s _ _ H) as [G1 G2]. split; [exact G1|lia].
Qed.

Lemma uint_stable w : ext_le (decode_uint w) (decode_uint w).
Proof.
  intros r x r' s H. unfold decode_uint in *. destruct (decode_arr w r) as [[v n]|] eqn:E; [|discriminate].
  unfold decode_arr in *. destruct (vdec_stable _ _ _ _ _ s _ _ E) as [-> Hk].
  injection H as <- <-. rewrite skipn_stable; [reflexivity|]. unfold lenN in Hk. lia.
Qed.
Lemma sint_stable w : ext_le (decode_sint w) (decode_sint w).
Proof.
  intros r x r' s H. unfold decode_sint, decode_arr_signed, decode_arr in *.
  destruct (vdec w (max_size w) 0 0 r) as [[v n]|] eqn:E; [|discriminate].
  destruct (vdec_stable _ _ _ _ _ s _ _ E) as [-> Hk].
  injection H as <- <-. rewrite skipn_stable; [reflexivity|]. unfold lenN in Hk. lia.
Qed.
Lemma fixed_stable n : ext_le (decode_fixed n) (decode_fixed n).
Proof.
  intros r x r' s H. apply ensure_ok in H as [Hl H]. unfold decode_fixed. rewrite ensure_stable by exact Hl.
  injection H as <- <-. unfold lenN in Hl. rewrite firstn_stable, skipn_stable by lia. reflexivity.
Qed.

Lemma le_after_u64 {A} (k k' : N -> dec A) : (forall n, ext_le (k n) (k' n)) ->
  ext_le (fun r => do (len, r1) <- decode_u64 r; k len r1) (fun r => do (len, r1) <- decode_u64 r; k' len r1).
Proof.
  intros Hk r x r' s H. apply bind_ok in H as ([len r1] & H1 & H).
  change (decode_u64) with (decode_uint W64) in *.
  rewrite (uint_stable W64 _ _ _ s H1). cbn [bind]. apply Hk. exact H.
Qed.

Lemma bytes_stable : ext_le decode_bytes decode_bytes.
Proof.
  apply (le_after_u64 (fun len r1 => ensure_size r1 len (Ok (firstn (N.to_nat len) r1, skipn (N.to_nat len) r1)))
                      (fun len r1 => ensure_size r1 len (Ok (firstn (N.to_nat len) r1, skipn (N.to_nat len) r1)))).
  intros n r x r' s H. apply ensure_ok in H as [Hl H]. rewrite ensure_stable by exact Hl.
  injection H as <- <-. unfold lenN in Hl. rewrite firstn_stable, skipn_stable by lia. reflexivity.
Qed.
Lemma string_stable : ext_le decode_string decode_string.
Proof.
  intros r x r' s H. unfold decode_string in *. apply bind_ok in H as ([b r1] & H1 & H).
  rewrite (bytes_stable _ _ _ s H1). cbn [bind]. destruct (utf8_ok b); [|discriminate].
  injection H as <- <-. reflexivity.
Qed.

Lemma dloop_le {T} (d d' : dec T) : ext_le d d' -> forall n r xs, dloop d n r = Ok xs -> dloop d' n r = Ok xs.
Proof.
  intros Hd. induction n as [|n IH]; intros r xs H; destruct r as [|b r]; try exact H.
  cbn [dloop] in *. apply bind_ok in H as ([x r'] & H1 & H). apply bind_ok in H as (ys & H2 & H).
  rewrite (ext_le_same d d' _ _ _ Hd H1). cbn [bind]. rewrite (IH _ _ H2). exact H.
Qed.

Lemma elems_stable {T} (d d' : dec T) n : ext_le d d' -> ext_le (fun r => decode_elems d r n) (fun r => decode_elems d' r n).
Proof.
  intros Hd r x r' s H. apply decode_elems_rest in H as (Hl & -> & H). unfold decode_elems.
  rewrite ensure_stable by exact Hl. cbv zeta. unfold lenN in Hl.
  rewrite firstn_stable, skipn_stable by lia. rewrite (dloop_le d d' Hd _ _ _ H). reflexivity.
Qed.

Lemma vec_stable {T} (d d' : dec T) : ext_le d d' -> ext_le (decode_vec d) (decode_vec d').
Proof.
  intros Hd. apply (le_after_u64 (fun len r1 => decode_elems d r1 len) (fun len r1 => decode_elems d' r1 len)).
  intros n. apply elems_stable. exact Hd.
Qed.

Lemma dpair_stable {K V} (dk dk' : dec K) (dv dv' : dec V) : ext_le dk dk' -> ext_le dv dv' ->
  ext_le (dpair dk dv) (dpair dk' dv').
Proof.
  intros Hk Hv r x r' s H. unfold dpair in *. apply bind_ok in H as ([k r1] & H1 & H).
  apply bind_ok in H as ([v r2] & H2 & H). injection H as <- <-.
  rewrite (Hk _ _ _ s H1). cbn [bind]. rewrite (Hv _ _ _ s H2). reflexivity.
Qed.

Lemma le_post {A B} (d d' : dec A) (f : A -> B) : ext_le d d' ->
  ext_le (fun r => do (l, r1) <- d r; Ok (f l, r1)) (fun r => do (l, r1) <- d' r; Ok (f l, r1)).
Proof. apply le_dmap. Qed.

Lemma nz_elems_stable {T U} (d d' : dec T) (g : list T -> list U) : ext_le d d' ->
  ext_le (fun r => do (len, r1) <- decode_u64 r;
                   if len =? 0 then Err EZero else
                   do (xs, r2) <- decode_elems d r1 len; nonzero_unwrap (g xs) r2)
         (fun r => do (len, r1) <- decode_u64 r;
                   if len =? 0 then Err EZero else
                   do (xs, r2) <- decode_elems d' r1 len; nonzero_unwrap (g xs) r2).
Proof.
  intros Hd. apply (le_after_u64
    (fun len r1 => if len =? 0 then Err EZero else do (xs, r2) <- decode_elems d r1 len; nonzero_unwrap (g xs) r2)
    (fun len r1 => if len =? 0 then Err EZero else do (xs, r2) <- decode_elems d' r1 len; nonzero_unwrap (g xs) r2)).
  intros n r x r' s H. destruct (n =? 0); [discriminate|]. apply bind_ok in H as ([xs r2] & H1 & H).
  rewrite (elems_stable d d' n Hd _ _ _ s H1). cbn [bind].
  apply nonzero_unwrap_ok in H as (-> & -> & Hne). destruct (g xs); [congruence|]. reflexivity.
Qed.

Lemma nz_bytes_stable : ext_le decode_non_zero_bytes decode_non_zero_bytes.
Proof.
  apply (le_after_u64
    (fun len r1 => if len =? 0 then Err EZero else
       ensure_size r1 len (nonzero_unwrap (firstn (N.to_nat len) r1) (skipn (N.to_nat len) r1)))
    (fun len r1 => if len =? 0 then Err EZero else
       ensure_size r1 len (nonzero_unwrap (firstn (N.to_nat len) r1) (skipn (N.to_nat len) r1)))).
  intros n r x r' s H. destruct (n =? 0); [discriminate|]. apply ensure_ok in H as [Hl H].
  rewrite ensure_stable by exact Hl. unfold lenN in Hl. rewrite firstn_stable, skipn_stable by lia.
  apply nonzero_unwrap_ok in H as (-> & -> & Hne). destruct (firstn (N.to_nat n) r); [congruence|]. reflexivity.
Qed.
Lemma nz_string_stable : ext_le decode_non_zero_string decode_non_zero_string.
Proof.
  intros r x r' s H. unfold decode_non_zero_string in *. apply bind_ok in H as ([b r1] & H1 & H).
  rewrite (nz_bytes_stable _ _ _ s H1). cbn [bind]. destruct (utf8_ok b); [|discriminate].
  apply nonzero_unwrap_ok in H as (-> & -> & Hne). destruct b; [congruence|]. reflexivity.
Qed.
Lemma nz_uint_stable d : ext_le d d -> ext_le (decode_non_zero_uint d) (decode_non_zero_uint d).
Proof.
  intros Hd r x r' s H. unfold decode_non_zero_uint in *. apply bind_ok in H as ([v r1] & H1 & H).
  rewrite (Hd _ _ _ s H1). cbn [bind]. destruct (v =? 0); [discriminate|]. injection H as <- <-. reflexivity.
Qed.
Lemma nz_sint_stable d : ext_le d d -> ext_le (decode_non_zero_sint d) (decode_non_zero_sint d).
Proof.
  intros Hd r x r' s H. unfold decode_non_zero_sint in *. apply bind_ok in H as ([v r1] & H1 & H).
  rewrite (Hd _ _ _ s H1). cbn [bind]. destruct (v =? 0)%Z; [discriminate|]. injection H as <- <-. reflexivity.
Qed.

Lemma option_stable {T} (d d' : dec T) : ext_le d d' -> ext_le (decode_option d) (decode_option d').
Proof.
  intros Hd r x r' s H. unfold decode_option in *. apply bind_ok in H as ([t r1] & H1 & H).
  rewrite (u8_stable _ _ _ s H1). cbn [bind]. destruct (t =? 1).
  - apply bind_ok in H as ([v r2] & H2 & H). rewrite (Hd _ _ _ s H2). cbn [bind]. injection H as <- <-. reflexivity.
  - injection H as <- <-. reflexivity.
Qed.

Lemma darr_le {T} (d d' : dec T) : ext_le d d' -> forall n r xs, darr d n r = Ok xs -> darr d' n r = Ok xs.
Proof.
  intros Hd. induction n as [|n IH]; intros r xs H; [exact H|]. destruct r as [|b r]; [exact H|].
  cbn [darr] in *. apply bind_ok in H as ([x r'] & H1 & H). apply bind_ok in H as (ys & H2 & H).
  rewrite (ext_le_same d d' _ _ _ Hd H1). cbn [bind]. rewrite (IH _ _ H2). exact H.
Qed.

Lemma array_stable {T} n (d d' : dec T) : ext_le d d' -> ext_le (decode_array n d) (decode_array n d').
Proof.
  intros Hd. apply (le_after_u64
    (fun len r1 => ensure_size r1 len (
      let m := N.to_nat len in do xs <- darr d n (firstn m r1);
      if (length xs =? n)%nat then Ok (xs, skipn m r1) else Panic))
    (fun len r1 => ensure_size r1 len (
      let m := N.to_nat len in do xs <- darr d' n (firstn m r1);
      if (length xs =? n)%nat then Ok (xs, skipn m r1) else Panic))).
  intros m r x r' s H. apply ensure_ok in H as [Hl H]. cbv zeta in *.
  rewrite ensure_stable by exact Hl. unfold lenN in Hl. rewrite firstn_stable, skipn_stable by lia.
  apply bind_ok in H as (xs & H1 & H). rewrite (darr_le d d' Hd _ _ _ H1). cbn [bind].
  destruct (length xs =? n)%nat; [|discriminate]. injection H as <- <-. reflexivity.
Qed.

Lemma seq_stable d d' ts : (forall t, In t ts -> ext_le (d t) (d' t)) -> ext_le (decode_seq d ts) (decode_seq d' ts).
Proof.
  induction ts as [|t ts IH]; intros Hd r x r' s H; cbn [decode_seq] in *.
  - injection H as <- <-. reflexivity.
  - apply bind_ok in H as ([v r1] & H1 & H). apply bind_ok in H as ([vs r2] & H2 & H). injection H as <- <-.
    rewrite (Hd t (or_introl eq_refl) _ _ _ s H1). cbn [bind].
    rewrite (IH (fun u Hu => Hd u (or_intror Hu)) _ _ _ s H2). reflexivity.
Qed.

Lemma id_stable : ext_le decode_id decode_id.
Proof.
  intros r x r' s H. unfold decode_id in *. apply bind_ok in H as ([raw r1] & H1 & H).
  change decode_u32 with (decode_uint W32) in *. rewrite (uint_stable W32 _ _ _ s H1). cbn [bind].
  destruct (fid_from_u32 raw); [|discriminate]. injection H as <- <-. reflexivity.
Qed.

Lemma skip_varint_stable r r' s : skip_varint r = Ok r' -> skip_varint (r ++ s) = Ok (r' ++ s).
Proof.
  revert r'. induction r as [|b r IH]; intros r' H; [discriminate|]. cbn [skip_varint app] in *.
  destruct (N.land b 128 =? 0); [injection H as <-; reflexivity|]. apply IH. exact H.
Qed.
Lemma skip_fixed_stable n r r' s : skip_fixed n r = Ok r' -> skip_fixed n (r ++ s) = Ok (r' ++ s).
Proof.
  intros H. apply ensure_ok in H as [Hl H]. unfold skip_fixed. rewrite ensure_stable by exact Hl.
  injection H as <-. unfold lenN in Hl. rewrite skipn_stable by lia. reflexivity.
Qed.
Lemma skip_stable e r r' s : decode_skip e r = Ok r' -> decode_skip e (r ++ s) = Ok (r' ++ s).
Proof.
  destruct e; cbn [decode_skip]; intros H; try (apply skip_fixed_stable; exact H).
  - apply skip_varint_stable. exact H.
  - apply bind_ok in H as ([len r1] & H1 & H). change decode_u64 with (decode_uint W64) in *.
    rewrite (uint_stable W64 _ _ _ s H1). cbn [bind]. apply skip_fixed_stable. exact H.
Qed.

Lemma loop_stable d d' fs : (forall t, ext_le (d t) (d' t)) ->
  forall n m sl r sl' r' s, (n <= m)%nat -> loop_fields d fs n sl r = Ok (sl', r') ->
  loop_fields d' fs m sl (r ++ s) = Ok (sl', r' ++ s).
Proof.
  intros Hd. induction n as [|n IH]; intros m sl r sl' r' s Hm H; [discriminate|].
  destruct m as [|m]; [lia|]. cbn [loop_fields] in *.
  apply bind_ok in H as ([id r1] & H1 & H). rewrite (id_stable _ _ _ s H1). cbn [bind].
  destruct (fid_value id =? END_MARKER); [injection H as <- <-; reflexivity|].
  destruct (find_field (fid_value id) fs 0) as [[k f]|].
  - apply bind_ok in H as ([v r2] & H2 & H). rewrite (Hd _ _ _ _ s H2). cbn [bind]. apply IH; [lia|exact H].
  - apply bind_ok in H as (r2 & H2 & H). rewrite (skip_stable _ _ _ s H2). cbn [bind]. apply IH; [lia|exact H].
Qed.

Lemma body_stable d d' fs : (forall t, ext_le (d t) (d' t)) -> ext_le (decode_body d fs) (decode_body d' fs).
Proof.
  intros Hd r x r' s H. unfold decode_body in *.
  assert (G : forall kind,
    (do (s0, r1) <- loop_fields d (fs_list fs) (S (length r)) (map (fun _ => None) (fs_list fs)) r;
     do vs <- assign kind (fs_list fs) s0; Ok (vs, r1)) = Ok (x, r') ->
    (do (s0, r1) <- loop_fields d' (fs_list fs) (S (length (r ++ s))) (map (fun _ => None) (fs_list fs)) (r ++ s);
     do vs <- assign kind (fs_list fs) s0; Ok (vs, r1)) = Ok (x, r' ++ s)).
  { intros kind G. apply bind_ok in G as ([sl r1] & H1 & G). apply bind_ok in G as (vs & H2 & G).
    injection G as <- <-.
    assert (Hn : (S (length r) <= S (length (r ++ s)))%nat) by (rewrite app_length; lia).
    rewrite (loop_stable d d' (fs_list fs) Hd _ _ _ _ _ _ s Hn H1). cbn [bind]. rewrite H2. reflexivity. }
  destruct (fs_kind fs); try (apply G; exact H).
  injection H as <- <-. reflexivity.
Qed.

Lemma dec_ty_stable ext ext' : (forall i args, ext_le (ext i args) (ext' i args)) ->
  forall t root, ext_le (dec_ty ext root t) (dec_ty ext' root t).
Proof.
  intros Hext.
  pose (P := fun t => forall root, ext_le (dec_ty ext root t) (dec_ty ext' root t)).
  cut (forall t, P t /\ match t with
                       | TVec t' | TSet t' => P t'
                       | TMap k v => P k /\ P v
                       | _ => True
                       end).
  { intros H t. apply (H t). }
  intros t.
  induction t as [t Hl|t IHt|k v IHk IHv|t IHt|t IHt|t IHt|ts IHts|t n IHt|i args IHa|t IHt] using ty_ind'.
  all: (split; [|first [exact I|exact (proj1 IHt)|split; [exact (proj1 IHk)|exact (proj1 IHv)]|destruct t; try discriminate Hl; exact I]]).
  all: intros root.
  - destruct t; try discriminate Hl; cbn [dec_ty];
      try (apply le_dmap;
           first [ apply bool_stable | apply u8_stable | apply i8_stable | apply uint_stable | apply sint_stable
                 | apply fixed_stable | apply string_stable | apply bytes_stable ]).
    intros r x r' s H. discriminate.
  - cbn [dec_ty]. apply le_dmap. apply vec_stable. apply IHt.
  - cbn [dec_ty]. apply le_dmap. unfold decode_hash_map. apply le_post. apply vec_stable.
    apply dpair_stable; [apply IHk|apply IHv].
  - cbn [dec_ty]. apply le_dmap. unfold decode_hash_set. apply le_post. apply vec_stable. apply IHt.
  - cbn [dec_ty]. apply le_dmap. apply option_stable. apply IHt.
  - cbn [dec_ty]. destruct t; try (intros r x r' s H; discriminate); apply le_dmap.
    + apply nz_uint_stable. apply u8_stable.
    + apply nz_sint_stable. apply i8_stable.
    + apply nz_uint_stable. apply uint_stable.
    + apply nz_sint_stable. apply sint_stable.
    + apply nz_string_stable.
    + apply nz_string_stable.
    + apply nz_bytes_stable.
    + apply nz_bytes_stable.
    + apply (nz_elems_stable _ _ (fun l => l)). apply IHt.
    + apply (nz_elems_stable _ _ (map_of val_eqb)). destruct IHt as (_ & I1 & I2).
      apply dpair_stable; [apply I1|apply I2].
    + apply (nz_elems_stable _ _ (set_of val_eqb)). apply IHt.
  - cbn [dec_ty]. intros r x r' s H. apply bind_ok in H as ([y r1] & H1 & H).
    apply bind_ok in H as ([vs r2] & H2 & H). injection H as <- <-.
    assert (H1' : (if root then decode_u64 (r ++ s) else Ok (0, r ++ s)) = Ok (y, r1 ++ s)).
    { destruct root; [apply (uint_stable W64); exact H1|]. injection H1 as <- <-. reflexivity. }
    rewrite H1'. cbn [bind].
    rewrite (seq_stable (dec_ty ext false) (dec_ty ext' false) ts) with (x := vs) (r' := r2); [reflexivity| |exact H2].
    intros u Hu. rewrite Forall_forall in IHts. apply (IHts u Hu).
  - cbn [dec_ty]. apply le_dmap. apply array_stable. apply IHt.
  - cbn [dec_ty]. apply Hext.
  - cbn [dec_ty]. apply IHt.
Qed.

Lemma dec_ext_stable E : forall depth depth' i args, (depth <= depth')%nat ->
  ext_le (dec_ext E depth i args) (dec_ext E depth' i args).
Proof.
  induction depth as [|depth IH]; intros depth' i args Hle r x r' s H; [discriminate|].
  destruct depth' as [|depth']; [lia|]. cbn [dec_ext] in *.
  assert (Hd : forall t, ext_le (dec_ty (dec_ext E depth) true t) (dec_ty (dec_ext E depth') true t)).
  { intros t. apply dec_ty_stable. intros j a. apply IH. lia. }
  destruct (nth_error E i) as [[fs|vars]|]; [| |discriminate].
  - apply (le_dmap VRec _ _ (body_stable _ _ (inst args fs) Hd)). exact H.
  - apply bind_ok in H as ([id r1] & H1 & H). unfold decode_variant_id in *.
    change decode_u32 with (decode_uint W32) in *.
    rewrite (uint_stable W32 _ _ _ s H1). cbn [bind].
    destruct (find_variant id vars 0) as [[k var]|]; [|discriminate].
    apply (le_dmap (VVar k) _ _ (body_stable _ _ (inst args (v_fields var)) Hd)). exact H.
Qed.

Lemma decode_stable E root t : ext_le (decode E root t) (decode E root t).
Proof.
  intros r x r' s H. unfold decode in *.
  eapply (dec_ty_stable (dec_ext E (S (length r)))); [|exact H].
  intros i args. apply dec_ext_stable. rewrite app_length. lia.
Qed.
