(** C89: the order in which a hash map or hash set is iterated does not matter. *)
From Coq Require Import Permutation.
From Verif Require Import Base Varint Wire WireProofs Codec CodecSpec CodecProofs SchemaSpec Safety Demo PropCodec.
Local Open Scope N_scope.

(** * Specification *)
Inductive Forall3 {A B C} (R : A -> B -> C -> Prop) : list A -> list B -> list C -> Prop :=
| Forall3_nil : Forall3 R [] [] []
| Forall3_cons a b c x y z : R a b c -> Forall3 R x y z -> Forall3 R (a :: x) (b :: y) (c :: z).

(** Two values are the same for Rust ([==]) although their hash maps and hash sets may be iterated in another order. A key is
    never a hash map or set and contains none, as these do not implement [Hash]. *)
Inductive same (E : env) : ty -> val -> val -> Prop :=
| same_refl t v : same E t v v
| same_vec t t' l l' : core t = TVec t' -> Forall2 (same E t') l l' -> same E t (VList l) (VList l')
| same_array t t' n l l' : core t = TArray t' n -> Forall2 (same E t') l l' -> same E t (VList l) (VList l')
| same_set t t' l l' : core t = TSet t' -> Permutation l l' -> same E t (VList l) (VList l')
| same_map t tk tv l m l' : core t = TMap tk tv -> Permutation l m -> Forall2 (fun p q => fst p = fst q /\ same E tv (snd p) (snd q)) m l' -> same E t (VMap l) (VMap l')
| same_some t t' x x' : core t = TOption t' -> same E t' x x' -> same E t (VSome x) (VSome x')
| same_tuple t ts l l' : core t = TTuple ts -> Forall3 (same E) ts l l' -> same E t (VList l) (VList l')
| same_struct t i args fs vs vs' : core t = TExt i args -> nth_error E i = Some (DStruct fs) -> Forall3 (same E) (map f_ty (fs_list (inst args fs))) vs vs' -> same E t (VRec vs) (VRec vs')
| same_variant t i args vars k var vs vs' : core t = TExt i args -> nth_error E i = Some (DEnum vars) -> nth_error vars k = Some var ->
    Forall3 (same E) (map f_ty (fs_list (inst args (v_fields var)))) vs vs' -> same E t (VVar k vs) (VVar k vs').

(** A value goes through any number of programs: each encodes what it has, iterating in whatever order, and the next one decodes that. *)
Inductive relayed (E : env) (root : bool) (t : ty) : val -> val -> Prop :=
| relay_none v : relayed E root t v v
| relay_hop u v v' w rest : relayed E root t u v -> same E t v v' -> decode E root t (encode E root t v' ++ rest) = Ok (w, rest) -> relayed E root t u w.

(** * Proofs *)
Lemma sumN_perm l l' : Permutation l l' -> sumN l = sumN l'.
Proof. induction 1; cbn [sumN fold_right] in *; unfold sumN in *; cbn [fold_right]; lia. Qed.
Lemma lenN_concat {A} (ls : list (list A)) : lenN (concat ls) = sumN (map lenN ls).
Proof. induction ls as [|x ls IH]; [reflexivity|]. cbn [concat map]. rewrite lenN_app, IH. reflexivity. Qed.
Lemma existsb_perm {A} (p : A -> bool) l l' : Permutation l l' -> existsb p l = existsb p l'.
Proof. induction 1; cbn [existsb]; [reflexivity|rewrite IHPermutation; reflexivity|destruct (p x), (p y); reflexivity|congruence]. Qed.
Lemma forallb_perm {A} (p : A -> bool) l l' : Permutation l l' -> forallb p l = forallb p l'.
Proof. induction 1; cbn [forallb]; [reflexivity|rewrite IHPermutation; reflexivity|destruct (p x), (p y); reflexivity|congruence]. Qed.
Lemma val_eqb_sym a b : val_eqb a b = val_eqb b a.
Proof. destruct (val_eqb a b) eqn:H. - apply val_eqb_eq in H. subst. symmetry. apply val_eqb_eq. reflexivity. - destruct (val_eqb b a) eqn:H'; [|reflexivity]. apply val_eqb_eq in H'. subst. rewrite (proj2 (val_eqb_eq a a) eq_refl) in H. discriminate. Qed.
Lemma nodupb_perm l l' : Permutation l l' -> nodupb val_eqb l = nodupb val_eqb l'.
Proof.
  induction 1; cbn [nodupb existsb]; [reflexivity|rewrite IHPermutation, (existsb_perm _ _ _ H); reflexivity| |congruence].
  rewrite (val_eqb_sym y x). destruct (val_eqb x y), (existsb (val_eqb x) l), (existsb (val_eqb y) l); reflexivity.
Qed.
Lemma forallb_ext2 {A B} (p : A -> bool) (q : B -> bool) l l' : Forall2 (fun a b => p a = q b) l l' -> forallb p l = forallb q l'.
Proof. induction 1; cbn [forallb]; congruence. Qed.
Lemma map_ext2 {A B C} (f : A -> C) (g : B -> C) l l' : Forall2 (fun a b => f a = g b) l l' -> map f l = map g l'.
Proof. induction 1; cbn [map]; congruence. Qed.
Lemma nonempty_len {A} (l l' : list A) : lenN l = lenN l' -> nonempty l = nonempty l'.
Proof. unfold lenN. destruct l, l'; cbn; intros; try reflexivity; lia. Qed.
Lemma len_bytes (l l' : list N) : lenN l = lenN l' -> length l = length l'.
Proof. unfold lenN. lia. Qed.
Lemma len_len {A B} (l : list A) (l' : list B) : length l = length l' -> lenN l = lenN l'.
Proof. unfold lenN. congruence. Qed.
Lemma head_ok_same (t : ty) v v' : nonzero_val v = nonzero_val v' -> head_ok t v = head_ok t v'.
Proof. intros H. induction t; cbn [head_ok]; try reflexivity; [rewrite H; reflexivity|assumption]. Qed.

Section WithEnv.
Variable E : env.
Notation same := (same E).
Definition agree (t : ty) (v v' : val) : Prop :=
  size E t v = size E t v' /\ (forall root, lenN (encode E root t v) = lenN (encode E root t v')) /\ prefix_ok E t v = prefix_ok E t v' /\ typed E t v = typed E t v'.
Definition AG (v : val) : Prop := forall t v', same t v v' -> agree t v v'.
Definition AG2 (v : val) : Prop := AG v /\ forall x, v = VSome x -> AG x.

Lemma agree_refl t v : agree t v v. Proof. repeat split. Qed.
Lemma same_eq_agree t v : AG2 v -> forall v', same t v v' -> agree t v v'.
Proof. intros [H _] v'. apply H. Qed.

(** Lists of elements of the same type that agree pointwise. *)
Lemma elems_agree t l l' : Forall2 (agree t) l l' ->
  sumN (map (size E t) l) = sumN (map (size E t) l') /\ lenN l = lenN l' /\ lenN (concat (map (encode E false t) l)) = lenN (concat (map (encode E false t) l'))
  /\ forallb (prefix_ok E t) l = forallb (prefix_ok E t) l' /\ forallb (fun x => nonempty (encode E false t x)) l = forallb (fun x => nonempty (encode E false t x)) l'
  /\ forallb (typed E t) l = forallb (typed E t) l' /\ length l = length l'.
Proof.
  induction 1 as [|a b l l' (H1 & H2 & H3 & H4) _ (I1 & I2 & I3 & I4 & I5 & I6 & I7)]; [repeat split|]. specialize (H2 false).
  repeat split.
  - cbn [map]. unfold sumN in *. cbn [fold_right]. lia.
  - unfold lenN in *. cbn [length]. lia.
  - cbn [map concat]. rewrite !lenN_app. lia.
  - cbn [forallb]. congruence.
  - cbn [forallb]. rewrite I5, (nonempty_len _ _ H2). reflexivity.
  - cbn [forallb]. congruence.
  - cbn [length]. congruence.
Qed.
Lemma vec_len t l l' : sumN (map (size E t) l) = sumN (map (size E t) l') -> lenN (concat (map (encode E false t) l)) = lenN (concat (map (encode E false t) l')) ->
  lenN (encode_vec (size E t) (encode E false t) l) = lenN (encode_vec (size E t) (encode E false t) l').
Proof. intros H1 H2. unfold encode_vec. rewrite !lenN_app, H1, H2. reflexivity. Qed.

Lemma seq_agree ts l l' : Forall3 same ts l l' -> Forall AG2 l ->
  size_seq (size E) ts l = size_seq (size E) ts l' /\ lenN (encode_seq (encode E) ts l) = lenN (encode_seq (encode E) ts l')
  /\ all2 (prefix_ok E) ts l = all2 (prefix_ok E) ts l' /\ all2 (typed E) ts l = all2 (typed E) ts l'.
Proof.
  induction 1 as [|t v v' ts l l' Hv Hl IH]; intros HA; [repeat split|]. inversion HA as [|? ? [Ha _] HA']; subst.
  destruct (Ha _ _ Hv) as (H1 & H2 & H3 & H4). destruct (IH HA') as (I1 & I2 & I3 & I4). cbn [size_seq encode_seq all2]. rewrite !lenN_app, H1, (H2 false), H3, H4, I1, I2, I3, I4. repeat split.
Qed.
Lemma fields_agree fs l l' : Forall3 same (map f_ty fs) l l' -> Forall AG2 l ->
  size_fields (size E) fs l = size_fields (size E) fs l' /\ lenN (encode_fields (encode E) fs l) = lenN (encode_fields (encode E) fs l').
Proof.
  revert l l'. induction fs as [|f fs IH]; intros l l' H HA; inversion H as [|t v v' ts m m' Hv Hl]; subst; [repeat split|]. inversion HA as [|? ? [Ha Ho] HA']; subst.
  destruct (IH _ _ Hl HA') as (I1 & I2). cbn [size_fields encode_fields]. rewrite !lenN_app, I1, I2. destruct (Ha _ _ Hv) as (H1 & H2 & _ & _).
  destruct (f_ty f) eqn:Ef; try (unfold size_field, encode_field; rewrite !lenN_app, H1, (H2 true); split; reflexivity).
  inversion Hv; subst; try discriminate; [split; reflexivity|].
  match goal with H : core (TOption _) = TOption _ |- _ => cbn [core] in H; injection H as <- end.
  match goal with H : same _ ?x ?x' |- _ => destruct (Ho x eq_refl _ _ H) as (J1 & J2 & _ & _) end.
  cbn [size_field_option encode_field_option]. rewrite !lenN_app, J1, (J2 true). split; reflexivity.
Qed.
Lemma body_agree fs l l' : Forall3 same (map f_ty (fs_list fs)) l l' -> Forall AG2 l ->
  size_body (size E) fs l = size_body (size E) fs l' /\ lenN (encode_body (encode E) fs l) = lenN (encode_body (encode E) fs l').
Proof.
  intros H HA. destruct (fields_agree _ _ _ H HA) as (I1 & I2). unfold size_body, encode_body. destruct (fs_kind fs); rewrite ?lenN_app, ?I1, ?I2; split; reflexivity.
Qed.
Lemma f2_agree t l l' : Forall AG2 l -> Forall2 (same t) l l' -> Forall2 (agree t) l l'.
Proof. intros HA H. induction H as [|a b l l' H _ IH]; [constructor|]. inversion HA as [|? ? [Ha _] HA']; subst. constructor; [exact (Ha _ _ H)|exact (IH HA')]. Qed.
Lemma nz_len (l l' : list val) : length l = length l' -> nonzero_val (VList l) = nonzero_val (VList l').
Proof. destruct l, l'; cbn; congruence. Qed.

Lemma AG_all v : AG2 v.
Proof.
  induction v using val_ind'; (split; [|try discriminate]); try (intros x X; injection X as <-; exact (proj1 IHv));
    intros t v' Hs; inversion Hs; subst; try apply agree_refl.
  - (* vec *)
    match goal with H : core t = _ |- _ => rename H into Hc end. pose proof (f2_agree _ _ _ H H3) as HF.
    clear H3 H. destruct (elems_agree _ _ _ HF) as (H1 & H2 & H3 & H4 & H5 & H6 & H7). unfold agree. cbn [size encode prefix_ok typed]. rewrite Hc, (head_ok_same t _ _ (nz_len _ _ H7)), H1, H4, H5, H6, H3. unfold size_vec. rewrite H1, H2.
    repeat split. intros _. apply vec_len; assumption.
  - (* array *)
    match goal with H : core t = _ |- _ => rename H into Hc end. pose proof (f2_agree _ _ _ H H3) as HF.
    clear H3 H. destruct (elems_agree _ _ _ HF) as (H1 & H2 & H3 & H4 & H5 & H6 & H7). unfold agree. cbn [size encode prefix_ok typed]. rewrite Hc, (head_ok_same t _ _ (nz_len _ _ H7)), H1, H4, H5, H6, H3, H7. unfold size_vec. rewrite H1, H2.
    repeat split. intros _. apply vec_len; assumption.
  - (* set *)
    match goal with H : core t = _ |- _ => rename H into Hc end. match goal with H : Permutation l _ |- _ => rename H into HP end.
    pose proof (Permutation_length HP) as HL. pose proof (sumN_perm _ _ (Permutation_map (size E t') HP)) as H1.
    assert (H3 : lenN (concat (map (encode E false t') l)) = lenN (concat (map (encode E false t') l'))) by (rewrite !lenN_concat; apply sumN_perm, Permutation_map, Permutation_map, HP).
    unfold agree. cbn [size encode prefix_ok typed]. rewrite Hc, (head_ok_same t _ _ (nz_len _ _ HL)), H1, H3, !(forallb_perm _ _ _ HP), (nodupb_perm _ _ HP). unfold size_vec. rewrite H1. rewrite (len_len _ _ HL).
    repeat split. intros _. apply vec_len; assumption.
  - (* tuple *)
    match goal with H : core t = _ |- _ => rename H into Hc end. match goal with H : Forall3 _ _ _ _ |- _ => rename H into H3 end. destruct (seq_agree _ _ _ H3 H) as (I1 & I2 & I3 & I4).
    assert (HL : length l = length l') by (clear -H3; induction H3; cbn; congruence).
    unfold agree. cbn [size encode prefix_ok typed]. rewrite Hc, (head_ok_same t _ _ (nz_len _ _ HL)), I1, I3, I4. repeat split. intros root. destruct (root && is_tuple t)%bool; [|exact I2]. unfold encode_tuple. rewrite !lenN_app, I2. reflexivity.
  - (* map *)
    match goal with H : core t = _ |- _ => rename H into Hc end. match goal with H : Permutation l _ |- _ => rename H into HP end. match goal with H : Forall2 _ m _ |- _ => rename H into HF end.
    assert (HM : Forall (fun kv => AG2 (fst kv) /\ AG2 (snd kv)) m) by (eapply Permutation_Forall; [exact HP|assumption]).
    assert (HA : Forall2 (fun p q => fst p = fst q /\ agree tv (snd p) (snd q)) m l').
    { clear -HF HM. induction HF as [|p q m l' [H1 H2] _ IH]; [constructor|]. inversion HM as [|? ? [_ [Ha _]] HM']; subst. constructor; [split; [exact H1|exact (Ha _ _ H2)]|exact (IH HM')]. }
    assert (HL : length l = length l') by (rewrite (Permutation_length HP); clear -HF; induction HF; cbn; congruence).
    assert (Hnz : nonzero_val (VMap l) = nonzero_val (VMap l')) by (clear -HL; destruct l, l'; cbn in *; congruence).
    set (sz := fun kv : val * val => size E tk (fst kv) + size E tv (snd kv)). set (en := fun kv : val * val => encode E false tk (fst kv) ++ encode E false tv (snd kv)).
    assert (H1 : sumN (map sz l) = sumN (map sz l')).
    { rewrite (sumN_perm _ _ (Permutation_map sz HP)). f_equal. apply map_ext2. clear -HA. induction HA as [|p q m l' [H1 (H2 & _)] _ IH]; constructor; [unfold sz; rewrite H1, H2; reflexivity|exact IH]. }
    assert (H3 : lenN (concat (map en l)) = lenN (concat (map en l'))).
    { rewrite !lenN_concat, !map_map, (sumN_perm _ _ (Permutation_map (fun x => lenN (en x)) HP)). f_equal. apply map_ext2. clear -HA. induction HA as [|p q m l' [H1 (_ & H2 & _)] _ IH]; constructor; [unfold en; rewrite !lenN_app, H1, (H2 false); reflexivity|exact IH]. }
    assert (H4 : forallb (fun kv => prefix_ok E tk (fst kv) && prefix_ok E tv (snd kv))%bool l = forallb (fun kv => prefix_ok E tk (fst kv) && prefix_ok E tv (snd kv))%bool l').
    { rewrite (forallb_perm _ _ _ HP). apply forallb_ext2. clear -HA. induction HA as [|p q m l' [H1 (_ & _ & H2 & _)] _ IH]; constructor; [rewrite H1, H2; reflexivity|exact IH]. }
    assert (H5 : forallb (fun kv => nonempty (en kv)) l = forallb (fun kv => nonempty (en kv)) l').
    { rewrite (forallb_perm _ _ _ HP). apply forallb_ext2. clear -HA. induction HA as [|p q m l' [H1 (_ & H2 & _)] _ IH]; constructor; [apply nonempty_len; unfold en; rewrite !lenN_app, H1, (H2 false); reflexivity|exact IH]. }
    assert (H6 : forallb (fun kv => typed E tk (fst kv) && typed E tv (snd kv))%bool l = forallb (fun kv => typed E tk (fst kv) && typed E tv (snd kv))%bool l').
    { rewrite (forallb_perm _ _ _ HP). apply forallb_ext2. clear -HA. induction HA as [|p q m l' [H1 (_ & _ & _ & H2)] _ IH]; constructor; [rewrite H1, H2; reflexivity|exact IH]. }
    assert (H7 : nodupb val_eqb (map fst l) = nodupb val_eqb (map fst l')).
    { rewrite (nodupb_perm _ _ (Permutation_map fst HP)). f_equal. apply map_ext2. clear -HA. induction HA as [|p q m l' [H1 _] _ IH]; constructor; assumption. }
    unfold agree. cbn [size encode prefix_ok typed]. rewrite Hc, (head_ok_same t _ _ Hnz). unfold size_hash_map, encode_hash_map. subst sz en. cbv beta in *. rewrite H4, H5, H6, H7, H1, H3. rewrite (len_len _ _ HL).
    repeat split. intros _. rewrite !lenN_app, H3. reflexivity.
  - (* some *)
    match goal with H : core t = _ |- _ => rename H into Hc end. match goal with H : same _ _ _ |- _ => destruct (proj1 IHv _ _ H) as (K1 & K2 & K3 & K4) end.
    unfold agree. cbn [size encode prefix_ok typed]. rewrite Hc, (head_ok_same t (VSome v) (VSome x') eq_refl), K3, K4. unfold size_option, encode_option. rewrite K1. repeat split. intros _. rewrite !lenN_cons, (K2 false). reflexivity.
  - (* struct *)
    match goal with H : core t = _ |- _ => rename H into Hc end. match goal with H : Forall3 _ _ _ _ |- _ => rename H into H3 end. match goal with H : nth_error E _ = _ |- _ => rename H into Hi end.
    destruct (seq_agree _ _ _ H3 H) as (_ & _ & I3 & I4). destruct (body_agree (inst args fs) _ _ H3 H) as (J1 & J2).
    unfold agree. cbn [size encode prefix_ok typed]. rewrite Hc, Hi, (head_ok_same t (VRec vs) (VRec vs') eq_refl), I3, I4, J1. repeat split. intros _. exact J2.
  - (* variant *)
    match goal with H : core t = _ |- _ => rename H into Hc end. match goal with H : Forall3 _ _ _ _ |- _ => rename H into HH3 end. match goal with H : nth_error E _ = _ |- _ => rename H into Hi end. match goal with H : nth_error vars _ = _ |- _ => rename H into Hk end.
    destruct (seq_agree _ _ _ HH3 H) as (_ & _ & I3 & I4). destruct (body_agree (inst args (v_fields var)) _ _ HH3 H) as (J1 & J2).
    unfold agree. cbn [size encode prefix_ok typed]. rewrite Hc, Hi, Hk, (head_ok_same t (VVar i vs) (VVar i vs') eq_refl), I3, I4, J1. repeat split. intros _. rewrite !lenN_app, J2. reflexivity.
Qed.
End WithEnv.

(** ** The relation is an equivalence *)
Lemma forall2_perm {A} (R : A -> A -> Prop) l l' m' : Forall2 R l l' -> Permutation l' m' -> exists m, Permutation l m /\ Forall2 R m m'.
Proof.
  intros H P. revert l H. induction P as [|x l' m' P IH|x y l'|a b c _ IH1 _ IH2]; intros l H.
  - inversion H; subst. exists []. split; constructor.
  - inversion H as [|z ? k ? Hz Hk]; subst. destruct (IH k Hk) as (m & P' & F). exists (z :: m). split; [constructor; exact P'|constructor; assumption].
  - inversion H as [|z ? k ? Hz Hk]; subst. inversion Hk as [|z' ? k' ? Hz' Hk']; subst. exists (z' :: z :: k'). split; [apply perm_swap|repeat constructor; assumption].
  - destruct (IH1 l H) as (m & P1 & F1). destruct (IH2 m F1) as (m2 & P2 & F2). exists m2. split; [exact (Permutation_trans P1 P2)|exact F2].
Qed.
Section Equiv.
Variable E : env.
Notation same := (same E).
Lemma f2_trans_in {A} (R : A -> A -> Prop) l l' l'' : Forall (fun a => forall b c, R a b -> R b c -> R a c) l -> Forall2 R l l' -> Forall2 R l' l'' -> Forall2 R l l''.
Proof. intros HA H. revert l''. induction H as [|a b l l' Hab Hl IH]; intros l'' H'; inversion H'; subst; [constructor|]. inversion HA; subst. constructor; [eauto|auto]. Qed.
Lemma f3_trans_in (ts : list ty) l l' l'' : Forall (fun a => forall t b c, same t a b -> same t b c -> same t a c) l -> Forall3 same ts l l' -> Forall3 same ts l' l'' -> Forall3 same ts l l''.
Proof. intros HA H. revert l''. induction H as [|t a b ts l l' Hab Hl IH]; intros l'' H'; inversion H'; subst; [constructor|]. inversion HA; subst. constructor; [eauto|auto]. Qed.
Lemma same_trans u : forall t v w, same t u v -> same t v w -> same t u w.
Proof.
  induction u using val_ind'; intros t v w H1 H2; inversion H1; subst; try exact H2; inversion H2; subst; try exact H1;
    repeat match goal with A : core t = ?x, B : core t = ?y |- _ => rewrite A in B; first [discriminate B|injection B; intros; subst; clear B] end;
    repeat match goal with A : nth_error ?l ?i = Some ?x, B : nth_error ?l ?i = Some ?y |- _ => rewrite A in B; first [discriminate B|injection B; intros; subst; clear B] end.
  - eapply same_vec; [eassumption|]. eapply f2_trans_in; [|eassumption|eassumption]. eapply Forall_impl; [|exact H]. cbn. eauto.
  - eapply same_array; [eassumption|]. eapply f2_trans_in; [|eassumption|eassumption]. eapply Forall_impl; [|exact H]. cbn. eauto.
  - eapply same_set; [eassumption|]. eapply Permutation_trans; eassumption.
  - eapply same_tuple; [eassumption|]. eapply f3_trans_in; [|eassumption|eassumption]. exact H.
  - match goal with P1 : Permutation l ?m1, F1 : Forall2 _ ?m1 ?l1, P2 : Permutation ?l1 ?m2 |- _ => destruct (forall2_perm _ _ _ _ F1 P2) as (m3 & P3 & F3); pose proof (Permutation_trans P1 P3) as P4 end.
    eapply same_map; [eassumption|exact P4|]. assert (HM := Permutation_Forall P4 H). clear -HM F3 H9.
    eapply f2_trans_in; [|exact F3|exact H9]. eapply Forall_impl; [|exact HM]. cbn. intros p [_ Hp] q r [A1 A2] [B1 B2]. split; [congruence|eauto].
  - eapply same_some; [eassumption|]. eauto.
  - eapply same_struct; [eassumption|eassumption|]. eapply f3_trans_in; [|eassumption|eassumption]. exact H.
  - eapply same_variant; [eassumption|eassumption|eassumption|]. eapply f3_trans_in; [|eassumption|eassumption]. exact H.
Qed.
Lemma same_sym u : forall t v, same t u v -> same t v u.
Proof.
  assert (F2s : forall t l l', Forall (fun a => forall t v, same t a v -> same t v a) l -> Forall2 (same t) l l' -> Forall2 (same t) l' l).
  { intros t l l' HA H. induction H; inversion HA; subst; constructor; auto. }
  assert (F3s : forall ts l l', Forall (fun a => forall t v, same t a v -> same t v a) l -> Forall3 same ts l l' -> Forall3 same ts l' l).
  { intros t l l' HA H. induction H; inversion HA; subst; constructor; auto. }
  induction u using val_ind'; intros t v H1; inversion H1; subst; try exact H1.
  - eapply same_vec; eauto.
  - eapply same_array; eauto.
  - eapply same_set; [eassumption|]. apply Permutation_sym. assumption.
  - eapply same_tuple; eauto.
  - match goal with P1 : Permutation l ?m1, F1 : Forall2 _ ?m1 l' |- _ => rename P1 into P; rename F1 into F end. assert (HM := Permutation_Forall P H).
    assert (G : Forall2 (fun p q => fst p = fst q /\ same tv (snd p) (snd q)) l' m) by (clear -F HM; induction F as [|p q a b [A B] _ IH]; inversion HM as [|? ? [_ Hp] HM']; subst; constructor; auto).
    destruct (forall2_perm _ _ _ _ G (Permutation_sym P)) as (m' & P' & F'). eapply same_map; eassumption.
  - eapply same_some; eauto.
  - eapply same_struct; eauto.
  - eapply same_variant; eauto.
Qed.
End Equiv.

(** * Theorems *)
Theorem C89_equivalence : forall (E : env) (t : ty),
  (forall v, same E t v v) /\ (forall u v, same E t u v -> same E t v u) /\ (forall u v w, same E t u v -> same E t v w -> same E t u w).
Proof. intros E t. split; [intros v; constructor|]. split; [intros u v; apply same_sym|intros u v w; apply same_trans]. Qed.
Print Assumptions C89_equivalence.

(** Equal values take the same number of bytes, and announce the same size. *)
Theorem C89_lengths : forall (E : env) (root : bool) (t : ty) (v v' : val), same E t v v' ->
  size E t v = size E t v' /\ lenN (encode E root t v) = lenN (encode E root t v').
Proof. intros E root t v v' H. destruct (proj1 (AG_all E v) t v' H) as (H1 & H2 & _). auto. Qed.
Print Assumptions C89_lengths.

(** A value equal to one of the type is one of the type. *)
Theorem C89_typed : forall (E : env) (t : ty) (v v' : val), same E t v v' -> typed E t v = typed E t v'.
Proof. intros E t v v' H. apply (proj1 (AG_all E v) t v' H). Qed.
Print Assumptions C89_typed.

(** However often a value is handed on, and however each program iterates: every program can decode what it is sent, and has a value equal to the first one. *)
Theorem C89_relayed_partial : forall (E : env) (root : bool) (t : ty) (u w : val),
  env_ok E = true -> typed E t u = true -> prefix_ok E t u = true -> lenN (encode E root t u) < 2 ^ 64 -> relayed E root t u w ->
  same E t u w /\ forall w' rest, same E t w w' -> exists x, decode E root t (encode E root t w' ++ rest) = Ok (x, rest) /\ same E t u x.
Proof.
  intros E root t u w HE Ht Hp Hl H.
  assert (D : forall v' rest, same E t u v' -> decode E root t (encode E root t v' ++ rest) = Ok (v', rest)).
  { intros v' rest Hs. destruct (proj1 (AG_all E u) t v' Hs) as (_ & A2 & A3 & A4). apply C14_roundtrip_partial; [exact HE|congruence|congruence|]. rewrite <- A2. exact Hl. }
  assert (S : same E t u w).
  { induction H as [v|u v v' w rest Hr IH Hs Hd]; [constructor|]. pose proof (same_trans E u t v v' (IH Ht Hp Hl D) Hs) as Huv. rewrite (D _ _ Huv) in Hd. assert (w = v') as -> by congruence. exact Huv. }
  split; [exact S|]. intros w' rest Hw. pose proof (same_trans E u t w w' S Hw) as Huw. exists w'. split; [exact (D _ _ Huw)|exact Huw].
Qed.
Print Assumptions C89_relayed_partial.

(** ** Types without hash maps and hash sets *)
Fixpoint hash_free (D : list nat) (t : ty) : bool :=
  match t with
  | TMap _ _ | TSet _ => false
  | TVec t | TOption t | TNonZero t | TArray t _ | TGen t => hash_free D t
  | TTuple ts => forallb (hash_free D) ts
  | TExt i args => existsb (Nat.eqb i) D && forallb (hash_free D) args
  | _ => true
  end.
Definition hash_free_fields (D : list nat) (fs : fields) : bool := forallb (fun f => hash_free D (f_ty f)) (fs_list fs).
(** The definitions of [D] use none, and refer to definitions of [D] only. *)
Definition hash_free_defs (E : env) (D : list nat) : bool :=
  forallb (fun i => match nth_error E i with
                    | Some (DStruct fs) => hash_free_fields D fs
                    | Some (DEnum vars) => forallb (fun v => hash_free_fields D (v_fields v)) vars
                    | None => true end) D.
Section HashFree.
Variables (E : env) (D : list nat).
Hypothesis HD : hash_free_defs E D = true.
Lemma hash_free_subst args t : forallb (hash_free D) args = true -> hash_free D t = true -> hash_free D (subst args t) = true.
Proof.
  intros Ha. assert (G : forall ts, Forall (fun t => hash_free D t = true -> hash_free D (subst args t) = true) ts -> forallb (hash_free D) ts = true -> forallb (hash_free D) (map (subst args) ts) = true).
  { intros ts IH. induction IH as [|x l Hx _ IHl]; [reflexivity|]. cbn [forallb map]. rewrite !andb_true_iff. intros [A B]. split; auto. }
  induction t using ty_ind'; cbn [subst hash_free]; auto; try discriminate.
  - destruct t; try discriminate; intros Hf; try exact Hf. cbn [subst]. destruct (nth_error args i) as [a|] eqn:Ei; [|reflexivity]. cbn [hash_free]. rewrite forallb_forall in Ha. apply Ha. exact (nth_error_In _ _ Ei).
  - rewrite !andb_true_iff. intros [A B]. split; [exact A|exact (G _ H B)].
Qed.
Lemma hash_free_core t : hash_free D t = true -> hash_free D (core t) = true.
Proof. induction t; cbn [core]; auto. Qed.
Lemma hash_free_inst args fs : forallb (hash_free D) args = true -> hash_free_fields D fs = true -> forallb (hash_free D) (map f_ty (fs_list (inst args fs))) = true.
Proof.
  intros Ha H. unfold hash_free_fields in H. unfold inst. cbn [fs_list]. rewrite forallb_forall in *. intros x Hx. apply in_map_iff in Hx as (f & <- & Hf). apply in_map_iff in Hf as (g & <- & Hg). cbn [subst_field f_ty]. apply hash_free_subst; [rewrite forallb_forall; exact Ha|exact (H g Hg)].
Qed.
Lemma f3_eq ts l l' : Forall (fun v => forall t v', hash_free D t = true -> same E t v v' -> v = v') l -> forallb (hash_free D) ts = true -> Forall3 (same E) ts l l' -> l = l'.
Proof. intros HA Hts H. induction H; [reflexivity|]. inversion HA; subst. cbn [forallb] in Hts. apply andb_true_iff in Hts as [A B]. f_equal; [|auto]. match goal with F : forall t v', _ |- _ => eapply F; eassumption end. Qed.
Lemma f2_eq t l l' : Forall (fun v => forall t v', hash_free D t = true -> same E t v v' -> v = v') l -> hash_free D t = true -> Forall2 (same E t) l l' -> l = l'.
Proof. intros HA Hts H. induction H; [reflexivity|]. inversion HA; subst. f_equal; [|auto]. match goal with F : forall t v', _ |- _ => eapply F; eassumption end. Qed.
Lemma hash_free_same u : forall t v, hash_free D t = true -> same E t u v -> u = v.
Proof.
  induction u using val_ind'; intros t v Hf Hs; apply hash_free_core in Hf; inversion Hs; subst; try reflexivity;
    match goal with Hc : core t = _ |- _ => rewrite Hc in Hf end; cbn [hash_free] in Hf; try discriminate Hf.
  - f_equal. eapply f2_eq; eassumption.
  - f_equal. eapply f2_eq; eassumption.
  - f_equal. eapply f3_eq; eassumption.
  - f_equal. eapply IHu; eassumption.
  - f_equal. apply andb_true_iff in Hf as [Hi Ha]. eapply f3_eq; [exact H| |eassumption]. apply hash_free_inst; [exact Ha|]. unfold hash_free_defs in HD. rewrite forallb_forall in HD. apply existsb_exists in Hi as (j & Hj & Ej). apply Nat.eqb_eq in Ej. subst j. specialize (HD _ Hj). rewrite H2 in HD. exact HD.
  - f_equal. apply andb_true_iff in Hf as [Hi Ha]. eapply f3_eq; [exact H| |eassumption]. apply hash_free_inst; [exact Ha|]. unfold hash_free_defs in HD. rewrite forallb_forall in HD. apply existsb_exists in Hi as (j & Hj & Ej). apply Nat.eqb_eq in Ej. subst j. specialize (HD _ Hj). rewrite H3 in HD. rewrite forallb_forall in HD. apply HD. eapply nth_error_In. eassumption.
Qed.
End HashFree.

(** Without hash maps and sets, equal values are written as the same bytes. *)
Theorem C89_bytes_partial : forall (E : env) (D : list nat) (root : bool) (t : ty) (v v' : val),
  hash_free_defs E D = true -> hash_free D t = true -> same E t v v' -> encode E root t v = encode E root t v'.
Proof. intros E D root t v v' HD Ht H. rewrite (hash_free_same E D HD v t v' Ht H). reflexivity. Qed.
Print Assumptions C89_bytes_partial.

(** With them they are not, so that payloads cannot be compared, hashed or signed in place of the values. *)
Theorem C89_bytes_refuted : exists (E : env) (t : ty) (v v' : val),
  env_ok E = true /\ typed E t v = true /\ same E t v v' /\ encode E true t v <> encode E true t v'.
Proof.
  exists [DStruct (Fields KNamed [Field [97] 1 (TSet TString)])], (TExt 0 []), (VRec [VList [VBytes [65]; VBytes [66]]]), (VRec [VList [VBytes [66]; VBytes [65]]]).
  split; [reflexivity|]. split; [reflexivity|]. split; [|vm_compute; discriminate]. eapply same_struct; [reflexivity|reflexivity|]. cbn. constructor; [|constructor]. eapply same_set; [reflexivity|apply perm_swap].
Qed.
Print Assumptions C89_bytes_refuted.

(** A struct with a map from numbers to optional sets, iterated in two ways. *)
Definition hash_demo : env := [DStruct (Fields KNamed [Field [97] 1 (TMap (TUInt W16) (TOption (TSet TString)))])].
Example C89_ex :
  let v := VRec [VMap [(VInt 1, VSome (VList [VBytes [65]; VBytes [66]])); (VInt 300, VNone)]] in
  let v' := VRec [VMap [(VInt 300, VNone); (VInt 1, VSome (VList [VBytes [66]; VBytes [65]]))]] in
  env_ok hash_demo = true /\ typed hash_demo (TExt 0 []) v = true /\ prefix_ok hash_demo (TExt 0 []) v = true /\ lenN (encode hash_demo true (TExt 0 []) v) < 2 ^ 64
  /\ same hash_demo (TExt 0 []) v v' /\ relayed hash_demo true (TExt 0 []) v v' /\ encode hash_demo true (TExt 0 []) v <> encode hash_demo true (TExt 0 []) v'
  /\ hash_free_defs demo [0; 1; 3]%nat = true /\ hash_free [0; 1; 3]%nat (TExt 3 [TExt 1 []]) = true.
Proof.
  intros v v'. assert (S : same hash_demo (TExt 0 []) v v').
  { eapply same_struct; [reflexivity|reflexivity|]. cbn. constructor; [|constructor]. eapply same_map; [reflexivity|apply perm_swap|]. repeat constructor; cbn [fst snd]. eapply same_some; [reflexivity|]. eapply same_set; [reflexivity|apply perm_swap]. }
  split; [reflexivity|]. split; [reflexivity|]. split; [reflexivity|]. split; [reflexivity|]. split; [exact S|]. split; [apply (relay_hop _ _ _ _ _ _ _ [] (relay_none _ _ _ _) S); vm_compute; reflexivity|]. split; [vm_compute; discriminate|]. split; reflexivity.
Qed.
