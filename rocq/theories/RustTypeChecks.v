(** The generated code type checks exactly for the schemas described in RustSpec.v: traits, and
    the step from types to definitions. *)
From Verif Require Import Base Varint Wire Codec Compiler SchemaSpec RustCode RustEval RustTyping RustSpec Safety RustTypingProofs.
Local Open Scope N_scope.

Lemma forallb_forall2_eq {A B} (R : A -> B -> Prop) (p : B -> bool) (q : A -> bool) l m :
  Forall2 R l m -> (forall a b, In a l -> R a b -> p b = q a) -> forallb p m = forallb q l.
Proof.
  induction 1 as [|a b l m Hab HF IH]; intros H; [reflexivity|]. cbn [forallb].
  rewrite (H a b (or_introl eq_refl) Hab), IH; [reflexivity|]. intros x y Hx. apply H. right. exact Hx.
Qed.

Section Traits.
Variable bt : bytes_type.

(** Case analysis on [rust_type bt t = Some r], once per constructor. *)
Ltac rt Hr :=
  cbn [rust_type] in Hr;
  repeat match type of Hr with
  | option_map _ ?o = Some _ => let r := fresh "r" in let E := fresh "Er" in destruct o as [r|] eqn:E; [cbn [option_map] in Hr|discriminate Hr]
  | obind ?o _ = Some _ => let r := fresh "r" in let E := fresh "Er" in destruct o as [r|] eqn:E; [cbn [obind] in Hr|discriminate Hr]
  end; injection Hr as <-.

Lemma hash_iff bd t : bd TrHash = false -> no_gen t = true -> forall r, rust_type bt t = Some r -> impls bd TrHash r = hashable t.
Proof.
  intros Hb. induction t as [t Hl|t IH|k v IHk IHv|t IH|t IH|t IH|ts IH|t len IH|i args IH|t IH] using ty_ind'; intros Hng r Hr.
  - destruct t; try discriminate Hl; rt Hr; cbn [impls hashable is_float negb]; try reflexivity; try exact Hb; destruct bt; reflexivity.
  - rt Hr. cbn [impls hashable]. apply (IH Hng). reflexivity.
  - rt Hr. reflexivity.
  - rt Hr. reflexivity.
  - rt Hr. cbn [impls hashable]. apply (IH Hng). reflexivity.
  - destruct t; cbn [rust_type] in Hr; try discriminate Hr; rt Hr; reflexivity.
  - rt Hr. cbn [impls hashable no_gen] in *. apply all_opt_forall2 in Er. apply (forallb_forall2_eq _ _ _ _ _ Er).
    intros t r' Hin Hr'. rewrite forallb_forall in Hng. rewrite Forall_forall in IH. exact (IH t Hin (Hng t Hin) r' Hr').
  - rt Hr. cbn [impls hashable]. apply (IH Hng). reflexivity.
  - rt Hr. reflexivity.
  - discriminate Hng.
Qed.

(** [Clone] and [Debug] are never missing. *)
Lemma common_ok bd tr t : (tr = TrClone \/ tr = TrDebug) -> bd tr = true -> forall r, rust_type bt t = Some r -> impls bd tr r = true.
Proof.
  intros Htr Hb. induction t as [t Hl|t IH|k v IHk IHv|t IH|t IH|t IH|ts IH|t len IH|i args IH|t IH] using ty_ind'; intros r Hr.
  - destruct t; try discriminate Hl; rt Hr; destruct Htr as [-> | ->]; cbn [impls]; try reflexivity; try exact Hb; destruct bt; reflexivity.
  - rt Hr. cbn [impls]. apply IH. reflexivity.
  - rt Hr. pose proof (IHk _ eq_refl) as H1. pose proof (IHv _ eq_refl) as H2. destruct Htr as [-> | ->]; cbn [impls]; rewrite H1, H2; reflexivity.
  - rt Hr. pose proof (IH _ eq_refl) as H1. destruct Htr as [-> | ->]; exact H1.
  - rt Hr. cbn [impls]. apply IH. reflexivity.
  - destruct t; cbn [rust_type] in Hr; try discriminate Hr.
    1-4: rt Hr; destruct Htr as [-> | ->]; reflexivity.
    all: match type of Hr with option_map _ ?o = _ => destruct o as [r'|] eqn:Er; [|discriminate Hr] | _ => idtac end; injection Hr as <-.
    all: first [pose proof (IH _ Er) as H1|pose proof (IH _ eq_refl) as H1]; destruct Htr as [-> | ->]; exact H1.
  - rt Hr. assert (H : forallb (impls bd tr) r0 = forallb (fun _ : ty => true) ts).
    { apply all_opt_forall2 in Er. apply (forallb_forall2_eq _ _ _ _ _ Er). intros t r' Hin Hr'. rewrite Forall_forall in IH. exact (IH t Hin r' Hr'). }
    assert (H1 : forallb (impls bd tr) r0 = true) by (rewrite H; apply forallb_forall; reflexivity).
    destruct Htr as [-> | ->]; exact H1.
  - rt Hr. pose proof (IH _ eq_refl) as H1. destruct Htr as [-> | ->]; exact H1.
  - rt Hr. assert (H : forallb (impls bd tr) r0 = forallb (fun _ : ty => true) args).
    { apply all_opt_forall2 in Er. apply (forallb_forall2_eq _ _ _ _ _ Er). intros t r' Hin Hr'. rewrite Forall_forall in IH. exact (IH t Hin r' Hr'). }
    assert (H1 : forallb (impls bd tr) r0 = true) by (rewrite H; apply forallb_forall; reflexivity).
    destruct Htr as [-> | ->]; exact H1.
  - apply IH. exact Hr.
Qed.

(** [Size] only needs [Size]. *)
Lemma size_bd bd bd' r : bd TrSize = bd' TrSize -> impls bd TrSize r = impls bd' TrSize r.
Proof.
  intros Hb. apply (rty_ind2 (fun r => impls bd TrSize r = impls bd' TrSize r)); clear r; try reflexivity.
  - intros i. exact Hb.
  - repeat match goal with |- _ /\ _ => split end; reflexivity.
  - intros t IH. repeat match goal with |- _ /\ _ => split end; try exact IH; try reflexivity. intros n. exact IH.
  - intros k v IHk IHv. cbn [impls]. rewrite IHk, IHv. reflexivity.
  - intros ts IH. split; [reflexivity|]. intros i. cbn [impls]. induction IH as [|t ts Ht _ IHts]; [reflexivity|].
    cbn [forallb]. rewrite Ht, IHts. reflexivity.
Qed.

Lemma forallb_3 {A} (p q r s : A -> bool) l : (forall a, In a l -> p a = true <-> q a = true /\ r a = true /\ s a = true) ->
  forallb p l = true <-> forallb q l = true /\ forallb r l = true /\ forallb s l = true.
Proof.
  induction l as [|a l IH]; intros H; [cbn; tauto|]. cbn [forallb]. rewrite !andb_true_iff.
  rewrite (H a (or_introl eq_refl)), IH; [tauto|]. intros x Hx. apply H. right. exact Hx.
Qed.

Lemma portable_iff t : no_gen t = true -> forall r, rust_type bt t = Some r ->
  portable bt t = true <-> impls size_bounds TrSize r = true /\ impls encode_bounds TrEncode r = true /\ impls decode_bounds TrDecode r = true.
Proof.
  induction t as [t Hl|t IH|k v IHk IHv|t IH|t IH|t IH|ts IH|t len IH|i args IH|t IH] using ty_ind'; intros Hng r Hr.
  - destruct t; try discriminate Hl; rt Hr; cbn [impls portable]; try tauto; try (cbn; tauto); destruct bt; cbn; intuition congruence.
  - rt Hr. cbn [impls portable]. apply (IH Hng). reflexivity.
  - cbn [no_gen] in Hng. apply andb_true_iff in Hng as [Hn1 Hn2]. rt Hr. specialize (IHk Hn1 _ eq_refl). specialize (IHv Hn2 _ eq_refl).
    cbn [impls portable]. rewrite !andb_true_iff, (hash_iff decode_bounds k eq_refl Hn1 _ Er), IHk, IHv. tauto.
  - rt Hr. specialize (IH Hng _ eq_refl). cbn [impls portable]. rewrite !andb_true_iff, (hash_iff decode_bounds t eq_refl Hng _ Er), IH. tauto.
  - rt Hr. cbn [impls portable]. apply (IH Hng). reflexivity.
  - destruct t; cbn [rust_type] in Hr; try discriminate Hr; rt Hr; cbn [impls portable]; intuition congruence.
  - rt Hr. cbn [impls portable]. intuition congruence.
  - rt Hr. specialize (IH Hng _ eq_refl). cbn [impls portable].
    rewrite (common_ok decode_bounds TrDebug t (or_intror eq_refl) eq_refl _ Er). exact IH.
  - rt Hr. cbn [impls portable no_gen] in *. apply all_opt_forall2 in Er.
    assert (H : forall tr bd q, (forall t r, rust_type bt t = Some r -> q t = impls bd tr r) -> forallb (impls bd tr) r0 = forallb q args).
    { intros tr bd q Hq. apply (forallb_forall2_eq _ _ _ _ _ Er). intros t r' _ Hr'. symmetry. apply Hq. exact Hr'. }
    set (S1 := fun t => match rust_type bt t with Some r => impls size_bounds TrSize r | None => false end).
    set (E1 := fun t => match rust_type bt t with Some r => impls encode_bounds TrEncode r && impls encode_bounds TrSize r | None => false end).
    set (D1 := fun t => match rust_type bt t with Some r => impls decode_bounds TrDebug r && impls decode_bounds TrDecode r | None => false end).
    rewrite (forallb_forall2_eq _ _ S1 _ _ Er), (forallb_forall2_eq _ _ E1 _ _ Er), (forallb_forall2_eq _ _ D1 _ _ Er).
    2-4: intros t r' _ Hr'; unfold S1, E1, D1; rewrite Hr'; reflexivity.
    apply forallb_3. intros t Hin. rewrite Forall_forall in IH. rewrite forallb_forall in Hng.
    assert (Hex : exists r', rust_type bt t = Some r').
    { clear - Er Hin. induction Er as [|a b l m Hab HF IHl]; [destruct Hin|]. destruct Hin as [->|Hin]; [exists b; exact Hab|exact (IHl Hin)]. }
    destruct Hex as [r' Hr']. rewrite (IH t Hin (Hng t Hin) r' Hr'). unfold S1, E1, D1. rewrite Hr'.
    rewrite (common_ok decode_bounds TrDebug t (or_intror eq_refl) eq_refl _ Hr'), (size_bd encode_bounds size_bounds r' eq_refl), andb_true_iff. cbn [andb]. tauto.
  - discriminate Hng.
Qed.

Lemma size_fit_bd bd bd' t : bd TrSize = bd' TrSize -> forall n, size_fit bt bd n t = size_fit bt bd' n t.
Proof.
  intros Hb. assert (Hn : forall t, nominal_ok bt bd TrSize t = nominal_ok bt bd' TrSize t).
  { intros t'. unfold nominal_ok. destruct (rust_type bt t'); [apply size_bd; exact Hb|reflexivity]. }
  induction t as [t Hl|t IH|k v IHk IHv|t IH|t IH|t IH|ts IH|t len IH|i args IH|t IH] using ty_ind'; intros n.
  - destruct t; try discriminate Hl; try reflexivity. cbn [size_fit]. rewrite Hn. reflexivity.
  - apply IH.
  - cbn [size_fit]. rewrite IHk, IHv. reflexivity.
  - apply IH.
  - cbn [size_fit]. rewrite IH. reflexivity.
  - destruct t; try reflexivity; apply (IH 0%nat).
  - cbn [size_fit]. f_equal. induction IH as [|t ts Ht _ IHts]; [reflexivity|]. cbn [forallb]. rewrite Ht, IHts. reflexivity.
  - apply IH.
  - cbn [size_fit]. rewrite Hn. reflexivity.
  - reflexivity.
Qed.

Definition size_fits := size_fit bt size_bounds.
Definition enc_fits := enc_fit bt encode_bounds.
Definition dec_fits := dec_fit bt decode_bounds.

Lemma portable_args args rs : forallb no_gen args = true -> all_opt (rust_type bt) args = Some rs ->
  forallb (portable bt) args = true <->
  forallb (impls size_bounds TrSize) rs = true
  /\ forallb (fun a => impls encode_bounds TrEncode a && impls encode_bounds TrSize a) rs = true
  /\ forallb (fun a => impls decode_bounds TrDebug a && impls decode_bounds TrDecode a) rs = true.
Proof.
  intros Hng Er. assert (Hr : rust_type bt (TExt 0 args) = Some (RAdt 0 rs)) by (cbn [rust_type]; rewrite Er; reflexivity).
  exact (portable_iff (TExt 0 args) Hng _ Hr).
Qed.

Theorem fits_iff t : no_gen t = true -> forall n r, rust_type bt t = Some r ->
  fits bt n t = true <-> size_fits n t = true /\ enc_fits false n t = true /\ dec_fits t = true.
Proof.
  unfold size_fits, enc_fits, dec_fits.
  induction t as [t Hl|t IH|k v IHk IHv|t IH|t IH|t IH|ts IH|t len IH|i args IH|t IH] using ty_ind'; intros Hng n r Hr.
  all: pose proof (fun t => size_fit_bd encode_bounds size_bounds t eq_refl 0) as Hsz.
  - destruct t; try discriminate Hl; rt Hr; cbn [fits size_fit enc_fit dec_fit nominal_ok rust_type impls]; try tauto.
    cbn. rewrite andb_true_r. tauto.
  - rt Hr. specialize (IH Hng 0%nat _ eq_refl). cbn [fits size_fit enc_fit dec_fit]. rewrite andb_true_iff, Hsz, IH. tauto.
  - cbn [no_gen] in Hng. apply andb_true_iff in Hng as [Hn1 Hn2]. rt Hr. specialize (IHk Hn1 0%nat _ eq_refl). specialize (IHv Hn2 0%nat _ eq_refl).
    cbn [fits size_fit enc_fit dec_fit]. unfold hash_ok, nominal_ok. rewrite Er. rewrite !andb_true_iff, !Hsz, (hash_iff decode_bounds k eq_refl Hn1 _ Er), IHk, IHv. tauto.
  - rt Hr. specialize (IH Hng 0%nat _ eq_refl). cbn [fits size_fit enc_fit dec_fit]. unfold hash_ok, nominal_ok. rewrite Er.
    rewrite !andb_true_iff, Hsz, (hash_iff decode_bounds t eq_refl Hng _ Er), IH. tauto.
  - rt Hr. specialize (IH Hng 0%nat _ eq_refl). cbn [fits size_fit enc_fit dec_fit]. rewrite !andb_true_iff, IH. tauto.
  - destruct t; cbn [rust_type] in Hr; try discriminate Hr; try (cbn [fits size_fit enc_fit dec_fit]; tauto).
    all: match type of Hr with option_map _ ?o = _ => destruct o as [r'|] eqn:Er; [|discriminate Hr] end; injection Hr as <-; exact (IH Hng 0%nat _ Er).
  - rt Hr. cbn [no_gen fits size_fit enc_fit dec_fit negb orb] in *. fold (tuple_len_ok ts). rewrite !andb_true_iff.
    rewrite (forallb_3 (fits bt (S n)) (size_fit bt size_bounds (S n)) (enc_fit bt encode_bounds false (S n)) (dec_fit bt decode_bounds)); [tauto|].
    intros t Hin. rewrite Forall_forall in IH. rewrite forallb_forall in Hng. apply all_opt_forall2 in Er.
    assert (Hex : exists r', rust_type bt t = Some r').
    { clear - Er Hin. induction Er as [|a b l m Hab HF IHl]; [destruct Hin|]. destruct Hin as [->|Hin]; [exists b; exact Hab|exact (IHl Hin)]. }
    destruct Hex as [r' Hr']. exact (IH t Hin (Hng t Hin) (S n) r' Hr').
  - rt Hr. specialize (IH Hng 0%nat _ eq_refl). cbn [fits size_fit enc_fit dec_fit]. unfold debug_ok, nominal_ok.
    rewrite Er, (common_ok decode_bounds TrDebug t (or_intror eq_refl) eq_refl _ Er). rewrite !andb_true_iff, Hsz, IH. tauto.
  - cbn [no_gen] in Hng. rt Hr. pose proof (portable_args args _ Hng Er) as H. cbn [fits size_fit enc_fit dec_fit]. unfold nominal_ok. cbn [rust_type].
    rewrite Er. cbn [option_map impls]. rewrite !andb_true_iff, H. tauto.
  - discriminate Hng.
Qed.

(** Whole fields: the size of a tuple is also computed by [encode]. *)
Lemma enc_root_iff t : size_fits 0 t = true -> enc_fits true 0 t = enc_fits false 0 t.
Proof.
  intros H. destruct t; try reflexivity. unfold enc_fits. cbn [enc_fit negb orb]. unfold size_fits in H. cbn [size_fit] in H.
  apply andb_true_iff in H as [_ H]. rewrite andb_true_r. f_equal.
  replace (forallb (size_fit bt encode_bounds 1) ts) with (forallb (size_fit bt size_bounds 1) ts); [rewrite H, andb_true_r; reflexivity|].
  clear H. induction ts as [|t ts IH]; [reflexivity|]. cbn [forallb]. rewrite IH, (size_fit_bd size_bounds encode_bounds t eq_refl). reflexivity.
Qed.
Theorem fits_root_iff t : no_gen t = true -> forall r, rust_type bt t = Some r ->
  fits bt 0 t = true <-> size_fits 0 t = true /\ enc_fits true 0 t = true /\ dec_fits t = true.
Proof.
  intros Hng r Hr. rewrite (fits_iff t Hng 0 r Hr). split; intros (H1 & H2 & H3); split; try exact H1; (split; [|exact H3]).
  - rewrite (enc_root_iff t H1). exact H2.
  - rewrite <- (enc_root_iff t H1). exact H2.
Qed.

(** A type that fits exists. *)
Lemma all_opt_exists {A B} (f : A -> option B) l : (forall a, In a l -> exists b, f a = Some b) -> exists m, all_opt f l = Some m.
Proof.
  induction l as [|a l IH]; intros H; [exists []; reflexivity|]. destruct (H a (or_introl eq_refl)) as [b Hb].
  destruct IH as [m Hm]; [intros x Hx; apply H; right; exact Hx|]. exists (b :: m). cbn [all_opt]. rewrite Hb, Hm. reflexivity.
Qed.
Lemma portable_type t : portable bt t = true -> exists r, rust_type bt t = Some r.
Proof.
  induction t as [t Hl|t IH|k v IHk IHv|t IH|t IH|t IH|ts IH|t len IH|i args IH|t IH] using ty_ind'; intros H; cbn [portable] in H.
  - destruct t; try discriminate Hl; cbn [rust_type]; eexists; reflexivity.
  - destruct (IH H) as [r Hr]. cbn [rust_type]. rewrite Hr. eexists; reflexivity.
  - rewrite !andb_true_iff in H. destruct H as [[_ H1] H2]. destruct (IHk H1) as [r Hr]. destruct (IHv H2) as [r' Hr']. cbn [rust_type]. rewrite Hr, Hr'. eexists; reflexivity.
  - rewrite !andb_true_iff in H. destruct (IH (proj2 H)) as [r Hr]. cbn [rust_type]. rewrite Hr. eexists; reflexivity.
  - destruct (IH H) as [r Hr]. cbn [rust_type]. rewrite Hr. eexists; reflexivity.
  - discriminate H.
  - discriminate H.
  - destruct (IH H) as [r Hr]. cbn [rust_type]. rewrite Hr. eexists; reflexivity.
  - rewrite Forall_forall in IH. rewrite forallb_forall in H.
    destruct (all_opt_exists (rust_type bt) args) as [rs Hrs]; [intros a Ha; exact (IH a Ha (H a Ha))|]. cbn [rust_type]. rewrite Hrs. eexists; reflexivity.
  - discriminate H.
Qed.
Lemma fits_type t : forall n, fits bt n t = true -> exists r, rust_type bt t = Some r.
Proof.
  induction t as [t Hl|t IH|k v IHk IHv|t IH|t IH|t IH|ts IH|t len IH|i args IH|t IH] using ty_ind'; intros n H.
  - destruct t; try discriminate Hl; cbn [rust_type]; eexists; reflexivity.
  - destruct (IH _ H) as [r Hr]. cbn [rust_type]. rewrite Hr. eexists; reflexivity.
  - cbn [fits] in H. rewrite !andb_true_iff in H. destruct H as [[_ H1] H2]. destruct (IHk _ H1) as [r Hr]. destruct (IHv _ H2) as [r' Hr']. cbn [rust_type]. rewrite Hr, Hr'. eexists; reflexivity.
  - cbn [fits] in H. rewrite !andb_true_iff in H. destruct (IH _ (proj2 H)) as [r Hr]. cbn [rust_type]. rewrite Hr. eexists; reflexivity.
  - cbn [fits] in H. rewrite !andb_true_iff in H. destruct (IH _ (proj2 H)) as [r Hr]. cbn [rust_type]. rewrite Hr. eexists; reflexivity.
  - assert (Hn : fits bt 0 t = true -> exists r, rust_type bt t = Some r) by apply IH. clear IH.
    destruct t; cbn [fits] in H; try discriminate H; try (cbn [rust_type option_map]; eexists; reflexivity);
      destruct (Hn H) as [r Hr]; cbn [rust_type] in *; rewrite Hr; eexists; reflexivity.
  - cbn [fits] in H. apply andb_true_iff in H as [_ H]. rewrite Forall_forall in IH. rewrite forallb_forall in H.
    destruct (all_opt_exists (rust_type bt) ts) as [rs Hrs]; [intros a Ha; exact (IH a Ha _ (H a Ha))|]. cbn [rust_type]. rewrite Hrs. eexists; reflexivity.
  - destruct (IH _ H) as [r Hr]. cbn [rust_type]. rewrite Hr. eexists; reflexivity.
  - cbn [fits] in H. apply andb_true_iff in H as [_ H]. apply (portable_type (TExt i args)). exact H.
  - discriminate H.
Qed.

(** [PartialEq] is not missing either. *)
Lemma portable_eq t : no_gen t = true -> portable bt t = true -> forall bd r, bd TrHash = false -> bd TrPartialEq = true ->
  rust_type bt t = Some r -> impls bd TrPartialEq r = true.
Proof.
  intros Hng H bd r Hh Hp. revert Hng H r. induction t as [t Hl|t IH|k v IHk IHv|t IH|t IH|t IH|ts IH|t len IH|i args IH|t IH] using ty_ind'; intros Hng H r Hr; cbn [portable] in H.
  - destruct t; try discriminate Hl; rt Hr; cbn [impls]; try reflexivity; try exact Hp; destruct bt; reflexivity || discriminate H.
  - rt Hr. exact (IH Hng H _ eq_refl).
  - cbn [no_gen] in Hng. apply andb_true_iff in Hng as [Hn1 Hn2]. rewrite !andb_true_iff in H. destruct H as [[H0 H1] H2]. rt Hr.
    cbn [impls]. rewrite (hash_iff bd k Hh Hn1 _ Er), H0. exact (IHv Hn2 H2 _ eq_refl).
  - rewrite !andb_true_iff in H. rt Hr. cbn [impls]. rewrite (hash_iff bd t Hh Hng _ Er). apply H.
  - rt Hr. exact (IH Hng H _ eq_refl).
  - discriminate H.
  - discriminate H.
  - rt Hr. exact (IH Hng H _ eq_refl).
  - cbn [no_gen] in Hng. rt Hr. cbn [impls]. apply all_opt_forall2 in Er. rewrite <- H. apply (forallb_forall2_eq _ _ _ _ _ Er).
    intros t r' Hin Hr'. rewrite Forall_forall in IH. rewrite forallb_forall in Hng, H. rewrite (H t Hin). exact (IH t Hin (Hng t Hin) (H t Hin) r' Hr').
  - discriminate Hng.
Qed.
Lemma fits_eq t : no_gen t = true -> forall n, fits bt n t = true -> forall bd r, bd TrHash = false -> bd TrPartialEq = true ->
  rust_type bt t = Some r -> impls bd TrPartialEq r = true.
Proof.
  intros Hng n H bd r Hh Hp. revert Hng n H r. induction t as [t Hl|t IH|k v IHk IHv|t IH|t IH|t IH|ts IH|t len IH|i args IH|t IH] using ty_ind'; intros Hng n H r Hr.
  - destruct t; try discriminate Hl; rt Hr; cbn [impls]; try reflexivity; try exact Hp; destruct bt; reflexivity || discriminate H.
  - rt Hr. exact (IH Hng _ H _ eq_refl).
  - cbn [no_gen] in Hng. apply andb_true_iff in Hng as [Hn1 Hn2]. cbn [fits] in H. rewrite !andb_true_iff in H. destruct H as [[H0 H1] H2]. rt Hr.
    cbn [impls]. rewrite (hash_iff bd k Hh Hn1 _ Er), H0. exact (IHv Hn2 _ H2 _ eq_refl).
  - cbn [fits] in H. rewrite !andb_true_iff in H. rt Hr. cbn [impls]. rewrite (hash_iff bd t Hh Hng _ Er). apply H.
  - cbn [fits] in H. rewrite !andb_true_iff in H. rt Hr. exact (IH Hng _ (proj2 H) _ eq_refl).
  - assert (Hn : fits bt 0 t = true -> forall r, rust_type bt t = Some r -> impls bd TrPartialEq r = true) by apply (IH Hng 0%nat). clear IH.
    destruct t; cbn [rust_type] in Hr; try discriminate Hr.
    1-4: rt Hr; reflexivity.
    all: match type of Hr with option_map _ ?o = _ => destruct o as [r'|] eqn:Er; [|discriminate Hr] end; injection Hr as <-; exact (Hn H _ Er).
  - cbn [fits] in H. apply andb_true_iff in H as [_ H]. cbn [no_gen] in Hng. rt Hr. cbn [impls]. apply all_opt_forall2 in Er. rewrite <- H.
    apply (forallb_forall2_eq _ _ _ _ _ Er). intros t r' Hin Hr'. rewrite Forall_forall in IH. rewrite forallb_forall in Hng, H.
    rewrite (H t Hin). exact (IH t Hin (Hng t Hin) _ (H t Hin) r' Hr').
  - rt Hr. exact (IH Hng _ H _ eq_refl).
  - cbn [fits] in H. apply andb_true_iff in H as [_ H]. exact (portable_eq (TExt i args) Hng H bd r Hh Hp Hr).
  - discriminate Hng.
Qed.
End Traits.
