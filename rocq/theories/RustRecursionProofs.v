(** The instances of [decode] are finitely many exactly when the definition does not contain itself. *)
From Verif Require Import Base Varint Wire Codec CodecSpec Compiler SchemaSpec RustCode RustEval RustTyping RustSpec Safety RustTypingProofs RustItems RustEvalProofs RustDecProofs RustRecursion.
Local Open Scope N_scope.

(** The definitions mentioned, with the level of the reader they are decoded from. *)
Fixpoint at_level (k : nat) (t : ty) : list instance :=
  match t with
  | TVec t' | TSet t' | TArray t' _ => at_level (S k) t'
  | TMap a b => at_level (S k) a ++ at_level (S k) b
  | TOption t' | TGen t' | TNonZero t' => at_level k t'
  | TTuple ts => flat_map (at_level k) ts
  | TExt i args => [(i, args, k)]
  | _ => []
  end.

Lemma at_level_mentions t : forall k, map fst (at_level k t) = mentions t.
Proof.
  induction t as [t Hl|t IH|a b IHa IHb|t IH|t IH|t IH|ts IH|t len IH|i args IH|t IH] using ty_ind'; intros k; cbn [at_level mentions]; try apply IH.
  - destruct t; discriminate Hl || reflexivity.
  - rewrite map_app, IHa, IHb. reflexivity.
  - induction IH as [|t ts Ht _ IHts]; [reflexivity|]. cbn [flat_map]. rewrite map_app, Ht. f_equal. exact IHts.
  - reflexivity.
Qed.
Lemma at_level_ge t : forall k x, In x (at_level k t) -> (k <= snd x)%nat.
Proof.
  induction t as [t Hl|t IH|a b IHa IHb|t IH|t IH|t IH|ts IH|t len IH|i args IH|t IH] using ty_ind'; intros k x Hx; cbn [at_level] in Hx;
    try (apply IH in Hx; lia).
  - destruct t; try discriminate Hl; destruct Hx.
  - apply in_app_or in Hx as [Hx|Hx]; [apply IHa in Hx|apply IHb in Hx]; lia.
  - apply in_flat_map in Hx as (t & Ht & Hx). rewrite Forall_forall in IH. exact (IH t Ht k x Hx).
  - destruct Hx as [<-|[]]. cbn [snd]. lia.
Qed.

Section Run.
Variable bt : bytes_type.
Variable E : env.

Lemma trait_calls_ok t : passable bt t = true -> forall k, trait_calls k t = at_level k t.
Proof.
  induction t as [t Hl|t IH|a b IHa IHb|t IH|t IH|t IH|ts IH|t len IH|i args IH|t IH] using ty_ind'; intros Hp k; cbn [trait_calls at_level passable] in *;
    try (apply IH; exact Hp); try discriminate Hp.
  - destruct t; discriminate Hl || reflexivity.
  - apply andb_true_iff in Hp as [H1 H2]. rewrite (IHa H1), (IHb H2). reflexivity.
  - reflexivity.
Qed.

Section Calls.
Variable args : list ty.
Hypothesis Ha : forallb (passable bt) args = true.

Definition calls_right (t : ty) : Prop :=
  forall d root g k, find_var x_r g = Some k -> fits bt d t = true -> calls args g (gen_decode bt root t) = at_level k (subst args t).
Definition parts_right (t : ty) : Prop :=
  match t with TVec t' | TSet t' => calls_right t' | TMap k v => calls_right k /\ calls_right v | _ => True end.
Lemma clos_r (k : nat) (g : levels) : find_var x_r ((x_r, k) :: g) = Some k.
Proof. apply find_var_eq. Qed.

Lemma calls_ok_parts t : calls_right t /\ parts_right t.
Proof.
  induction t as [t Hl|t IH|k t IHk IHt|t IH|t IH|t IH|ts IH|t len IH|i ts IH|t IH] using ty_ind';
    (split; [|try exact I; try exact (proj1 IH); try (split; [exact (proj1 IHk)|exact (proj1 IHt)]); destruct t; discriminate Hl || exact I]); intros d root g lv Hg Hf.
  - destruct t; try discriminate Hl; cbn [gen_decode calls flat_map]; rewrite ?Hg; try reflexivity.
    cbn [subst]. destruct (nth_error args i) as [a|] eqn:En; [|reflexivity]. cbn [trait_calls at_level]. apply trait_calls_ok.
    rewrite forallb_forall in Ha. apply Ha. apply (nth_error_In _ _ En).
  - cbn [gen_decode calls flat_map]. rewrite Hg, app_nil_r. apply (proj1 IH 0%nat); [apply clos_r|exact Hf].
  - cbn [fits] in Hf. apply andb_true_iff in Hf as [Hf H2]. apply andb_true_iff in Hf as [_ H1].
    cbn [gen_decode calls flat_map]. rewrite Hg, app_nil_r. cbn [subst at_level].
    rewrite (proj1 IHk 0%nat false _ (S lv) (clos_r _ _) H1), (proj1 IHt 0%nat false _ (S lv) (clos_r _ _) H2). reflexivity.
  - cbn [fits] in Hf. apply andb_true_iff in Hf as [_ H1]. cbn [gen_decode calls flat_map]. rewrite Hg, app_nil_r. apply (proj1 IH 0%nat); [apply clos_r|exact H1].
  - cbn [fits] in Hf. apply andb_true_iff in Hf as [_ H1]. cbn [gen_decode calls flat_map]. rewrite Hg, app_nil_r. apply (proj1 IH 0%nat); [apply clos_r|exact H1].
  - destruct IH as [_ Hin].
    destruct t; cbn [fits] in Hf; try discriminate Hf; cbn [gen_decode calls flat_map]; rewrite ?Hg; try reflexivity; cbn [parts_right] in Hin; rewrite app_nil_r.
    + apply (Hin 0%nat); [apply clos_r|exact Hf].
    + apply andb_true_iff in Hf as [Hf H2]. apply andb_true_iff in Hf as [_ H1]. destruct Hin as [Hi1 Hi2]. cbn [subst at_level].
      rewrite (Hi1 0%nat false _ (S lv) (clos_r _ _) H1), (Hi2 0%nat false _ (S lv) (clos_r _ _) H2). reflexivity.
    + apply andb_true_iff in Hf as [_ H1]. apply (Hin 0%nat); [apply clos_r|exact H1].
  - cbn [fits] in Hf. apply andb_true_iff in Hf as [Hlen Hf]. cbn [gen_decode]. unfold tuple_len_ok. rewrite Hlen. cbn [subst calls at_level].
    replace (match (if root then Some (ECall (RDecode (ScU W64)) [EVar x_r]) else None) with Some e => calls args g e | None => [] end) with (@nil instance)
      by (destruct root; [cbn [calls flat_map]; rewrite Hg; reflexivity|reflexivity]).
    cbn [app]. clear Hlen. induction IH as [|t ts [Ht _] _ IHts]; [reflexivity|]. cbn [forallb] in Hf. apply andb_true_iff in Hf as [H1 H2].
    cbn [map flat_map]. rewrite (Ht (S d) false g lv Hg H1), (IHts H2). reflexivity.
  - cbn [gen_decode calls flat_map]. rewrite Hg, app_nil_r. apply (proj1 IH 0%nat); [apply clos_r|exact Hf].
  - cbn [gen_decode calls]. rewrite Hg. apply trait_calls_ok. apply passable_subst; [exact Ha|]. cbn [fits] in Hf. apply andb_true_iff in Hf as [_ Hf]. exact Hf.
  - discriminate Hf.
Qed.
Lemma calls_ok t : calls_right t.
Proof. apply calls_ok_parts. Qed.

Lemma at_level_payload k t : at_level k (subst args (payload_ty t)) = at_level k (subst args t).
Proof. destruct t; reflexivity. Qed.

Lemma body_calls_ok k fs : fits_fields bt fs ->
  body_calls args [(x_r, k)] (gen_decode_fields bt fs) = flat_map (at_level k) (map (fun f => subst args (f_ty f)) (kind_fields fs)).
Proof.
  intros Hf. unfold gen_decode_fields, kind_fields. destruct (fs_kind fs) eqn:Hk; [| |reflexivity].
  all: destruct Hf as (_ & _ & Hfit); [rewrite Hk; discriminate|]; cbn [body_calls d_arms].
  all: induction (fs_list fs) as [|f l IH]; [reflexivity|]; cbn [map flat_map]; rewrite IH by (intros g Hg; apply Hfit; right; exact Hg).
  all: rewrite gen_arm_eq; f_equal; rewrite (calls_ok (payload_ty (f_ty f)) 0%nat true [(x_r, k)] k (clos_r _ _)); [apply at_level_payload|].
  all: apply payload_fits, Hfit; left; reflexivity.
Qed.
End Calls.

Hypothesis Hfits : Forall (fits_def bt) E.

Lemma needs_ok i args k : forallb (passable bt) args = true -> needs bt E (i, args, k) = flat_map (at_level k) (content E i args).
Proof.
  intros Ha. unfold needs, content. destruct (nth_error E i) as [d|] eqn:Ei; [|reflexivity].
  assert (Hd : fits_def bt d) by (rewrite Forall_forall in Hfits; apply Hfits; apply (nth_error_In _ _ Ei)).
  destruct d as [fs|vs]; cbn [gen_decode_def bodies].
  - cbn [flat_map]. rewrite app_nil_r. apply body_calls_ok; assumption.
  - cbn [fits_def] in Hd. clear Ei. induction vs as [|v vs IH]; [reflexivity|]. cbn [map flat_map]. rewrite map_app, flat_map_app, <- IH by (intros w Hw; apply Hd; right; exact Hw).
    f_equal. apply body_calls_ok; [exact Ha|]. apply Hd. left. reflexivity.
Qed.

(** Arguments stay usable. *)
Lemma mentions_passable t : passable bt t = true -> forall j bs, In (j, bs) (mentions t) -> forallb (passable bt) bs = true.
Proof.
  induction t as [t Hl|t IH|a b IHa IHb|t IH|t IH|t IH|ts IH|t len IH|i args IH|t IH] using ty_ind'; intros Hp j bs Hin; cbn [mentions passable] in *;
    try (exact (IH Hp j bs Hin)); try discriminate Hp.
  - destruct t; try discriminate Hl; destruct Hin.
  - apply andb_true_iff in Hp as [H1 H2]. apply in_app_or in Hin as [Hin|Hin]; [apply (IHa H1 j bs Hin)|apply (IHb H2 j bs Hin)].
  - destruct Hin as [Hin|[]]. injection Hin as <- <-. exact Hp.
Qed.
Lemma mentions_subst args t : forallb (passable bt) args = true -> forall d, fits bt d t = true ->
  forall j bs, In (j, bs) (mentions (subst args t)) -> forallb (passable bt) bs = true.
Proof.
  intros Ha. induction t as [t Hl|t IH|a b IHa IHb|t IH|t IH|t IH|ts IH|t len IH|i ts IH|t IH] using ty_ind'; intros d Hf j bs Hin; cbn [mentions subst fits] in *.
  - destruct t; try discriminate Hl; try destruct Hin. cbn [subst] in Hin. destruct (nth_error args i) as [a|] eqn:En; [|destruct Hin].
    cbn [mentions] in Hin. apply (mentions_passable a) with (j := j); [|exact Hin]. rewrite forallb_forall in Ha. apply Ha. apply (nth_error_In _ _ En).
  - exact (IH _ Hf j bs Hin).
  - apply andb_true_iff in Hf as [Hf H2]. apply andb_true_iff in Hf as [_ H1]. apply in_app_or in Hin as [Hin|Hin]; [apply (IHa _ H1 j bs Hin)|apply (IHb _ H2 j bs Hin)].
  - apply andb_true_iff in Hf as [_ Hf]. exact (IH _ Hf j bs Hin).
  - apply andb_true_iff in Hf as [_ Hf]. exact (IH _ Hf j bs Hin).
  - assert (Hf' : fits bt 0 t = true).
    { destruct t; try discriminate Hf; try reflexivity; exact Hf. }
    exact (IH _ Hf' j bs Hin).
  - apply andb_true_iff in Hf as [_ Hf]. rewrite flat_map_concat_map, map_map, <- flat_map_concat_map in Hin. apply in_flat_map in Hin as (t & Ht & Hin).
    rewrite Forall_forall in IH. rewrite forallb_forall in Hf. exact (IH t Ht _ (Hf t Ht) j bs Hin).
  - exact (IH _ Hf j bs Hin).
  - apply andb_true_iff in Hf as [_ Hf]. destruct Hin as [Hin|[]]. injection Hin as <- <-. rewrite forallb_forall. intros t Ht. apply in_map_iff in Ht as (u & <- & Hu).
    apply passable_subst; [exact Ha|]. rewrite forallb_forall in Hf. apply Hf. exact Hu.
  - discriminate Hf.
Qed.
Lemma inside_passable i args j bs : forallb (passable bt) args = true -> inside E (j, bs) (i, args) -> forallb (passable bt) bs = true.
Proof.
  intros Ha (t & Ht & Hin). cbn [fst snd] in Ht. unfold content in Ht. destruct (nth_error E i) as [d|] eqn:Ei; [|destruct Ht].
  apply in_map_iff in Ht as (f & <- & Hf). apply in_flat_map in Hf as (fs & Hfs & Hf).
  assert (Hd : fits_def bt d) by (rewrite Forall_forall in Hfits; apply Hfits; apply (nth_error_In _ _ Ei)).
  assert (Hff : fits_fields bt fs).
  { destruct d as [fs'|vs]; cbn [bodies fits_def] in *; [destruct Hfs as [<-|[]]; exact Hd|]. apply in_map_iff in Hfs as (v & <- & Hv). apply Hd. exact Hv. }
  unfold kind_fields in Hf. destruct (fs_kind fs) eqn:Hk; [| |destruct Hf].
  all: destruct Hff as (_ & _ & Hfit); [rewrite Hk; discriminate|]; apply (mentions_subst args (f_ty f) Ha 0%nat (Hfit f Hf) j bs Hin).
Qed.

Lemma inside_needs i args k j bs : forallb (passable bt) args = true -> inside E (j, bs) (i, args) -> exists k', In (j, bs, k') (needs bt E (i, args, k)).
Proof.
  intros Ha (t & Ht & Hin). cbn [fst snd] in Ht. rewrite needs_ok by exact Ha. rewrite <- (at_level_mentions t k) in Hin.
  apply in_map_iff in Hin as ([[j' bs'] k'] & Heq & Hin). cbn [fst] in Heq. injection Heq as -> ->. exists k'. apply in_flat_map. exists t. split; assumption.
Qed.
Lemma needs_inside i args k j bs k' : forallb (passable bt) args = true -> In (j, bs, k') (needs bt E (i, args, k)) -> inside E (j, bs) (i, args).
Proof.
  intros Ha Hin. rewrite needs_ok in Hin by exact Ha. apply in_flat_map in Hin as (t & Ht & Hin). exists t. split; [exact Ht|].
  rewrite <- (at_level_mentions t k). apply in_map_iff. exists (j, bs, k'). split; [reflexivity|exact Hin].
Qed.

(** * No recursion: finitely many instances *)
Lemma sized_mentions t : (forall j bs, In (j, bs) (mentions t) -> sized E (TExt j bs)) -> sized E t.
Proof.
  induction t as [t Hl|t IH|a b IHa IHb|t IH|t IH|t IH|ts IH|t len IH|i args IH|t IH] using ty_ind'; intros H; cbn [mentions] in H.
  - apply sized_leaf. destruct t; discriminate Hl || reflexivity.
  - apply sized_vec.
  - apply sized_map.
  - apply sized_set.
  - apply sized_option, IH, H.
  - apply sized_non_zero, IH, H.
  - apply sized_tuple. intros t Ht. rewrite Forall_forall in IH. apply (IH t Ht). intros j bs Hin. apply H. apply in_flat_map. exists t. split; assumption.
  - apply sized_array, IH, H.
  - apply H. left. reflexivity.
  - apply sized_gen, IH, H.
Qed.
Definition closed (L : list instance) : Prop :=
  (forall x, In x L -> incl (needs bt E x) L) /\ (forall j bs k, In (j, bs, k) L -> sized E (TExt j bs)).
Lemma closed_app L M : closed L -> closed M -> closed (L ++ M).
Proof.
  intros [H1 H2] [K1 K2]. split.
  - intros x Hx y Hy. apply in_or_app. apply in_app_or in Hx as [Hx|Hx]; [left; exact (H1 x Hx y Hy)|right; exact (K1 x Hx y Hy)].
  - intros j bs k Hx. apply in_app_or in Hx as [Hx|Hx]; [exact (H2 j bs k Hx)|exact (K2 j bs k Hx)].
Qed.
Lemma ends_instances x : Acc (inside E) x -> forallb (passable bt) (snd x) = true -> forall k, exists L, In (x, k) L /\ closed L.
Proof.
  induction 1 as [[i args] _ IH]. cbn [snd]. intros Ha k.
  assert (HL : forall l, incl l (needs bt E (i, args, k)) -> exists L, incl l L /\ closed L).
  { induction l as [|[[j bs] k'] l IHl]; intros Hl; [exists []; split; [intros x []|split; [intros x []|intros ? ? ? []]]|].
    destruct IHl as (L & HL & HcL); [intros x Hx; apply Hl; right; exact Hx|].
    assert (Hi : inside E (j, bs) (i, args)) by (apply (needs_inside i args k j bs k' Ha); apply Hl; left; reflexivity).
    destruct (IH (j, bs) Hi (inside_passable i args j bs Ha Hi) k') as (M & HM & HcM).
    exists (M ++ L). split; [|apply closed_app; assumption]. intros x [<-|Hx]; apply in_or_app; [left; exact HM|right; exact (HL x Hx)]. }
  destruct (HL _ (incl_refl _)) as (L & HL1 & HcL). exists ((i, args, k) :: L). split; [left; reflexivity|]. split.
  - intros x [<-|Hx] y Hy; right; [exact (HL1 y Hy)|exact (proj1 HcL x Hx y Hy)].
  - intros j bs k' [Heq|Hx]; [injection Heq as <- <- <-|exact (proj2 HcL j bs k' Hx)].
    apply sized_ext. intros t Ht. apply sized_mentions. intros j bs Hin.
    destruct (inside_needs i args k j bs Ha) as (k' & Hn); [exists t; split; assumption|]. exact (proj2 HcL j bs k' (HL1 _ Hn)).
Qed.

(** * Finitely many instances: no recursion *)
Lemma level_bound (L : list instance) : exists K, forall x, In x L -> (snd x <= K)%nat.
Proof.
  induction L as [|x L [K HK]]; [exists O; intros x []|]. exists (Nat.max (snd x) K). intros y [<-|Hy]; [lia|]. specialize (HK y Hy). lia.
Qed.
Lemma instances_end L K : closed L -> (forall x, In x L -> (snd x <= K)%nat) ->
  forall n i args k, (K - k <= n)%nat -> In (i, args, k) L -> forallb (passable bt) args = true -> Acc (inside E) (i, args).
Proof.
  intros [HL Hs] HK. induction n as [n IHn] using lt_wf_ind.
  assert (Hsz : forall t, sized E t -> forall k, (K - k <= n)%nat -> (forall x, In x (at_level k t) -> In x L) ->
    (forall j bs, In (j, bs) (mentions t) -> forallb (passable bt) bs = true) ->
    forall j bs, In (j, bs) (mentions t) -> Acc (inside E) (j, bs)).
  { intros t Ht. induction Ht as [t Hp|t|a b|t|t _ IH|t _ IH|ts _ IH|t m Ht IH|t _ IH|i args _ IH]; intros k Hk Hin Hpass j bs Hm.
    - destruct t; try discriminate Hp; destruct Hm.
    - assert (Hm' := Hm). cbn [mentions at_level] in *. rewrite <- (at_level_mentions t (S k)) in Hm'. apply in_map_iff in Hm' as ([[j' bs'] k'] & Heq & Hm'). cbn [fst] in Heq. injection Heq as -> ->.
      pose proof (at_level_ge _ _ _ Hm') as Hge. cbn [snd] in Hge. pose proof (HK _ (Hin _ Hm')) as Hle. cbn [snd] in Hle.
      apply (IHn (K - k')%nat) with (k := k'); [lia|lia|apply Hin; exact Hm'|exact (Hpass j bs Hm)].
    - assert (Hm' := Hm). cbn [mentions at_level] in *. rewrite <- (at_level_mentions a (S k)), <- (at_level_mentions b (S k)), <- map_app in Hm'. apply in_map_iff in Hm' as ([[j' bs'] k'] & Heq & Hm'). cbn [fst] in Heq. injection Heq as -> ->.
      assert (Hge : (S k <= k')%nat) by (apply in_app_or in Hm' as [Hx|Hx]; apply at_level_ge in Hx; exact Hx). pose proof (HK _ (Hin _ Hm')) as Hle. cbn [snd] in Hle.
      apply (IHn (K - k')%nat) with (k := k'); [lia|lia|apply Hin; exact Hm'|exact (Hpass j bs Hm)].
    - assert (Hm' := Hm). cbn [mentions at_level] in *. rewrite <- (at_level_mentions t (S k)) in Hm'. apply in_map_iff in Hm' as ([[j' bs'] k'] & Heq & Hm'). cbn [fst] in Heq. injection Heq as -> ->.
      pose proof (at_level_ge _ _ _ Hm') as Hge. cbn [snd] in Hge. pose proof (HK _ (Hin _ Hm')) as Hle. cbn [snd] in Hle.
      apply (IHn (K - k')%nat) with (k := k'); [lia|lia|apply Hin; exact Hm'|exact (Hpass j bs Hm)].
    - exact (IH k Hk Hin Hpass j bs Hm).
    - exact (IH k Hk Hin Hpass j bs Hm).
    - cbn [mentions at_level] in *. apply in_flat_map in Hm as (t & Ht & Hm). apply (IH t Ht k Hk); [| |exact Hm].
      + intros x Hx. apply Hin. apply in_flat_map. exists t. split; assumption.
      + intros j' bs' Hx. apply (Hpass j'). apply in_flat_map. exists t. split; assumption.
    - cbn [mentions at_level] in *. apply (IH (S k)); try assumption. lia.
    - exact (IH k Hk Hin Hpass j bs Hm).
    - destruct Hm as [Heq|[]]. injection Heq as <- <-. assert (Hpa : forallb (passable bt) args = true) by (apply (Hpass i); left; reflexivity).
      assert (Hi : In (i, args, k) L) by (apply Hin; left; reflexivity).
      constructor. intros [j bs] Hji. destruct Hji as (t & Ht & Hm). cbn [fst snd] in Ht. apply (IH t Ht k Hk); [| |exact Hm].
      + intros x Hx. apply (HL _ Hi). rewrite needs_ok by exact Hpa. apply in_flat_map. exists t. split; assumption.
      + intros j' bs' Hx. apply (inside_passable i args j' bs' Hpa). exists t. split; assumption. }
  intros i args k Hk Hin Ha. apply (Hsz (TExt i args) (Hs i args k Hin) k Hk); cbn [at_level mentions].
  - intros x [<-|[]]. exact Hin.
  - intros j bs [Heq|[]]. injection Heq as <- <-. exact Ha.
  - left. reflexivity.
Qed.

Theorem instantiable_iff i args : forallb (passable bt) args = true -> instantiable bt E i args <-> ends E i args.
Proof.
  intros Ha. split.
  - intros (L & Hin & HL). destruct (level_bound L) as [K HK]. exact (instances_end L K HL HK K i args 0%nat ltac:(lia) Hin Ha).
  - intros H. destruct (ends_instances (i, args) H Ha 0%nat) as (L & Hin & HL). exists L. split; [exact Hin|exact HL].
Qed.
End Run.

(** * Definitions in order *)
Lemma names_mentions t : forall j bs, In (j, bs) (mentions t) -> In j (names t).
Proof.
  induction t as [t Hl|t IH|a b IHa IHb|t IH|t IH|t IH|ts IH|t len IH|i args IH|t IH] using ty_ind'; intros j bs Hin; cbn [mentions names] in *;
    try (exact (IH j bs Hin)).
  - destruct t; try discriminate Hl; destruct Hin.
  - apply in_or_app. apply in_app_or in Hin as [Hin|Hin]; [left; exact (IHa j bs Hin)|right; exact (IHb j bs Hin)].
  - apply in_flat_map in Hin as (t & Ht & Hin). apply in_flat_map. exists t. rewrite Forall_forall in IH. split; [exact Ht|exact (IH t Ht j bs Hin)].
  - destruct Hin as [Heq|[]]. injection Heq as <- <-. left. reflexivity.
Qed.

Section Ranked.
Variable E : env.
Variable rank : nat -> nat.
Hypothesis Hrank : forall i d f j, nth_error E i = Some d -> In f (flat_map kind_fields (bodies d)) -> In j (names (f_ty f)) -> (rank j < rank i)%nat.

Definition good (t : ty) : Prop := forall j bs, In (j, bs) (mentions t) -> Acc (inside E) (j, bs).

Lemma good_subst n args t : Forall good args -> (forall i args, (rank i < n)%nat -> Forall good args -> Acc (inside E) (i, args)) ->
  (forall j, In j (names t) -> (rank j < n)%nat) -> good (subst args t).
Proof.
  intros Ha Hn. induction t as [t Hl|t IH|a b IHa IHb|t IH|t IH|t IH|ts IH|t len IH|i ts IH|t IH] using ty_ind'; intros Hj j bs Hin; cbn [names subst mentions] in *;
    try (exact (IH Hj j bs Hin)).
  - destruct t; try discriminate Hl; try destruct Hin. cbn [subst] in Hin. destruct (nth_error args i) as [a|] eqn:En; [|destruct Hin].
    rewrite Forall_forall in Ha. exact (Ha a (nth_error_In _ _ En) j bs Hin).
  - apply in_app_or in Hin as [Hin|Hin]; [apply (IHa (fun j Hx => Hj j (in_or_app _ _ _ (or_introl Hx))) j bs Hin)|apply (IHb (fun j Hx => Hj j (in_or_app _ _ _ (or_intror Hx))) j bs Hin)].
  - rewrite flat_map_concat_map, map_map, <- flat_map_concat_map in Hin. apply in_flat_map in Hin as (t & Ht & Hin). rewrite Forall_forall in IH.
    apply (IH t Ht); [|exact Hin]. intros j' Hj'. apply Hj. apply in_flat_map. exists t. split; assumption.
  - destruct Hin as [Heq|[]]. injection Heq as <- <-. apply Hn; [apply Hj; left; reflexivity|]. rewrite Forall_forall in *. intros t Ht. apply in_map_iff in Ht as (u & <- & Hu).
    apply (IH u Hu). intros j' Hj'. apply Hj. right. apply in_flat_map. exists u. split; assumption.
Qed.
Lemma ranked_ends n : forall i args, (rank i < n)%nat -> Forall good args -> Acc (inside E) (i, args).
Proof.
  induction n as [|n IH]; intros i args Hi Ha; [lia|]. constructor. intros [j bs] (t & Ht & Hin). cbn [fst snd] in Ht.
  unfold content in Ht. destruct (nth_error E i) as [d|] eqn:Ei; [|destruct Ht]. apply in_map_iff in Ht as (f & <- & Hf).
  apply (good_subst n args (f_ty f) Ha IH); [|exact Hin]. intros j' Hj'. pose proof (Hrank i d f j' Ei Hf Hj'). lia.
Qed.
End Ranked.
