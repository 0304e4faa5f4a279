(** Running the generated [size] and [encode] functions (RustEval.v) computes the functions of
    Codec.v. *)
From Verif Require Import Base Varint Wire Codec CodecSpec Compiler SchemaSpec RustCode RustEval RustTyping RustSpec Safety RustTypingProofs RustItems.
Local Open Scope N_scope.

(** Nesting of structs and enums in a value. *)
Fixpoint vdepth (v : val) : nat :=
  let fix deep (l : list val) : nat := match l with [] => O | x :: l' => Nat.max (vdepth x) (deep l') end in
  match v with
  | VList l => deep l
  | VMap l => (fix go (l : list (val * val)) : nat :=
                 match l with [] => O | (k, x) :: l' => Nat.max (Nat.max (vdepth k) (vdepth x)) (go l') end) l
  | VSome x => vdepth x
  | VRec l | VVar _ l => S (deep l)
  | _ => O
  end.
Definition vdepths (l : list val) : nat := vdepth (VList l).
Lemma vdepths_in l x : In x l -> (vdepth x <= vdepths l)%nat.
Proof.
  induction l as [|y l IH]; intros Hin; [destruct Hin|]. change (vdepths (y :: l)) with (Nat.max (vdepth y) (vdepths l)).
  destruct Hin as [->|Hin]; [lia|]. specialize (IH Hin). lia.
Qed.
Lemma vdepth_map_in l k x : In (k, x) l -> (vdepth k <= vdepth (VMap l) /\ vdepth x <= vdepth (VMap l))%nat.
Proof.
  induction l as [|[k' x'] l IH]; intros Hin; [destruct Hin|].
  change (vdepth (VMap ((k', x') :: l))) with (Nat.max (Nat.max (vdepth k') (vdepth x')) (vdepth (VMap l))).
  destruct Hin as [E|Hin]; [injection E as -> ->; lia|]. specialize (IH Hin). lia.
Qed.

(** Types that may be passed as arguments; [TGen] marks the use of a parameter. *)
Fixpoint passable (bt : bytes_type) (t : ty) : bool :=
  match t with
  | TBytes | TBytesRef => match bt with BVecU8 => true | BBytes => false end
  | TVec t' | TOption t' | TArray t' _ | TSet t' | TGen t' => passable bt t'
  | TMap k v => passable bt k && passable bt v
  | TExt _ args => forallb (passable bt) args
  | TTuple _ | TNonZero _ => false
  | _ => true
  end.

Lemma all_opt_map {A B} (f : A -> option B) (g : A -> B) l : (forall a, In a l -> f a = Some (g a)) -> all_opt f l = Some (map g l).
Proof.
  induction l as [|a l IH]; intros H; [reflexivity|]. cbn [all_opt map].
  rewrite (H a (or_introl eq_refl)), IH; [reflexivity|]. intros x Hx. apply H. right. exact Hx.
Qed.
Lemma map_id_map {A B} (f : A -> B) l : map (fun n => n) (map f l) = map f l.
Proof. rewrite map_id. reflexivity. Qed.

Lemma size_vec_map {A} (f : A -> N) l : size_vec (fun n => n) (map f l) = size_vec f l.
Proof. unfold size_vec, lenN. rewrite map_length, map_id. reflexivity. Qed.
Lemma size_map_map {A} (f g : A * A -> N) (l : list (A * A)) :
  size_hash_map (fun n => n) (fun n => n) (map (fun kv => (f kv, g kv)) l) = size_uint W64 (lenN l) + sumN (map (fun kv => f kv + g kv) l).
Proof. unfold size_hash_map, lenN. rewrite map_length, map_map. reflexivity. Qed.
Lemma encode_vec_map {A} (f : A -> N) (g : A -> list N) l : encode_vec fst snd (map (fun v => (f v, g v)) l) = encode_vec f g l.
Proof. unfold encode_vec. rewrite !map_map. reflexivity. Qed.
Lemma encode_map_map {A} (s t : A -> N) (f g : A -> list N) (l : list (A * A)) :
  encode_hash_map fst fst snd snd (map (fun kv => ((s (fst kv), f (fst kv)), (t (snd kv), g (snd kv)))) l) = encode_hash_map s t f g l.
Proof. unfold encode_hash_map. rewrite !map_map. reflexivity. Qed.
Lemma sum_ones l : sumN (map (fun _ : N => size_u8) l) = lenN l.
Proof. induction l as [|x l IH]; [reflexivity|]. cbn [map sumN fold_right]. unfold sumN in IH. rewrite IH. unfold lenN, size_u8. cbn [length]. lia. Qed.
Lemma size_vec_u8 l : size_vec (fun _ => size_u8) l = size_bytes l.
Proof. unfold size_vec, size_bytes. rewrite sum_ones. reflexivity. Qed.
Lemma encode_vec_u8 l : encode_vec (fun _ => size_u8) encode_u8 l = encode_bytes l.
Proof.
  unfold encode_vec, encode_bytes. rewrite sum_ones. f_equal. induction l as [|x l IH]; [reflexivity|]. cbn [map concat encode_u8 app]. rewrite IH. reflexivity.
Qed.

Section Run.
Variable bt : bytes_type.
Variable E : env.

(** Peeling [TNonZero] and [TGen]. *)
Lemma size_core t u v : core t = core u -> size E t v = size E u v.
Proof. intros H. destruct v; cbn [size]; rewrite H; reflexivity. Qed.
Lemma encode_core t u v : core t = core u -> encode E false t v = encode E false u v.
Proof. intros H. destruct v; cbn [encode andb]; rewrite H; reflexivity. Qed.
Lemma typed_gen t v : typed E (TGen t) v = typed E t v.
Proof. destruct v; reflexivity. Qed.
Lemma typed_nz t v : typed E (TNonZero t) v = true -> nz_inner t = true /\ typed E t v = true.
Proof.
  intros H. assert (Hi : nz_inner t = true).
  { assert (Hh : head_ok (TNonZero t) v = true) by (destruct v; cbn [typed] in H; apply andb_true_iff in H as [H _]; exact H).
    cbn [head_ok] in Hh. apply andb_true_iff in Hh as [Hh _]. exact Hh. }
  split; [exact Hi|]. assert (Hh : head_ok t v = true) by (destruct t; discriminate || reflexivity).
  destruct v; cbn [typed] in *; apply andb_true_iff in H as [_ H]; rewrite Hh; exact H.
Qed.

(** The shape of typed values. *)
Lemma typed_vec t v : typed E (TVec t) v = true -> exists l, v = VList l /\ forall x, In x l -> typed E t x = true.
Proof. destruct v; cbn [typed core head_ok andb]; try discriminate. intros H. exists l. split; [reflexivity|]. apply forallb_forall. exact H. Qed.
Lemma typed_set t v : typed E (TSet t) v = true -> exists l, v = VList l /\ forall x, In x l -> typed E t x = true.
Proof.
  destruct v; cbn [typed core head_ok andb]; try discriminate. intros H. apply andb_true_iff in H as [H _].
  exists l. split; [reflexivity|]. apply forallb_forall. exact H.
Qed.
Lemma typed_array t n v : typed E (TArray t n) v = true -> exists l, v = VList l /\ forall x, In x l -> typed E t x = true.
Proof.
  destruct v; cbn [typed core head_ok andb]; try discriminate. intros H. apply andb_true_iff in H as [_ H].
  exists l. split; [reflexivity|]. apply forallb_forall. exact H.
Qed.
Lemma typed_map k t v : typed E (TMap k t) v = true ->
  exists l, v = VMap l /\ forall kv, In kv l -> typed E k (fst kv) = true /\ typed E t (snd kv) = true.
Proof.
  destruct v; cbn [typed core head_ok andb]; try discriminate. intros H. apply andb_true_iff in H as [H _].
  exists l. split; [reflexivity|]. intros kv Hin. rewrite forallb_forall in H. specialize (H kv Hin). apply andb_true_iff in H. exact H.
Qed.
Lemma typed_option t v : typed E (TOption t) v = true -> v = VNone \/ exists x, v = VSome x /\ typed E t x = true.
Proof. destruct v; cbn [typed core head_ok andb]; try discriminate; [left; reflexivity|]. intros H. right. exists v. split; [reflexivity|exact H]. Qed.
Lemma typed_tuple ts v : typed E (TTuple ts) v = true -> exists l, v = VList l /\ all2 (typed E) ts l = true.
Proof. destruct v; cbn [typed core head_ok andb]; try discriminate. intros H. exists l. split; [reflexivity|exact H]. Qed.

(** * Type arguments *)
Section Traits.
Variable n : nat.
Variable adt_size : nat -> list ty -> val -> option N.
Hypothesis Hsize : forall i args v, forallb (passable bt) args = true -> typed E (TExt i args) v = true -> (vdepth v <= n)%nat ->
  adt_size i args v = Some (size E (TExt i args) v).

Lemma trait_size_ok t : passable bt t = true -> forall v, typed E t v = true -> (vdepth v <= n)%nat ->
  trait_size bt adt_size t v = Some (size E t v).
Proof.
  induction t as [t Hl|t IH|k t IHk IHt|t IH|t IH|t IH|ts IH|t len IH|i args IH|t IH] using ty_ind'; intros Hp v Ht Hd.
  - destruct t; try discriminate Hl; destruct v; try discriminate Ht; try reflexivity;
      cbn [trait_size passable] in *; destruct bt; try discriminate Hp; rewrite size_vec_u8; reflexivity.
  - apply typed_vec in Ht as (l & -> & Ht). cbn [trait_size].
    rewrite (all_opt_map _ (size E t)); [cbn [obind]; rewrite size_vec_map; reflexivity|].
    intros x Hx. apply (IH Hp x (Ht x Hx)). pose proof (vdepths_in l x Hx). unfold vdepths in *. lia.
  - cbn [passable] in Hp. apply andb_true_iff in Hp as [Hp1 Hp2]. apply typed_map in Ht as (l & -> & Ht). cbn [trait_size].
    rewrite (all_opt_map _ (fun kv => (size E k (fst kv), size E t (snd kv)))).
    + cbn [obind]. rewrite size_map_map. reflexivity.
    + intros [a b] Hx. destruct (Ht _ Hx) as [H1 H2]. cbn [fst snd] in *. pose proof (vdepth_map_in l a b Hx) as [D1 D2].
      rewrite (IHk Hp1 a H1) by lia. rewrite (IHt Hp2 b H2) by lia. reflexivity.
  - apply typed_set in Ht as (l & -> & Ht). cbn [trait_size].
    rewrite (all_opt_map _ (size E t)); [cbn [obind]; rewrite size_vec_map; reflexivity|].
    intros x Hx. apply (IH Hp x (Ht x Hx)). pose proof (vdepths_in l x Hx). unfold vdepths in *. lia.
  - apply typed_option in Ht as [->|(x & -> & Ht)]; [reflexivity|]. cbn [trait_size]. rewrite (IH Hp x Ht) by exact Hd. reflexivity.
  - discriminate Hp.
  - discriminate Hp.
  - apply typed_array in Ht as (l & -> & Ht). cbn [trait_size].
    rewrite (all_opt_map _ (size E t)); [cbn [obind]; rewrite size_vec_map; reflexivity|].
    intros x Hx. apply (IH Hp x (Ht x Hx)). pose proof (vdepths_in l x Hx). unfold vdepths in *. lia.
  - cbn [passable] in Hp. destruct v; apply (Hsize i args _ Hp Ht Hd).
  - rewrite typed_gen in Ht. rewrite (size_core (TGen t) t v eq_refl). destruct v; apply (IH Hp _ Ht Hd).
Qed.
Variable adt_encode : nat -> list ty -> val -> option (list N).
Hypothesis Hencode : forall i args v, forallb (passable bt) args = true -> typed E (TExt i args) v = true -> (vdepth v <= n)%nat ->
  adt_encode i args v = Some (encode E false (TExt i args) v).
Lemma trait_encode_ok t : passable bt t = true -> forall v, typed E t v = true -> (vdepth v <= n)%nat ->
  trait_encode bt adt_size adt_encode t v = Some (encode E false t v).
Proof.
  induction t as [t Hl|t IH|k t IHk IHt|t IH|t IH|t IH|ts IH|t len IH|i args IH|t IH] using ty_ind'; intros Hp v Ht Hd.
  - destruct t; try discriminate Hl; destruct v; try discriminate Ht; try reflexivity;
      cbn [trait_encode passable] in *; destruct bt; try discriminate Hp; rewrite encode_vec_u8; reflexivity.
  - apply typed_vec in Ht as (l & -> & Ht). cbn [trait_encode].
    rewrite (all_opt_map _ (fun v => (size E t v, encode E false t v))); [cbn [obind]; rewrite encode_vec_map; reflexivity|].
    intros x Hx. pose proof (vdepths_in l x Hx). unfold vdepths in *.
    rewrite (trait_size_ok t Hp x (Ht x Hx)) by lia. rewrite (IH Hp x (Ht x Hx)) by lia. reflexivity.
  - cbn [passable] in Hp. apply andb_true_iff in Hp as [Hp1 Hp2]. apply typed_map in Ht as (l & -> & Ht). cbn [trait_encode].
    rewrite (all_opt_map _ (fun kv => ((size E k (fst kv), encode E false k (fst kv)), (size E t (snd kv), encode E false t (snd kv))))).
    + cbn [obind]. rewrite encode_map_map. reflexivity.
    + intros [a b] Hx. destruct (Ht _ Hx) as [H1 H2]. cbn [fst snd] in *. pose proof (vdepth_map_in l a b Hx) as [D1 D2].
      rewrite (trait_size_ok k Hp1 a H1) by lia. rewrite (trait_size_ok t Hp2 b H2) by lia.
      rewrite (IHk Hp1 a H1) by lia. rewrite (IHt Hp2 b H2) by lia. reflexivity.
  - apply typed_set in Ht as (l & -> & Ht). cbn [trait_encode].
    rewrite (all_opt_map _ (fun v => (size E t v, encode E false t v))); [cbn [obind]; rewrite encode_vec_map; reflexivity|].
    intros x Hx. pose proof (vdepths_in l x Hx). unfold vdepths in *.
    rewrite (trait_size_ok t Hp x (Ht x Hx)) by lia. rewrite (IH Hp x (Ht x Hx)) by lia. reflexivity.
  - apply typed_option in Ht as [->|(x & -> & Ht)]; [reflexivity|]. cbn [trait_encode]. rewrite (IH Hp x Ht) by exact Hd. reflexivity.
  - discriminate Hp.
  - discriminate Hp.
  - apply typed_array in Ht as (l & -> & Ht). cbn [trait_encode].
    rewrite (all_opt_map _ (fun v => (size E t v, encode E false t v))); [cbn [obind]; rewrite encode_vec_map; reflexivity|].
    intros x Hx. pose proof (vdepths_in l x Hx). unfold vdepths in *.
    rewrite (trait_size_ok t Hp x (Ht x Hx)) by lia. rewrite (IH Hp x (Ht x Hx)) by lia. reflexivity.
  - cbn [passable] in Hp. destruct v; apply (Hencode i args _ Hp Ht Hd).
  - rewrite typed_gen in Ht. rewrite (encode_core (TGen t) t v eq_refl). destruct v; apply (IH Hp _ Ht Hd).
Qed.
End Traits.

Lemma passable_subst args t : forallb (passable bt) args = true -> portable bt t = true -> passable bt (subst args t) = true.
Proof.
  intros Ha. induction t as [t Hl|t IH|k t IHk IHt|t IH|t IH|t IH|ts IH|t len IH|i ts IH|t IH] using ty_ind'; intros Hp; cbn [portable subst passable] in *.
  - destruct t; try discriminate Hl; try exact Hp; try reflexivity. cbn [subst]. destruct (nth_error args i) as [a|] eqn:En; [|reflexivity].
    cbn [passable]. rewrite forallb_forall in Ha. apply Ha. apply (nth_error_In _ _ En).
  - exact (IH Hp).
  - rewrite !andb_true_iff in *. destruct Hp as [[_ H1] H2]. split; [exact (IHk H1)|exact (IHt H2)].
  - rewrite !andb_true_iff in *. destruct Hp as [_ H]. exact (IH H).
  - exact (IH Hp).
  - discriminate Hp.
  - discriminate Hp.
  - exact (IH Hp).
  - rewrite forallb_forall in *. rewrite Forall_forall in IH. intros x Hx. apply in_map_iff in Hx as (y & <- & Hy). exact (IH y Hy (Hp y Hy)).
  - discriminate Hp.
Qed.

(** * Generated expressions *)
Lemma val_post_get p e : ev_val p (post EGet e) = ev_val p e.
Proof. induction e; try reflexivity; exact IHe. Qed.
Lemma val_post_ref p e : ev_val p (post EAsRef e) = ev_val p e.
Proof. induction e; try reflexivity; exact IHe. Qed.
Lemma val_post_proj p i e : ev_val p (post (EProj i) e) = match ev_val p e with Some (VList l) => nth_error l i | _ => None end.
Proof. induction e; try reflexivity; exact IHe. Qed.
Lemma size_post sz p t e : ev_size sz p (post (ESizeM t) e) = obind (ev_val p e) (sz t).
Proof. induction e; try reflexivity; exact IHe. Qed.
Lemma write_post sz en p t e : ev_write sz en p (post (fun e => EEncodeM t e (EVar x_w)) e)
  = obind (writer p (EVar x_w)) (fun _ => obind (ev_val p e) (en t)).
Proof. induction e; try reflexivity; exact IHe. Qed.
Lemma val_var p x v : ev_val ((x, RVal v) :: p) (EVar x) = Some v.
Proof. cbn [ev_val]. rewrite find_var_eq. reflexivity. Qed.
Lemma writer_w p : writer ((x_w, RWriter) :: p) (EVar x_w) = Some tt.
Proof. cbn [writer]. rewrite find_var_eq. reflexivity. Qed.
Lemma writer_skip p x v : x <> x_w -> writer ((x, v) :: p) (EVar x_w) = writer p (EVar x_w).
Proof. intros H. cbn [writer]. rewrite find_var_neq; [reflexivity|]. intros E'. apply H. symmetry. exact E'. Qed.

Lemma all_opt_app {A B} (f : A -> option B) l m : all_opt f (l ++ m) = match all_opt f l, all_opt f m with Some a, Some b => Some (a ++ b) | _, _ => None end.
Proof.
  induction l as [|a l IH]; cbn [app all_opt]; [destruct (all_opt f m); reflexivity|].
  destruct (f a); [|reflexivity]. rewrite IH. destruct (all_opt f l); [|reflexivity]. destruct (all_opt f m); reflexivity.
Qed.
Lemma sumN_app l m : sumN (l ++ m) = sumN l + sumN m.
Proof. unfold sumN. induction l as [|a l IH]; cbn [app fold_right]; [lia|]. rewrite IH. lia. Qed.
Lemma eval_sum sz p es ns : all_opt (ev_size sz p) es = Some ns -> ev_size sz p (sum_of es) = Some (sumN ns).
Proof.
  unfold sum_of. change (fun e => match e with ESum l => l | _ => [e] end) with flat. intros H.
  assert (Hx : exists ms, all_opt (ev_size sz p) (flat_map flat es) = Some ms /\ sumN ms = sumN ns).
  { revert ns H. induction es as [|e es IH]; intros ns H; cbn [all_opt flat_map] in *; [injection H as <-; exists []; split; reflexivity|].
    destruct (ev_size sz p e) as [k|] eqn:Ek; [|discriminate]. destruct (all_opt (ev_size sz p) es) as [ks|] eqn:Eks; [|discriminate]. injection H as <-.
    destruct (IH ks eq_refl) as (ms & Hms & Hs). rewrite all_opt_app, Hms.
    assert (Hf : exists fs, all_opt (ev_size sz p) (flat e) = Some fs /\ sumN fs = k).
    { destruct e; cbn [flat all_opt]; try (rewrite Ek; exists [k]; split; [reflexivity|unfold sumN; cbn; lia]).
      cbn [ev_size] in Ek. destruct (all_opt (ev_size sz p) es0) as [fs|]; [|discriminate]. cbn [obind] in Ek. injection Ek as <-. exists fs. split; reflexivity. }
    destruct Hf as (fs & -> & Hk). exists (fs ++ ms). split; [reflexivity|]. rewrite sumN_app, Hs, Hk. reflexivity. }
  destruct Hx as (ms & Hms & Hs). cbn [ev_size]. rewrite Hms. cbn [obind]. rewrite Hs. reflexivity.
Qed.

Lemma fenc_subst args t : fits bt 0 t = true -> fenc_of (subst args t) = fenc_of t.
Proof.
  destruct t; try reflexivity; intros H.
  - destruct t; try reflexivity; discriminate H.
  - cbn [subst]. destruct (nth_error args i); reflexivity.
Qed.
Lemma fenc_gen root t e : fits bt 0 t = true -> fst (gen_encode bt root t e) = fenc_of t.
Proof.
  destruct t; try reflexivity; intros H. destruct t; try reflexivity; discriminate H.
Qed.

Section Exprs.
Variable args : list ty.
Variable n : nat.
Variable sz : ty -> val -> option N.
Hypothesis Hsz : forall t v, portable bt t = true -> typed E (subst args t) v = true -> (vdepth v <= n)%nat -> sz t v = Some (size E (subst args t) v).

Definition size_goal (t : ty) : Prop := forall d p e v, fits bt d t = true -> ev_val p e = Some v ->
  typed E (subst args t) v = true -> (vdepth v <= n)%nat -> ev_size sz p (gen_size bt t e) = Some (size E (subst args t) v).

Lemma seq_size d p e l0 ts : forall pre l, Forall size_goal ts -> forallb (fits bt d) ts = true -> ev_val p e = Some (VList l0) ->
  l0 = pre ++ l -> all2 (typed E) (map (subst args) ts) l = true -> (vdepths l <= n)%nat ->
  exists ns, all_opt (ev_size sz p) (gen_size_elems bt e (length pre) ts) = Some ns /\ sumN ns = size_seq (size E) (map (subst args) ts) l.
Proof.
  induction ts as [|t ts IH]; intros pre l HF Hfit Hv Hl Ht Hd; cbn [gen_size_elems map].
  - destruct l; [|discriminate]. exists []. split; reflexivity.
  - destruct l as [|x l]; [discriminate|]. cbn [all2 forallb] in Ht, Hfit. apply andb_true_iff in Ht as [Ht1 Ht2]. apply andb_true_iff in Hfit as [Hf1 Hf2].
    inversion HF as [|? ? Hg HF']; subst. change (vdepths (x :: l)) with (Nat.max (vdepth x) (vdepths l)) in Hd.
    destruct (IH (pre ++ [x]) l HF' Hf2 Hv) as (ns & Hns & Hs); [rewrite <- app_assoc; reflexivity|exact Ht2|lia|].
    rewrite app_length in Hns. cbn [length] in Hns. rewrite Nat.add_1_r in Hns.
    cbn [all_opt]. fold (gen_size_elems bt e). rewrite Hns.
    rewrite (Hg d p (ERef (post (EProj (length pre)) e)) x Hf1); [|cbn [ev_val]; rewrite val_post_proj, Hv, nth_error_app2, Nat.sub_diag by lia; reflexivity|exact Ht1|lia].
    eexists. split; [reflexivity|]. cbn [size_seq]. rewrite <- Hs. reflexivity.
Qed.

Theorem eval_size t : size_goal t.
Proof.
  induction t as [t Hl|t IH|k t IHk IHt|t IH|t IH|t IH|ts IH|t len IH|i ts IH|t IH] using ty_ind'; intros d p e v Hf Hv Ht Hd.
  - destruct t; try discriminate Hl; cbn [gen_size ev_size].
    14: { rewrite size_post, Hv. cbn [obind]. apply Hsz; [reflexivity|exact Ht|exact Hd]. }
    all: cbn [ev_val]; rewrite Hv; cbn [obind]; cbn [subst] in Ht; destruct v; try discriminate Ht; reflexivity.
  - cbn [subst] in *. apply typed_vec in Ht as (l & -> & Ht). cbn [gen_size ev_size]. rewrite Hv.
    rewrite (all_opt_map _ (size E (subst args t))); [cbn [obind]; rewrite size_vec_map; reflexivity|].
    intros x Hx. pose proof (vdepths_in l x Hx). unfold vdepths in *. apply (IH 0%nat _ _ x Hf (val_var _ _ _) (Ht x Hx)). lia.
  - cbn [fits subst] in *. rewrite !andb_true_iff in Hf. destruct Hf as [[_ Hf1] Hf2]. apply typed_map in Ht as (l & -> & Ht). cbn [gen_size ev_size]. rewrite Hv.
    rewrite (all_opt_map _ (fun kv => (size E (subst args k) (fst kv), size E (subst args t) (snd kv)))); [cbn [obind]; rewrite size_map_map; reflexivity|].
    intros [a b] Hx. destruct (Ht _ Hx) as [H1 H2]. cbn [fst snd] in *. pose proof (vdepth_map_in l a b Hx) as [D1 D2].
    rewrite (IHk 0%nat ((x_k, RVal a) :: p) (EVar x_k) a Hf1 (val_var _ _ _) H1) by lia.
    rewrite (IHt 0%nat ((x_v, RVal b) :: p) (EVar x_v) b Hf2 (val_var _ _ _) H2) by lia. reflexivity.
  - cbn [fits subst] in *. rewrite !andb_true_iff in Hf. destruct Hf as [_ Hf]. apply typed_set in Ht as (l & -> & Ht). cbn [gen_size ev_size]. rewrite Hv.
    rewrite (all_opt_map _ (size E (subst args t))); [cbn [obind]; rewrite size_vec_map; reflexivity|].
    intros x Hx. pose proof (vdepths_in l x Hx). unfold vdepths in *. apply (IH 0%nat _ _ x Hf (val_var _ _ _) (Ht x Hx)). lia.
  - cbn [fits subst] in *. rewrite !andb_true_iff in Hf. destruct Hf as [_ Hf]. cbn [gen_size ev_size]. rewrite val_post_ref, Hv.
    apply typed_option in Ht as [->|(x & -> & Ht)]; [reflexivity|].
    rewrite (IH 0%nat ((x_v, RVal x) :: p) (EVar x_v) x Hf (val_var _ _ _) Ht) by exact Hd. reflexivity.
  - cbn [subst] in *. apply typed_nz in Ht as [Hnz Ht]. rewrite (size_core (TNonZero (subst args t)) (subst args t) v eq_refl).
    assert (Hv' : ev_val p (post EGet e) = Some v) by (rewrite val_post_get; exact Hv).
    pose proof (fun Hx => IH 0%nat p (post EGet e) v Hx Hv' Ht Hd) as Hi. clear IH.
    destruct t; cbn [fits] in Hf; try discriminate Hf; cbn [gen_size].
    1-4: cbn [ev_size]; rewrite Hv'; cbn [obind subst] in *; destruct v; try discriminate Ht; reflexivity.
    all: exact (Hi Hf).
  - cbn [fits subst] in *. apply andb_true_iff in Hf as [Hlen Hf]. apply typed_tuple in Ht as (l & -> & Ht).
    cbn [gen_size]. fold (tuple_len_ok ts) in Hlen. rewrite Hlen. fold (gen_size_elems bt e).
    destruct (seq_size (S d) p e l ts [] l IH Hf Hv eq_refl Ht Hd) as (ns & Hns & Hs). cbn [length] in Hns.
    rewrite (eval_sum sz p _ ns Hns), Hs. reflexivity.
  - cbn [subst] in *. apply typed_array in Ht as (l & -> & Ht). cbn [gen_size ev_size]. rewrite Hv.
    rewrite (all_opt_map _ (size E (subst args t))); [cbn [obind]; rewrite size_vec_map; reflexivity|].
    intros x Hx. pose proof (vdepths_in l x Hx). unfold vdepths in *. apply (IH 0%nat _ _ x Hf (val_var _ _ _) (Ht x Hx)). lia.
  - cbn [gen_size]. rewrite size_post, Hv. cbn [obind]. cbn [fits] in Hf. apply andb_true_iff in Hf as [_ Hf]. apply Hsz; [exact Hf|exact Ht|exact Hd].
  - discriminate Hf.
Qed.

Variable en : ty -> val -> option (list N).
Hypothesis Hen : forall t v, portable bt t = true -> typed E (subst args t) v = true -> (vdepth v <= n)%nat -> en t v = Some (encode E false (subst args t) v).
Definition write_goal (t : ty) : Prop := forall d p e v, fits bt d t = true -> ev_val p e = Some v -> writer p (EVar x_w) = Some tt ->
  typed E (subst args t) v = true -> (vdepth v <= n)%nat ->
  ev_write sz en p (snd (gen_encode bt false t e)) = Some (encode E false (subst args t) v).

Lemma seq_write d p e l0 ts : forall pre l, Forall write_goal ts -> forallb (fits bt d) ts = true -> ev_val p e = Some (VList l0) -> writer p (EVar x_w) = Some tt ->
  l0 = pre ++ l -> all2 (typed E) (map (subst args) ts) l = true -> (vdepths l <= n)%nat ->
  exists bs, all_opt (ev_write sz en p) (gen_encode_elems bt e (length pre) ts) = Some bs /\ concat bs = encode_seq (encode E) (map (subst args) ts) l.
Proof.
  induction ts as [|t ts IH]; intros pre l HF Hfit Hv Hw Hl Ht Hd; cbn [gen_encode_elems map].
  - destruct l; [|discriminate]. exists []. split; reflexivity.
  - destruct l as [|x l]; [discriminate|]. cbn [all2 forallb] in Ht, Hfit. apply andb_true_iff in Ht as [Ht1 Ht2]. apply andb_true_iff in Hfit as [Hf1 Hf2].
    inversion HF as [|? ? Hg HF']; subst. change (vdepths (x :: l)) with (Nat.max (vdepth x) (vdepths l)) in Hd.
    destruct (IH (pre ++ [x]) l HF' Hf2 Hv Hw) as (ns & Hns & Hs); [rewrite <- app_assoc; reflexivity|exact Ht2|lia|].
    rewrite app_length in Hns. cbn [length] in Hns. rewrite Nat.add_1_r in Hns.
    cbn [all_opt]. fold (gen_encode_elems bt e). rewrite Hns.
    rewrite (Hg d p (ERef (post (EProj (length pre)) e)) x Hf1); [|cbn [ev_val]; rewrite val_post_proj, Hv, nth_error_app2, Nat.sub_diag by lia; reflexivity|exact Hw|exact Ht1|lia].
    eexists. split; [reflexivity|]. cbn [encode_seq concat]. rewrite <- Hs. reflexivity.
Qed.

(** The closure [|w, x| { encode; }]. *)
Lemma elem_write t d p x v : write_goal t -> fits bt d t = true -> x <> x_w -> typed E (subst args t) v = true -> (vdepth v <= n)%nat ->
  ev_write sz en ((x, RVal v) :: (x_w, RWriter) :: p) (ESeq [snd (gen_encode bt false t (EVar x))]) = Some (encode E false (subst args t) v).
Proof.
  intros Hg Hf Hx Ht Hd. cbn [ev_write all_opt].
  rewrite (Hg d _ (EVar x) v Hf (val_var _ _ _)); [cbn [obind concat]; rewrite app_nil_r; reflexivity| |exact Ht|exact Hd].
  rewrite writer_skip by exact Hx. apply writer_w.
Qed.
Lemma elem_both t p l : write_goal t -> fits bt 0 t = true -> (forall x, In x l -> typed E (subst args t) x = true) -> (vdepths l <= n)%nat ->
  all_opt (fun v => let? n := ev_size sz ((x_v, RVal v) :: p) (gen_size bt t (EVar x_v)) in
                    let? b := ev_write sz en ((x_v, RVal v) :: (x_w, RWriter) :: p) (ESeq [snd (gen_encode bt false t (EVar x_v))]) in Some (n, b)) l
  = Some (map (fun v => (size E (subst args t) v, encode E false (subst args t) v)) l).
Proof.
  intros Hg Hf Ht Hd. apply all_opt_map. intros x Hx. pose proof (vdepths_in l x Hx) as Hdx.
  rewrite (eval_size t 0%nat _ _ x Hf (val_var _ _ _) (Ht x Hx)) by lia. cbn [obind].
  rewrite (elem_write t 0 p x_v x Hg Hf v_not_w (Ht x Hx)) by lia. reflexivity.
Qed.

Theorem eval_write t : write_goal t.
Proof.
  induction t as [t Hl|t IH|k t IHk IHt|t IH|t IH|t IH|ts IH|t len IH|i ts IH|t IH] using ty_ind'; intros d p e v Hf Hv Hw Ht Hd.
  - destruct t; try discriminate Hl; cbn [gen_encode snd].
    14: { rewrite write_post, Hw, Hv. cbn [obind]. apply Hen; [reflexivity|exact Ht|exact Hd]. }
    all: cbn [ev_write ev_val]; rewrite Hw, Hv; cbn [obind]; cbn [subst] in Ht; destruct v; try discriminate Ht; reflexivity.
  - cbn [subst] in *. apply typed_vec in Ht as (l & -> & Ht). cbn [gen_encode snd]. pose proof (elem_both t p l IH Hf Ht Hd) as H.
    remember (ESeq [snd (gen_encode bt false t (EVar x_v))]) as body. cbn [ev_write]. rewrite Hw, Hv. cbn [obind]. rewrite H. cbn [obind]. rewrite encode_vec_map. reflexivity.
  - cbn [fits subst] in *. rewrite !andb_true_iff in Hf. destruct Hf as [[_ Hf1] Hf2]. apply typed_map in Ht as (l & -> & Ht). cbn [gen_encode snd].
    assert (Hk : forall a, typed E (subst args k) a = true -> (vdepth a <= n)%nat ->
       ev_write sz en ((x_k, RVal a) :: (x_w, RWriter) :: p) (ESeq [snd (gen_encode bt false k (EVar x_k))]) = Some (encode E false (subst args k) a))
      by (intros a; exact (elem_write k 0 p x_k a IHk Hf1 k_not_w)).
    assert (Hb : forall a, typed E (subst args t) a = true -> (vdepth a <= n)%nat ->
       ev_write sz en ((x_v, RVal a) :: (x_w, RWriter) :: p) (ESeq [snd (gen_encode bt false t (EVar x_v))]) = Some (encode E false (subst args t) a))
      by (intros a; exact (elem_write t 0 p x_v a IHt Hf2 v_not_w)).
    remember (ESeq [snd (gen_encode bt false k (EVar x_k))]) as bk. remember (ESeq [snd (gen_encode bt false t (EVar x_v))]) as bv.
    cbn [ev_write]. rewrite Hw, Hv. cbn [obind].
    rewrite (all_opt_map _ (fun kv => ((size E (subst args k) (fst kv), encode E false (subst args k) (fst kv)),
                                       (size E (subst args t) (snd kv), encode E false (subst args t) (snd kv))))).
    + cbn [obind]. rewrite encode_map_map. reflexivity.
    + intros [a b] Hx. destruct (Ht _ Hx) as [H1 H2]. cbn [fst snd] in *. pose proof (vdepth_map_in l a b Hx) as [D1 D2].
      rewrite (eval_size k 0%nat ((x_k, RVal a) :: p) (EVar x_k) a Hf1 (val_var _ _ _) H1) by lia.
      rewrite (eval_size t 0%nat ((x_v, RVal b) :: p) (EVar x_v) b Hf2 (val_var _ _ _) H2) by lia. cbn [obind].
      rewrite (Hk a H1) by lia. rewrite (Hb b H2) by lia. reflexivity.
  - cbn [fits subst] in *. rewrite !andb_true_iff in Hf. destruct Hf as [_ Hf]. apply typed_set in Ht as (l & -> & Ht). cbn [gen_encode snd]. pose proof (elem_both t p l IH Hf Ht Hd) as H.
    remember (ESeq [snd (gen_encode bt false t (EVar x_v))]) as body. cbn [ev_write]. rewrite Hw, Hv. cbn [obind]. rewrite H. cbn [obind]. rewrite encode_vec_map. reflexivity.
  - cbn [fits subst] in *. rewrite !andb_true_iff in Hf. destruct Hf as [_ Hf]. cbn [gen_encode snd].
    pose proof (fun x => elem_write t 0 p x_v x IH Hf v_not_w) as H. remember (ESeq [snd (gen_encode bt false t (EVar x_v))]) as body.
    cbn [ev_write]. rewrite Hw, Hv. cbn [obind].
    apply typed_option in Ht as [->|(x & -> & Ht)]; [reflexivity|]. rewrite (H x Ht) by exact Hd. reflexivity.
  - cbn [subst] in *. apply typed_nz in Ht as [Hnz Ht]. rewrite (encode_core (TNonZero (subst args t)) (subst args t) v eq_refl).
    assert (Hv' : ev_val p (post EGet e) = Some v) by (rewrite val_post_get; exact Hv).
    pose proof (fun Hx => IH 0%nat p (post EGet e) v Hx Hv' Hw Ht Hd) as Hi. clear IH.
    destruct t; cbn [fits] in Hf; try discriminate Hf; cbn [gen_encode].
    1-4: cbn [snd ev_write]; rewrite Hw, Hv'; cbn [obind subst] in *; destruct v; try discriminate Ht; reflexivity.
    all: exact (Hi Hf).
  - cbn [fits subst] in *. apply andb_true_iff in Hf as [Hlen Hf]. apply typed_tuple in Ht as (l & -> & Ht).
    cbn [gen_encode snd]. fold (tuple_len_ok ts) in Hlen. rewrite Hlen. cbn zeta. fold (gen_encode_elems bt e).
    destruct (seq_write (S d) p e l ts [] l IH Hf Hv Hw eq_refl Ht Hd) as (bs & Hbs & Hs). cbn [length] in Hbs.
    cbn [ev_write]. rewrite Hbs. cbn [obind]. rewrite Hs. reflexivity.
  - cbn [subst] in *. apply typed_array in Ht as (l & -> & Ht). cbn [gen_encode snd]. pose proof (elem_both t p l IH Hf Ht Hd) as H.
    remember (ESeq [snd (gen_encode bt false t (EVar x_v))]) as body. cbn [ev_write]. rewrite Hw, Hv. cbn [obind]. rewrite H. cbn [obind]. rewrite encode_vec_map. reflexivity.
  - cbn [gen_encode snd]. rewrite write_post, Hw, Hv. cbn [obind]. cbn [fits] in Hf. apply andb_true_iff in Hf as [_ Hf]. apply Hen; [exact Hf|exact Ht|exact Hd].
  - discriminate Hf.
Qed.

(** The type of a field. *)
Lemma encode_root t v : is_tuple t = false -> encode E true t v = encode E false t v.
Proof. intros H. destruct v; cbn [encode]; rewrite ?H; reflexivity. Qed.
Lemma subst_tuple t : fits bt 0 t = true -> is_tuple (subst args t) = is_tuple t.
Proof. destruct t; try reflexivity. intros _. cbn [subst]. destruct (nth_error args i); reflexivity. Qed.
Theorem eval_root t p x v : fits bt 0 t = true -> x <> x_w -> ev_val p (EVar x) = Some v -> writer p (EVar x_w) = Some tt ->
  typed E (subst args t) v = true -> (vdepth v <= n)%nat ->
  ev_write sz en p (snd (gen_encode bt true t (EVar x))) = Some (encode E true (subst args t) v).
Proof.
  intros Hf Hx Hv Hw Ht Hd. destruct (is_tuple t) eqn:Hi.
  - destruct t; try discriminate Hi. cbn [fits subst] in *. apply andb_true_iff in Hf as [Hlen Hf]. apply typed_tuple in Ht as (l & -> & Ht).
    cbn [gen_encode snd]. fold (tuple_len_ok ts) in Hlen. rewrite Hlen. cbn zeta. fold (gen_encode_elems bt (EVar x)). fold (gen_size_elems bt (EVar x)).
    assert (Hv' : ev_val ((x_w, RWriter) :: p) (EVar x) = Some (VList l)) by (cbn [ev_val]; rewrite find_var_neq by exact Hx; exact Hv).
    destruct (seq_write 1 ((x_w, RWriter) :: p) (EVar x) l ts [] l (proj2 (Forall_forall _ _) (fun t _ => eval_write t)) Hf Hv' (writer_w p) eq_refl Ht Hd) as (bs & Hbs & Hs).
    destruct (seq_size 1 p (EVar x) l ts [] l (proj2 (Forall_forall _ _) (fun t _ => eval_size t)) Hf Hv eq_refl Ht Hd) as (ns & Hns & Hsn).
    cbn [length] in *. pose proof (eval_sum sz p _ ns Hns) as Hsum. remember (sum_of (gen_size_elems bt (EVar x) 0 ts)) as s.
    cbn [ev_write]. rewrite Hw. cbn [obind]. rewrite Hsum. cbn [obind]. rewrite Hbs. cbn [obind]. rewrite Hs, Hsn. reflexivity.
  - rewrite encode_root by (rewrite subst_tuple by exact Hf; exact Hi). rewrite <- (eval_write t 0%nat p (EVar x) v Hf Hv Hw Ht Hd).
    destruct t; try discriminate Hi; reflexivity.
Qed.
End Exprs.

(** * Whole functions *)
Hypothesis Hfits : Forall (fits_def bt) E.

Lemma fits_body i d : nth_error E i = Some d -> forall fs, In fs (bodies d) -> fits_fields bt fs.
Proof.
  intros Hi fs Hin. rewrite Forall_forall in Hfits. specialize (Hfits d (nth_error_In _ _ Hi)).
  destruct d as [fs'|vs]; cbn [bodies fits_def] in *; [destruct Hin as [<-|[]]; exact Hfits|].
  apply in_map_iff in Hin as (v & <- & Hv). exact (Hfits v Hv).
Qed.

Section Body.
Variable args : list ty.
Variable n : nat.
Variable sz : ty -> val -> option N.
Hypothesis Hsz : forall t v, portable bt t = true -> typed E (subst args t) v = true -> (vdepth v <= n)%nat -> sz t v = Some (size E (subst args t) v).

(** The variables of the pattern. *)
Definition binds (p : renv) (l : list field) (vs : list val) : Prop :=
  Forall2 (fun f v => ev_val p (EVar (f_name f)) = Some v) l vs.

Lemma binds_combine l vs q : NoDup (map f_name l) -> length l = length vs ->
  binds (combine (map f_name l) (map RVal vs) ++ q) l vs.
Proof.
  intros Hnd Hl. unfold binds.
  assert (H : forall pre l' vs', length l' = length vs' -> (forall x, In x (map f_name l') -> ~ In x (map fst pre)) -> NoDup (map f_name l') ->
     Forall2 (fun f v => ev_val (pre ++ combine (map f_name l') (map RVal vs') ++ q) (EVar (f_name f)) = Some v) l' vs').
  { intros pre l'. revert pre. induction l' as [|f l' IH]; intros pre [|v vs'] Hlen Hpre Hnd'; try discriminate Hlen; constructor.
    - cbn [ev_val map combine app]. rewrite find_var_app; [rewrite find_var_eq; reflexivity|]. apply Hpre. left. reflexivity.
    - cbn [map] in Hnd'. inversion Hnd' as [|? ? Hf Hnd'']; subst. specialize (IH (pre ++ [(f_name f, RVal v)]) vs').
      cbn [map combine app]. rewrite <- app_assoc in IH. apply IH; [cbn in Hlen; lia| |exact Hnd''].
      intros x Hx Hin. rewrite map_app, in_app_iff in Hin. destruct Hin as [Hin|[E'|[]]]; [exact (Hpre x (or_intror Hx) Hin)|].
      cbn [fst] in E'. subst x. exact (Hf Hx). }
  apply (H [] l vs Hl); [|exact Hnd]. intros x _ [].
Qed.

Lemma all2_length ts l : all2 (typed E) ts l = true -> length ts = length l.
Proof.
  revert l. induction ts as [|t ts IH]; intros [|v l] H; try discriminate H; [reflexivity|]. cbn [all2] in H. apply andb_true_iff in H as [_ H].
  cbn [length]. rewrite (IH l H). reflexivity.
Qed.

Definition fld_size (f : field) (v : val) : N :=
  match f_ty f with
  | TOption t => match v with VSome x => size_field_option (f_id f) (size E t) (Some x) | _ => size_field_option (f_id f) (size E t) None end
  | t => size_field (f_id f) (size E t v)
  end.

Lemma eval_size_field p f v : fits bt 0 (f_ty f) = true -> ev_val p (EVar (f_name f)) = Some v -> typed E (subst args (f_ty f)) v = true ->
  (vdepth v <= n)%nat -> ev_size sz p (gen_size_field bt f) = Some (fld_size (subst_field args f) v).
Proof.
  intros Hf Hv Ht Hd. pose proof (eval_size args n sz Hsz (f_ty f) 0%nat p (EVar (f_name f)) v Hf Hv Ht Hd) as H.
  unfold gen_size_field, fld_size. cbn [subst_field f_id f_ty f_name].
  destruct (f_ty f) eqn:Et; try (cbn [ev_size]; rewrite H; reflexivity).
  - clear H. cbn [ev_size ev_val]. cbn [ev_val] in Hv. rewrite Hv. cbn [subst] in *. cbn [fits Nat.eqb andb] in Hf.
    apply typed_option in Ht as [->|(x & -> & Ht)]; [reflexivity|].
    rewrite (eval_size args n sz Hsz t 0%nat _ _ x Hf (val_var _ _ _) Ht) by exact Hd. reflexivity.
  - cbn [ev_size]. rewrite H. cbn [subst obind]. destruct (nth_error args i); reflexivity.
Qed.

Lemma eval_size_list p l vs : binds p l vs -> (forall f, In f l -> fits bt 0 (f_ty f) = true) ->
  all2 (typed E) (map f_ty (map (subst_field args) l)) vs = true -> (vdepths vs <= n)%nat ->
  exists ns, all_opt (ev_size sz p) (map (gen_size_field bt) l) = Some ns /\ sumN ns = size_fields (size E) (map (subst_field args) l) vs.
Proof.
  intros Hb. induction Hb as [|f v l vs Hv Hb IH]; intros Hf Ht Hd; [exists []; split; reflexivity|].
  cbn [map all2] in Ht. apply andb_true_iff in Ht as [Ht1 Ht2]. change (vdepths (v :: vs)) with (Nat.max (vdepth v) (vdepths vs)) in Hd.
  destruct IH as (ns & Hns & Hs); [intros f' Hin; apply Hf; right; exact Hin|exact Ht2|lia|].
  cbn [map all_opt]. rewrite Hns, (eval_size_field p f v (Hf f (or_introl eq_refl)) Hv Ht1) by lia.
  eexists. split; [reflexivity|]. unfold sumN in *. cbn [fold_right]. rewrite Hs. reflexivity.
Qed.

Lemma sum_fold l k : fold_right N.add k l = sumN l + k.
Proof. unfold sumN. induction l as [|a l IH]; cbn [fold_right]; [lia|]. rewrite IH. lia. Qed.
Lemma sums_size p l vs : binds p l vs -> (forall f, In f l -> fits bt 0 (f_ty f) = true) ->
  all2 (typed E) (map f_ty (map (subst_field args) l)) vs = true -> (vdepths vs <= n)%nat ->
  ev_size sz p (ESum (map (gen_size_field bt) l ++ [EEndSize])) = Some (size_fields (size E) (map (subst_field args) l) vs + END_MARKER_SIZE)
  /\ forall id, ev_size sz p (ESum (ECall RSizeVariantId [EInt id] :: map (gen_size_field bt) l ++ [EEndSize]))
     = Some (size_variant_id id + (size_fields (size E) (map (subst_field args) l) vs + END_MARKER_SIZE)).
Proof.
  intros Hb Hfit Ht Hd. destruct (eval_size_list p l vs Hb Hfit Ht Hd) as (ns & Hns & Hs). rewrite <- Hs.
  assert (Hall : all_opt (ev_size sz p) (map (gen_size_field bt) l ++ [EEndSize]) = Some (ns ++ [END_MARKER_SIZE])) by (rewrite all_opt_app, Hns; reflexivity).
  assert (Hsum : sumN (ns ++ [END_MARKER_SIZE]) = sumN ns + END_MARKER_SIZE) by (unfold sumN at 1; rewrite fold_right_app, sum_fold; cbn [fold_right]; lia).
  remember (map (gen_size_field bt) l ++ [EEndSize]) as es eqn:Ees. split.
  - cbn [ev_size]. rewrite Hall. cbn [obind]. rewrite Hsum. reflexivity.
  - intros id. change (ev_size sz p (ESum (ECall RSizeVariantId [EInt id] :: es)))
      with (obind (all_opt (ev_size sz p) (ECall RSizeVariantId [EInt id] :: es)) (fun ns => Some (sumN ns))).
    cbn [all_opt ev_size]. rewrite Hall. cbn [obind]. rewrite <- Hsum. reflexivity.
Qed.
Lemma body_size fs vs : fits_fields bt fs -> all2 (typed E) (map f_ty (fs_list (inst args fs))) vs = true -> (vdepths vs <= n)%nat ->
  (ev_size sz (bind_names (Arm (names_of_fields fs) (gen_size_struct bt fs)) vs) (gen_size_struct bt fs) = Some (size_body (size E) (inst args fs) vs))
  /\ (forall id, ev_size sz (bind_names (Arm (names_of_fields fs) (gen_size_variant bt (Variant id fs))) vs) (gen_size_variant bt (Variant id fs))
       = Some (size_variant_id id + size_body (size E) (inst args fs) vs)).
Proof.
  intros Hff Ht Hd. unfold gen_size_struct, gen_size_variant, size_body, bind_names, names_of_fields. cbn [v_fields v_id a_names inst fs_kind fs_list] in *.
  destruct (fs_kind fs) eqn:Hk.
  3: { split; [reflexivity|]. intros id. cbn [ev_size]. rewrite N.add_0_r. reflexivity. }
  all: destruct Hff as (Hnd & _ & Hfit); [rewrite Hk; discriminate|].
  all: assert (Hb : binds (combine (map f_name (fs_list fs)) (map RVal vs)) (fs_list fs) vs)
        by (rewrite <- (app_nil_r (combine _ _)); apply binds_combine; [exact Hnd|apply all2_length in Ht; rewrite !map_length in Ht; exact Ht]).
  all: exact (sums_size _ _ _ Hb Hfit Ht Hd).
Qed.

Variable en : ty -> val -> option (list N).
Hypothesis Hen : forall t v, portable bt t = true -> typed E (subst args t) v = true -> (vdepth v <= n)%nat -> en t v = Some (encode E false (subst args t) v).

Definition fld_write (f : field) (v : val) : list N :=
  match f_ty f with
  | TOption t =>
      match v with
      | VSome x => encode_field_option (FieldId (f_id f) (fenc_of t)) (encode E true t) (Some x)
      | _ => encode_field_option (FieldId (f_id f) (fenc_of t)) (encode E true t) None
      end
  | t => encode_field (FieldId (f_id f) (fenc_of t)) (encode E true t v)
  end.

Lemma eval_write_field p f v : fits bt 0 (f_ty f) = true -> f_name f <> x_w -> ev_val p (EVar (f_name f)) = Some v -> writer p (EVar x_w) = Some tt ->
  typed E (subst args (f_ty f)) v = true -> (vdepth v <= n)%nat ->
  ev_write sz en p (gen_encode_field bt f) = Some (fld_write (subst_field args f) v).
Proof.
  intros Hf Hx Hv Hw Ht Hd.
  assert (Hd1 : match f_ty f with TOption _ => True | t =>
      ev_write sz en p (let (enc, e) := gen_encode bt true t (EVar (f_name f)) in
         ECall REncodeField [EVar x_w; EFieldId (f_id f) enc; EClos [x_w] (ESeq [e])])
      = Some (encode_field (FieldId (f_id f) (fenc_of (subst args t))) (encode E true (subst args t) v)) end).
  { assert (G : ev_write sz en p (let (enc, e) := gen_encode bt true (f_ty f) (EVar (f_name f)) in
         ECall REncodeField [EVar x_w; EFieldId (f_id f) enc; EClos [x_w] (ESeq [e])])
      = Some (encode_field (FieldId (f_id f) (fenc_of (subst args (f_ty f)))) (encode E true (subst args (f_ty f)) v))).
    { pose proof (fenc_gen true (f_ty f) (EVar (f_name f)) Hf) as Hc.
      assert (He : ev_write sz en ((x_w, RWriter) :: p) (snd (gen_encode bt true (f_ty f) (EVar (f_name f)))) = Some (encode E true (subst args (f_ty f)) v)).
      { apply (eval_root args n sz Hsz en Hen (f_ty f) _ (f_name f) v Hf Hx); [cbn [ev_val]; rewrite find_var_neq by exact Hx; exact Hv|apply writer_w|exact Ht|exact Hd]. }
      destruct (gen_encode bt true (f_ty f) (EVar (f_name f))) as [enc e]. cbn [fst snd] in *. subst enc.
      cbn [ev_write all_opt]. rewrite Hw. cbn [obind]. rewrite He. cbn [obind concat]. rewrite app_nil_r, (fenc_subst args (f_ty f) Hf). reflexivity. }
    destruct (f_ty f); try exact G; exact I. }
  unfold gen_encode_field, fld_write. cbn [subst_field f_id f_ty f_name].
  destruct (f_ty f) eqn:Et; try exact Hd1.
  - clear Hd1. cbn [subst] in *. cbn [fits Nat.eqb andb] in Hf. pose proof (fenc_gen true t (EVar x_v) Hf) as Hc.
    assert (He : forall x, typed E (subst args t) x = true -> (vdepth x <= n)%nat ->
       ev_write sz en ((x_v, RVal x) :: (x_w, RWriter) :: p) (snd (gen_encode bt true t (EVar x_v))) = Some (encode E true (subst args t) x)).
    { intros x Hxt Hxd. apply (eval_root args n sz Hsz en Hen t _ x_v x Hf v_not_w (val_var _ _ _)); [|exact Hxt|exact Hxd].
      rewrite writer_skip by exact v_not_w. apply writer_w. }
    destruct (gen_encode bt true t (EVar x_v)) as [enc e]. cbn [fst snd] in *. subst enc.
    cbn [ev_write all_opt]. rewrite Hw. cbn [obind]. rewrite Hv.
    apply typed_option in Ht as [->|(x & -> & Ht)]; [reflexivity|]. rewrite (He x Ht Hd). cbn [obind concat]. rewrite app_nil_r, (fenc_subst args t Hf). reflexivity.
  - rewrite Hd1. cbn [subst]. destruct (nth_error args i); reflexivity.
Qed.

Lemma eval_write_list p l vs : binds p l vs -> writer p (EVar x_w) = Some tt -> (forall f, In f l -> f_name f <> x_w) ->
  (forall f, In f l -> fits bt 0 (f_ty f) = true) ->
  all2 (typed E) (map f_ty (map (subst_field args) l)) vs = true -> (vdepths vs <= n)%nat ->
  exists bs, all_opt (ev_write sz en p) (map (gen_encode_field bt) l) = Some bs /\ concat bs = encode_fields (encode E) (map (subst_field args) l) vs.
Proof.
  intros Hb Hw. induction Hb as [|f v l vs Hv Hb IH]; intros Hn Hf Ht Hd; [exists []; split; reflexivity|].
  cbn [map all2] in Ht. apply andb_true_iff in Ht as [Ht1 Ht2]. change (vdepths (v :: vs)) with (Nat.max (vdepth v) (vdepths vs)) in Hd.
  destruct IH as (bs & Hbs & Hs); [intros f' Hin; apply Hn; right; exact Hin|intros f' Hin; apply Hf; right; exact Hin|exact Ht2|lia|].
  cbn [map all_opt]. rewrite Hbs, (eval_write_field p f v (Hf f (or_introl eq_refl)) (Hn f (or_introl eq_refl)) Hv Hw Ht1) by lia.
  eexists. split; [reflexivity|]. cbn [concat]. rewrite Hs. reflexivity.
Qed.

Lemma writes_all p l vs : binds p l vs -> writer p (EVar x_w) = Some tt -> (forall f, In f l -> f_name f <> x_w) ->
  (forall f, In f l -> fits bt 0 (f_ty f) = true) ->
  all2 (typed E) (map f_ty (map (subst_field args) l)) vs = true -> (vdepths vs <= n)%nat ->
  ev_write sz en p (ESeq (map (gen_encode_field bt) l ++ [ECall (REncode (ScU W32)) [EVar x_w; EEndMarker]]))
    = Some (encode_fields (encode E) (map (subst_field args) l) vs ++ encode_u32 END_MARKER)
  /\ forall id, ev_write sz en p (ESeq (ECall REncodeVariantId [EVar x_w; EVariantId id]
                  :: map (gen_encode_field bt) l ++ [ECall (REncode (ScU W32)) [EVar x_w; EEndMarker]]))
     = Some (encode_variant_id id ++ encode_fields (encode E) (map (subst_field args) l) vs ++ encode_u32 END_MARKER).
Proof.
  intros Hb Hw Hx Hfit Ht Hd. destruct (eval_write_list _ _ _ Hb Hw Hx Hfit Ht Hd) as (bs & Hbs & Hs).
  assert (Hend : ev_write sz en p (ECall (REncode (ScU W32)) [EVar x_w; EEndMarker]) = Some (encode_u32 END_MARKER)) by (cbn [ev_write]; rewrite Hw; reflexivity).
  assert (Hall : all_opt (ev_write sz en p) (map (gen_encode_field bt) l ++ [ECall (REncode (ScU W32)) [EVar x_w; EEndMarker]])
          = Some (bs ++ [encode_u32 END_MARKER])) by (rewrite all_opt_app, Hbs; cbn [all_opt]; rewrite Hend; reflexivity).
  assert (Hc : concat (bs ++ [encode_u32 END_MARKER]) = encode_fields (encode E) (map (subst_field args) l) vs ++ encode_u32 END_MARKER)
        by (rewrite concat_app, Hs; cbn [concat]; rewrite app_nil_r; reflexivity).
  remember (map (gen_encode_field bt) l ++ [ECall (REncode (ScU W32)) [EVar x_w; EEndMarker]]) as body eqn:Eb.
  split; [cbn [ev_write]; rewrite Hall; cbn [obind]; rewrite Hc; reflexivity|].
  intros id. assert (Hid : ev_write sz en p (ECall REncodeVariantId [EVar x_w; EVariantId id]) = Some (encode_variant_id id)) by (cbn [ev_write]; rewrite Hw; reflexivity).
  change (ev_write sz en p (ESeq (ECall REncodeVariantId [EVar x_w; EVariantId id] :: body)))
         with (obind (all_opt (ev_write sz en p) (ECall REncodeVariantId [EVar x_w; EVariantId id] :: body)) (fun bs => Some (concat bs))).
  cbn [all_opt]. rewrite Hid, Hall. cbn [obind concat]. rewrite Hc. reflexivity.
Qed.
Lemma body_write fs vs : fits_fields bt fs -> all2 (typed E) (map f_ty (fs_list (inst args fs))) vs = true -> (vdepths vs <= n)%nat ->
  (ev_write sz en (bind_names (Arm (names_of_fields fs) (gen_encode_struct bt fs)) vs ++ [(x_w, RWriter)]) (gen_encode_struct bt fs)
     = Some (encode_body (encode E) (inst args fs) vs))
  /\ (forall id, ev_write sz en (bind_names (Arm (names_of_fields fs) (gen_encode_variant bt (Variant id fs))) vs ++ [(x_w, RWriter)])
         (gen_encode_variant bt (Variant id fs))
       = Some (encode_variant_id id ++ encode_body (encode E) (inst args fs) vs)).
Proof.
  intros Hff Ht Hd. unfold gen_encode_struct, gen_encode_variant, gen_encode_fields, encode_body, bind_names, names_of_fields. cbn [v_fields v_id a_names inst fs_kind fs_list] in *.
  destruct (fs_kind fs) eqn:Hk.
  3: { split; reflexivity. }
  all: destruct Hff as (Hnd & Hres & Hfit); [rewrite Hk; discriminate|].
  all: assert (Hlen : length (fs_list fs) = length vs) by (apply all2_length in Ht; rewrite !map_length in Ht; exact Ht).
  all: pose proof (binds_combine (fs_list fs) vs [(x_w, RWriter)] Hnd Hlen) as Hb.
  all: assert (Hx : forall f, In f (fs_list fs) -> f_name f <> x_w) by (intros f Hf E'; apply (Hres f Hf); left; symmetry; exact E').
  all: assert (Hw : writer (combine (map f_name (fs_list fs)) (map RVal vs) ++ [(x_w, RWriter)]) (EVar x_w) = Some tt).
  1,3: cbn [writer]; rewrite find_var_app; [rewrite find_var_eq; reflexivity|]; intros Hin; apply in_map_iff in Hin as ([y u] & Ey & Hin); cbn [fst] in Ey; subst y;
       apply in_combine_l in Hin; apply in_map_iff in Hin as (f & Ef & Hin); exact (Hx f Hin Ef).
  all: exact (writes_all _ _ _ Hb Hw Hx Hfit Ht Hd).
Qed.
End Body.

Theorem run_size_ok n : forall i args v, forallb (passable bt) args = true -> typed E (TExt i args) v = true -> (vdepth v <= n)%nat ->
  run_size bt E n i args v = Some (size E (TExt i args) v).
Proof.
  induction n as [|n IH]; intros i args v Ha Ht Hd.
  - exfalso. destruct v; cbn [typed core head_ok andb] in Ht; try discriminate Ht; cbn [vdepth] in Hd; lia.
  - assert (Hsz : forall t v, portable bt t = true -> typed E (subst args t) v = true -> (vdepth v <= n)%nat ->
       trait_size bt (run_size bt E n) (subst args t) v = Some (size E (subst args t) v)).
    { intros t x Hp Hxt Hxd. apply (trait_size_ok n (run_size bt E n) IH); [apply passable_subst; assumption|exact Hxt|exact Hxd]. }
    cbn [run_size]. destruct v; cbn [typed core head_ok andb] in Ht; try discriminate Ht.
    + destruct (nth_error E i) as [[fs|vars]|] eqn:Ei; try discriminate Ht. cbn [obind select gen_size_def nth_error option_map a_body].
      assert (Hd' : (vdepths vs <= n)%nat) by (cbn [vdepth] in Hd; unfold vdepths; cbn [vdepth]; lia).
      destruct (body_size args n (fun t => trait_size bt (run_size bt E n) (subst args t)) Hsz fs vs (fits_body i _ Ei fs (or_introl eq_refl)) Ht Hd') as [H _].
      rewrite H. cbn [size core]. rewrite Ei. reflexivity.
    + destruct (nth_error E i) as [[fs|vars]|] eqn:Ei; try discriminate Ht. destruct (nth_error vars idx) as [var|] eqn:Ev; [|discriminate Ht].
      cbn [obind select gen_size_def]. rewrite (map_nth_error _ _ _ Ev). cbn [option_map obind a_body].
      assert (Hd' : (vdepths vs <= n)%nat) by (cbn [vdepth] in Hd; unfold vdepths; cbn [vdepth]; lia).
      assert (Hin : In (v_fields var) (bodies (DEnum vars))) by (cbn [bodies]; apply in_map; apply (nth_error_In _ _ Ev)).
      destruct (body_size args n (fun t => trait_size bt (run_size bt E n) (subst args t)) Hsz (v_fields var) vs (fits_body i _ Ei _ Hin) Ht Hd') as [_ H]. specialize (H (v_id var)).
      destruct var as [id fs]. cbn [v_id v_fields] in *. rewrite H. cbn [size core]. rewrite Ei, Ev. reflexivity.
Qed.

Theorem run_encode_ok n : forall i args v, forallb (passable bt) args = true -> typed E (TExt i args) v = true -> (vdepth v <= n)%nat ->
  run_encode bt E n i args v = Some (encode E false (TExt i args) v).
Proof.
  induction n as [|n IH]; intros i args v Ha Ht Hd.
  - exfalso. destruct v; cbn [typed core head_ok andb] in Ht; try discriminate Ht; cbn [vdepth] in Hd; lia.
  - assert (Hsz : forall t v, portable bt t = true -> typed E (subst args t) v = true -> (vdepth v <= n)%nat ->
       trait_size bt (run_size bt E n) (subst args t) v = Some (size E (subst args t) v)).
    { intros t x Hp Hxt Hxd. apply (trait_size_ok n (run_size bt E n) (run_size_ok n)); [apply passable_subst; assumption|exact Hxt|exact Hxd]. }
    assert (Hen : forall t v, portable bt t = true -> typed E (subst args t) v = true -> (vdepth v <= n)%nat ->
       trait_encode bt (run_size bt E n) (run_encode bt E n) (subst args t) v = Some (encode E false (subst args t) v)).
    { intros t x Hp Hxt Hxd. apply (trait_encode_ok n _ (run_size_ok n) _ IH); [apply passable_subst; assumption|exact Hxt|exact Hxd]. }
    cbn [run_encode]. destruct v; cbn [typed core head_ok andb] in Ht; try discriminate Ht.
    + destruct (nth_error E i) as [[fs|vars]|] eqn:Ei; try discriminate Ht. cbn [obind select gen_encode_def nth_error option_map a_body].
      assert (Hd' : (vdepths vs <= n)%nat) by (cbn [vdepth] in Hd; unfold vdepths; cbn [vdepth]; lia).
      destruct (body_write args n (fun t => trait_size bt (run_size bt E n) (subst args t)) Hsz (fun t => trait_encode bt (run_size bt E n) (run_encode bt E n) (subst args t)) Hen fs vs (fits_body i _ Ei fs (or_introl eq_refl)) Ht Hd') as [H _].
      rewrite H. cbn [encode core]. rewrite Ei. reflexivity.
    + destruct (nth_error E i) as [[fs|vars]|] eqn:Ei; try discriminate Ht. destruct (nth_error vars idx) as [var|] eqn:Ev; [|discriminate Ht].
      cbn [obind select gen_encode_def]. rewrite (map_nth_error _ _ _ Ev). cbn [option_map obind a_body].
      assert (Hd' : (vdepths vs <= n)%nat) by (cbn [vdepth] in Hd; unfold vdepths; cbn [vdepth]; lia).
      assert (Hin : In (v_fields var) (bodies (DEnum vars))) by (cbn [bodies]; apply in_map; apply (nth_error_In _ _ Ev)).
      destruct (body_write args n (fun t => trait_size bt (run_size bt E n) (subst args t)) Hsz (fun t => trait_encode bt (run_size bt E n) (run_encode bt E n) (subst args t)) Hen (v_fields var) vs (fits_body i _ Ei _ Hin) Ht Hd') as [_ H]. specialize (H (v_id var)).
      destruct var as [id fs]. cbn [v_id v_fields] in *. rewrite H. cbn [encode core]. rewrite Ei, Ev. reflexivity.
Qed.
End Run.
