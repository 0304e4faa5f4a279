(** Running the generated [decode] functions (RustEval.v) computes the functions of Codec.v. *)
From Verif Require Import Base Varint Wire Codec CodecSpec Compiler SchemaSpec RustCode RustEval RustTyping RustSpec Safety RustTypingProofs RustItems RustEvalProofs.
Local Open Scope N_scope.

(** Decoders that do the same. *)
Definition same {A} (d d' : dec A) : Prop := forall r, d r = d' r.

Lemma dmap_same {A B} (f : A -> B) d d' : same d d' -> same (dmap f d) (dmap f d').
Proof. intros H r. unfold dmap. rewrite H. reflexivity. Qed.
Lemma dmap_ext {A B} (f g : A -> B) d : (forall a, f a = g a) -> same (dmap f d) (dmap g d).
Proof. intros H r. unfold dmap. destruct (d r) as [[a r']| | |]; cbn [bind]; [rewrite H|..]; reflexivity. Qed.
Lemma dloop_same {T} (d d' : dec T) : same d d' -> forall n r, dloop d n r = dloop d' n r.
Proof.
  intros H n. induction n as [|n IH]; intros r; destruct r as [|b r]; cbn [dloop]; try reflexivity.
  rewrite H. destruct (d' (b :: r)) as [[x r']| | |]; cbn [bind]; try reflexivity. rewrite IH. reflexivity.
Qed.
Lemma decode_elems_same {T} (d d' : dec T) : same d d' -> forall r n, decode_elems d r n = decode_elems d' r n.
Proof. intros H r n. unfold decode_elems, ensure_size. rewrite (dloop_same _ _ H). reflexivity. Qed.
Lemma decode_vec_same {T} (d d' : dec T) : same d d' -> same (decode_vec d) (decode_vec d').
Proof.
  intros H r. unfold decode_vec. destruct (decode_u64 r) as [[n r1]| | |]; cbn [bind]; try reflexivity. apply decode_elems_same. exact H.
Qed.
Lemma dpair_same {K V} (dk dk' : dec K) (dv dv' : dec V) : same dk dk' -> same dv dv' -> same (dpair dk dv) (dpair dk' dv').
Proof.
  intros Hk Hv r. unfold dpair. rewrite Hk. destruct (dk' r) as [[k r1]| | |]; cbn [bind]; try reflexivity. rewrite Hv. reflexivity.
Qed.
Lemma decode_map_same {K V} eqb (dk dk' : dec K) (dv dv' : dec V) : same dk dk' -> same dv dv' ->
  same (decode_hash_map eqb dk dv) (decode_hash_map eqb dk' dv').
Proof. intros Hk Hv r. unfold decode_hash_map. rewrite (decode_vec_same _ _ (dpair_same _ _ _ _ Hk Hv)). reflexivity. Qed.
Lemma decode_set_same {K} eqb (d d' : dec K) : same d d' -> same (decode_hash_set eqb d) (decode_hash_set eqb d').
Proof. intros H r. unfold decode_hash_set. rewrite (decode_vec_same _ _ H). reflexivity. Qed.
Lemma decode_option_same {T} (d d' : dec T) : same d d' -> same (decode_option d) (decode_option d').
Proof.
  intros H r. unfold decode_option. destruct (decode_u8 r) as [[t r1]| | |]; cbn [bind]; try reflexivity. rewrite H. reflexivity.
Qed.
Lemma darr_same {T} (d d' : dec T) : same d d' -> forall n r, darr d n r = darr d' n r.
Proof.
  intros H n. induction n as [|n IH]; intros r; destruct r as [|b r]; cbn [darr]; try reflexivity.
  rewrite H. destruct (d' (b :: r)) as [[x r']| | |]; cbn [bind]; try reflexivity. rewrite IH. reflexivity.
Qed.
Lemma decode_array_same {T} n (d d' : dec T) : same d d' -> same (decode_array n d) (decode_array n d').
Proof.
  intros H r. unfold decode_array. destruct (decode_u64 r) as [[m r1]| | |]; cbn [bind]; try reflexivity.
  unfold ensure_size. rewrite (darr_same _ _ H). reflexivity.
Qed.
Lemma decode_nz_vec_same {T} (d d' : dec T) : same d d' -> same (decode_non_zero_vec d) (decode_non_zero_vec d').
Proof.
  intros H r. unfold decode_non_zero_vec. destruct (decode_u64 r) as [[m r1]| | |]; cbn [bind]; try reflexivity.
  rewrite (decode_elems_same _ _ H). reflexivity.
Qed.
Lemma decode_nz_map_same {K V} eqb (dk dk' : dec K) (dv dv' : dec V) : same dk dk' -> same dv dv' ->
  same (decode_non_zero_hash_map eqb dk dv) (decode_non_zero_hash_map eqb dk' dv').
Proof.
  intros Hk Hv r. unfold decode_non_zero_hash_map. destruct (decode_u64 r) as [[m r1]| | |]; cbn [bind]; try reflexivity.
  rewrite (decode_elems_same _ _ (dpair_same _ _ _ _ Hk Hv)). reflexivity.
Qed.
Lemma decode_nz_set_same {K} eqb (d d' : dec K) : same d d' -> same (decode_non_zero_hash_set eqb d) (decode_non_zero_hash_set eqb d').
Proof.
  intros H r. unfold decode_non_zero_hash_set. destruct (decode_u64 r) as [[m r1]| | |]; cbn [bind]; try reflexivity.
  rewrite (decode_elems_same _ _ H). reflexivity.
Qed.

(** A vector of bytes is a byte string. *)
Lemma dloop_u8 l : dloop decode_u8 (length l) l = Ok l.
Proof.
  induction l as [|b l IH]; [reflexivity|].
  assert (H : decode_u8 (b :: l) = Ok (b, l)).
  { unfold decode_u8, ensure_size. destruct (lenN (b :: l) <? 1) eqn:E; [|reflexivity].
    apply N.ltb_lt in E. unfold lenN in E. cbn [length] in E. lia. }
  cbn [length dloop]. rewrite H. cbn [bind]. rewrite IH. reflexivity.
Qed.
Lemma decode_vec_u8 : same (decode_vec decode_u8) decode_bytes.
Proof.
  intros r. unfold decode_vec, decode_bytes, decode_elems. destruct (decode_u64 r) as [[n r1]| | |]; cbn [bind]; try reflexivity.
  unfold ensure_size. destruct (lenN r1 <? n) eqn:E; [reflexivity|]. apply N.ltb_ge in E. unfold lenN in E.
  assert (Hl : length (firstn (N.to_nat n) r1) = N.to_nat n) by (apply firstn_length_le; lia).
  cbv zeta. replace (dloop decode_u8 (N.to_nat n) (firstn (N.to_nat n) r1)) with (dloop decode_u8 (length (firstn (N.to_nat n) r1)) (firstn (N.to_nat n) r1)) by (rewrite Hl; reflexivity).
  rewrite dloop_u8. reflexivity.
Qed.

Section Run.
Variable bt : bytes_type.
Variable E : env.

(** * Type arguments *)
Section Traits.
Variable adt : nat -> list ty -> dec val.
Variable ext : nat -> list ty -> dec val.
Hypothesis Hadt : forall i args, forallb (passable bt) args = true -> same (adt i args) (ext i args).

Lemma trait_decode_ok t : passable bt t = true -> same (trait_decode bt adt t) (dec_ty ext false t).
Proof.
  induction t as [t Hl|t IH|k t IHk IHt|t IH|t IH|t IH|ts IH|t len IH|i args IH|t IH] using ty_ind'; intros Hp.
  - destruct t; try discriminate Hl; try (intros r; reflexivity);
      cbn [trait_decode passable dec_ty] in *; destruct bt; try discriminate Hp; apply dmap_same; exact decode_vec_u8.
  - apply dmap_same, decode_vec_same, IH, Hp.
  - cbn [passable] in Hp. apply andb_true_iff in Hp as [Hp1 Hp2]. apply dmap_same, decode_map_same; [apply IHk, Hp1|apply IHt, Hp2].
  - apply dmap_same, decode_set_same, IH, Hp.
  - apply (dmap_same some_val), decode_option_same, IH, Hp.
  - discriminate Hp.
  - discriminate Hp.
  - apply dmap_same, decode_array_same, IH, Hp.
  - apply Hadt. exact Hp.
  - exact (IH Hp).
Qed.
End Traits.

(** * Expressions *)
Section Exprs.
Variable args : list ty.
Variable de : ty -> dec val.
Variable ext : nat -> list ty -> dec val.
Hypothesis Hargs : forallb (passable bt) args = true.
Hypothesis Hde : forall t, portable bt t = true -> same (de t) (dec_ty ext false (subst args t)).

Definition reads (p : denv) : Prop := find_var x_r p = Some DReader.
Lemma reads_r p : reads ((x_r, DReader) :: p).
Proof. apply find_var_eq. Qed.
Lemma reading_r {A} p (d : dec A) : reads p -> reading p (EVar x_r) d = d.
Proof. intros H. unfold reading. rewrite H. reflexivity. Qed.

(** The inner types of tuples are decoded in order. *)
Lemma eval_tuple p ts : Forall (fun t => forall d root, fits bt d t = true -> same (ev_dec de p (gen_decode bt root t)) (dec_ty ext root (subst args t))) ts ->
  forall d, forallb (fits bt d) ts = true -> forall r,
  (fix go (es : list expr) (r : list N) : res (list val * list N) :=
     match es with
     | [] => Ok ([], r)
     | e :: es' => do (v, r1) <- ev_dec de p e r; do (vs, r2) <- go es' r1; Ok (v :: vs, r2)
     end) (map (gen_decode bt false) ts) r
  = decode_seq (dec_ty ext false) (map (subst args) ts) r.
Proof.
  intros H d. induction H as [|t ts Ht _ IH]; intros Hf r; [reflexivity|]. cbn [forallb] in Hf. apply andb_true_iff in Hf as [H1 H2].
  cbn [map decode_seq]. rewrite (Ht d false H1). destruct (dec_ty ext false (subst args t) r) as [[v r1]| | |]; cbn [bind]; try reflexivity.
  rewrite (IH H2). reflexivity.
Qed.

Definition decodes (t : ty) : Prop :=
  forall p d root, reads p -> fits bt d t = true -> same (ev_dec de p (gen_decode bt root t)) (dec_ty ext root (subst args t)).
Definition parts (t : ty) : Prop :=
  match t with TVec t' | TSet t' => decodes t' | TMap k v => decodes k /\ decodes v | _ => True end.

Lemma eval_dec_parts t : decodes t /\ parts t.
Proof.
  induction t as [t Hl|t IH|k t IHk IHt|t IH|t IH|t IH|ts IH|t len IH|i ts IH|t IH] using ty_ind';
    (split; [|try exact I; try exact (proj1 IH); try (split; [exact (proj1 IHk)|exact (proj1 IHt)]); destruct t; discriminate Hl || exact I]); intros p d root Hp Hf.
  - destruct t; try discriminate Hl; cbn [gen_decode ev_dec]; rewrite ?(reading_r p _ Hp); try (intros r; reflexivity).
    + apply (Hde TBoxString). reflexivity.
    + apply (Hde TBoxBytes). reflexivity.
    + intros r. rewrite (Hde (TParam i) eq_refl). cbn [subst]. destruct (nth_error args i); reflexivity.
  - cbn [gen_decode ev_dec]. rewrite (reading_r p _ Hp). apply dmap_same, decode_vec_same. apply (proj1 IH _ 0%nat); [apply reads_r|exact Hf].
  - cbn [fits] in Hf. apply andb_true_iff in Hf as [Hf H2]. apply andb_true_iff in Hf as [_ H1].
    cbn [gen_decode ev_dec]. rewrite (reading_r p _ Hp). apply dmap_same, decode_map_same; [apply (proj1 IHk _ 0%nat)|apply (proj1 IHt _ 0%nat)]; try apply reads_r; assumption.
  - cbn [fits] in Hf. apply andb_true_iff in Hf as [_ H1]. cbn [gen_decode ev_dec]. rewrite (reading_r p _ Hp).
    apply dmap_same, decode_set_same. apply (proj1 IH _ 0%nat); [apply reads_r|exact H1].
  - cbn [fits] in Hf. apply andb_true_iff in Hf as [_ H1]. cbn [gen_decode ev_dec]. rewrite (reading_r p _ Hp).
    apply (dmap_same some_val), decode_option_same. apply (proj1 IH _ 0%nat); [apply reads_r|exact H1].
  - destruct IH as [_ Hin].
    destruct t; cbn [fits] in Hf; try discriminate Hf; cbn [gen_decode ev_dec]; rewrite ?(reading_r p _ Hp); try (intros r; reflexivity); cbn [parts] in Hin.
    + apply dmap_same, decode_nz_vec_same. apply (Hin _ 0%nat); [apply reads_r|exact Hf].
    + apply andb_true_iff in Hf as [Hf H2]. apply andb_true_iff in Hf as [_ H1]. destruct Hin as [Hi1 Hi2].
      apply dmap_same, decode_nz_map_same; [apply (Hi1 _ 0%nat)|apply (Hi2 _ 0%nat)]; try apply reads_r; assumption.
    + apply andb_true_iff in Hf as [_ H1]. apply dmap_same, decode_nz_set_same. apply (Hin _ 0%nat); [apply reads_r|exact H1].
  - cbn [fits] in Hf. apply andb_true_iff in Hf as [Hlen Hf]. cbn [gen_decode]. unfold tuple_len_ok. rewrite Hlen. cbn [subst].
    intros r. cbn [ev_dec dec_ty].
    assert (Hs : forall r, (fix go (es : list expr) (r : list N) : res (list val * list N) :=
       match es with
       | [] => Ok ([], r)
       | e :: es' => do (v, r1) <- ev_dec de p e r; do (vs, r2) <- go es' r1; Ok (v :: vs, r2)
       end) (map (gen_decode bt false) ts) r
       = decode_seq (dec_ty ext false) (map (subst args) ts) r).
    { apply (eval_tuple p ts) with (d := S d); [|exact Hf]. rewrite Forall_forall in *. intros t Hin d' root' Hf'. exact (proj1 (IH t Hin) p d' root' Hp Hf'). }
    destruct root.
    + cbn [ev_dec]. rewrite (reading_r p _ Hp). cbn [decode_scalar]. unfold dmap, decode_u64.
      destruct (decode_uint W64 r) as [[n r1]| | |]; cbn [bind]; try reflexivity. rewrite Hs. reflexivity.
    + cbn [bind]. rewrite Hs. reflexivity.
  - cbn [gen_decode ev_dec]. rewrite (reading_r p _ Hp). apply dmap_same, decode_array_same. apply (proj1 IH _ 0%nat); [apply reads_r|exact Hf].
  - cbn [fits] in Hf. apply andb_true_iff in Hf as [_ H1]. cbn [gen_decode ev_dec]. rewrite (reading_r p _ Hp). apply (Hde (TExt i ts)). exact H1.
  - discriminate Hf.
Qed.
Lemma eval_dec t : decodes t.
Proof. apply eval_dec_parts. Qed.
End Exprs.

(** * Variables of fields *)

(** The variables of the fields [fs], holding [s], above [base]; the last one is the innermost. *)
Definition vars (fs : list field) (s : slots) (base : denv) : denv :=
  rev (combine (map f_name fs) (map DSlot s)) ++ base.

Lemma declare_vars fs base : declare (map gen_var fs) base = vars fs (map (fun _ => None) fs) base.
Proof.
  unfold declare, vars. revert base. induction fs as [|f fs IH]; intros base; [reflexivity|].
  cbn [map fold_left]. unfold gen_var at 2. rewrite IH. cbn [map combine rev]. rewrite <- app_assoc. reflexivity.
Qed.

Lemma vars_split fs1 f fs2 s1 o s2 base : length fs1 = length s1 ->
  vars (fs1 ++ f :: fs2) (s1 ++ o :: s2) base = rev (combine (map f_name fs2) (map DSlot s2)) ++ (f_name f, DSlot o) :: rev (combine (map f_name fs1) (map DSlot s1)) ++ base.
Proof.
  intros Hl. unfold vars. rewrite !map_app. cbn [map].
  assert (Hc : forall (a a' : list ident) (b b' : list dval), length a = length b -> combine (a ++ a') (b ++ b') = combine a b ++ combine a' b').
  { intros a. induction a as [|x a IH]; intros a' [|y b] b' H; try discriminate H; [reflexivity|]. cbn [app combine]. rewrite IH by (injection H; auto). reflexivity. }
  rewrite Hc by (rewrite !map_length; exact Hl). cbn [combine]. rewrite rev_app_distr. cbn [rev]. rewrite <- !app_assoc. reflexivity.
Qed.
Lemma vars_names fs s : forall x, In x (map fst (rev (combine (map f_name fs) (map DSlot s)))) -> In x (map f_name fs).
Proof.
  intros x Hin. rewrite map_rev in Hin. apply in_rev in Hin. apply in_map_iff in Hin as ([y d] & <- & Hin). apply in_combine_l in Hin. exact Hin.
Qed.
Lemma nodup_split fs1 f fs2 : NoDup (map f_name (fs1 ++ f :: fs2)) -> ~ In (f_name f) (map f_name fs2) /\ ~ In (f_name f) (map f_name fs1).
Proof.
  rewrite map_app. cbn [map]. intros H. apply NoDup_remove_2 in H. split; intros Hin; apply H; apply in_or_app; [right|left]; exact Hin.
Qed.
Lemma find_vars fs1 f fs2 s1 o s2 base : length fs1 = length s1 -> NoDup (map f_name (fs1 ++ f :: fs2)) ->
  find_var (f_name f) (vars (fs1 ++ f :: fs2) (s1 ++ o :: s2) base) = Some (DSlot o).
Proof.
  intros Hl Hnd. rewrite (vars_split _ _ _ _ _ _ _ Hl). rewrite find_var_app; [apply find_var_eq|].
  intros Hin. apply vars_names in Hin. exact (proj1 (nodup_split _ _ _ Hnd) Hin).
Qed.
Lemma assign_var_app x v l m : ~ In x (map fst l) -> assign_var x v (l ++ m) = option_map (app l) (assign_var x v m).
Proof.
  induction l as [|[y a] l IH]; intros H; cbn [app assign_var]; [destruct (assign_var x v m); reflexivity|].
  cbn [map fst] in H. rewrite name_eqb_neq by (intros ->; apply H; left; reflexivity).
  rewrite IH by (intros Hin; apply H; right; exact Hin). destruct (assign_var x v m); reflexivity.
Qed.
Lemma set_vars fs1 f fs2 s1 o s2 v base : length fs1 = length s1 -> NoDup (map f_name (fs1 ++ f :: fs2)) ->
  assign_var (f_name f) v (vars (fs1 ++ f :: fs2) (s1 ++ o :: s2) base) = Some (vars (fs1 ++ f :: fs2) (s1 ++ Some v :: s2) base).
Proof.
  intros Hl Hnd. rewrite !(vars_split _ _ _ _ _ _ _ Hl). rewrite assign_var_app.
  - cbn [assign_var]. rewrite name_eqb_refl. reflexivity.
  - intros Hin. apply vars_names in Hin. exact (proj1 (nodup_split _ _ _ Hnd) Hin).
Qed.
Lemma set_slot_app s1 o s2 v : set_slot (length s1) v (s1 ++ o :: s2) = s1 ++ Some v :: s2.
Proof. induction s1 as [|x s1 IH]; [reflexivity|]. cbn [length app set_slot]. rewrite IH. reflexivity. Qed.
Lemma set_slot_length k v s : length (set_slot k v s) = length s.
Proof. revert k. induction s as [|x s IH]; intros [|k]; cbn [set_slot length]; auto. Qed.

(** The arm of a field id. *)
Lemma gen_arm_eq f : gen_arm bt f = (f_id f, f_name f, gen_decode bt true (payload_ty (f_ty f))).
Proof. unfold gen_arm. destruct (f_ty f); reflexivity. Qed.
Lemma find_arm_field args id fs k :
  match find_field id (map (subst_field args) fs) k with
  | Some (j, g) => exists fs1 f fs2, fs = fs1 ++ f :: fs2 /\ (j = k + length fs1)%nat /\ g = subst_field args f
                   /\ find_arm id (map (gen_arm bt) fs) = Some (f_name f, gen_decode bt true (payload_ty (f_ty f)))
  | None => find_arm id (map (gen_arm bt) fs) = None
  end.
Proof.
  revert k. induction fs as [|f fs IH]; intros k; [reflexivity|]. cbn [map find_field subst_field f_id].
  rewrite gen_arm_eq. cbn [find_arm].
  destruct (f_id f =? id).
  - exists [], f, fs. split; [reflexivity|]. split; [cbn [length]; lia|]. split; reflexivity.
  - specialize (IH (S k)). destruct (find_field id (map (subst_field args) fs) (S k)) as [[j g]|]; [|exact IH].
    destruct IH as (fs1 & g' & fs2 & -> & -> & -> & H). exists (f :: fs1), g', fs2. split; [reflexivity|]. split; [cbn [length]; lia|]. split; [reflexivity|exact H].
Qed.

Lemma payload_subst args t : payload_ty (subst args t) = subst args (payload_ty t).
Proof. destruct t; try reflexivity. cbn [subst payload_ty]. destruct (nth_error args i); reflexivity. Qed.
Lemma payload_fits t : fits bt 0 t = true -> fits bt 0 (payload_ty t) = true.
Proof. destruct t; auto. Qed.

Section Body.
Variable args : list ty.
Variable de : ty -> dec val.
Variable ext : nat -> list ty -> dec val.
Hypothesis Hde : forall t, portable bt t = true -> same (de t) (dec_ty ext false (subst args t)).

Definition base : denv := [(x_r, DReader)].
Lemma vars_read fs s : ~ In x_r (map f_name fs) -> reads (vars fs s base).
Proof. intros H. unfold reads, vars. rewrite find_var_app; [apply find_var_eq|]. intros Hin. apply H. apply vars_names in Hin. exact Hin. Qed.

Definition loop_of (kind : fkind) (fs : list field) : floop :=
  Loop (map gen_var fs) x_id (ECall RDecodeId [EVar x_r]) (map (gen_arm bt) fs)
       (ECall RDecodeSkip [EVar x_r; EEncodingOf (EVar x_id)]) (map (gen_assign kind) fs).

Lemma run_loop_ok kind fs : NoDup (map f_name fs) -> ~ In x_r (map f_name fs) -> ~ In x_id (map f_name fs) ->
  (forall f, In f fs -> fits bt 0 (f_ty f) = true) ->
  forall fuel s r, length s = length fs ->
  run_loop de (loop_of kind fs) fuel (vars fs s base) r
  = (do (s', r1) <- loop_fields (dec_ty ext true) (map (subst_field args) fs) fuel s r; Ok (vars fs s' base, r1)).
Proof.
  intros Hnd Hr Hid Hfit. induction fuel as [|fuel IH]; intros s r Hl; [reflexivity|].
  pose proof (vars_read fs s Hr) as Hread.
  assert (Hread1 : forall id, reads ((x_id, DFieldId id) :: vars fs s base)).
  { intros id. unfold reads. rewrite find_var_neq by discriminate. exact Hread. }
  cbn [run_loop loop_fields d_next loop_of]. fold (loop_of kind fs). rewrite (reading_r _ _ Hread).
  destruct (decode_id r) as [[id r1]| | |]; cbn [bind]; try reflexivity.
  destruct (fid_value id =? END_MARKER); [reflexivity|]. cbn [loop_of d_arms d_skip d_id].
  pose proof (find_arm_field args (fid_value id) fs 0) as Hfa.
  destruct (find_field (fid_value id) (map (subst_field args) fs) 0) as [[j g]|].
  - destruct Hfa as (fs1 & f & fs2 & Efs & -> & -> & ->). cbn [subst_field f_ty Nat.add].
    rewrite (eval_dec args de ext Hde (payload_ty (f_ty f)) _ 0%nat true (Hread1 id)).
    2: { apply payload_fits, Hfit. rewrite Efs. apply in_or_app. right. left. reflexivity. }
    rewrite payload_subst. destruct (dec_ty ext true (subst args (payload_ty (f_ty f))) r1) as [[v r2]| | |]; cbn [bind]; try reflexivity.
    assert (Hs : exists s1 o s2, s = s1 ++ o :: s2 /\ length s1 = length fs1).
    { assert (Hlt : (length fs1 < length s)%nat) by (rewrite Hl, Efs, app_length; cbn [length]; lia).
      destruct (nth_error s (length fs1)) as [o|] eqn:En; [|apply nth_error_None in En; lia].
      destruct (nth_error_split _ _ En) as (s1 & s2 & -> & H1). exists s1, o, s2. split; [reflexivity|exact H1]. }
    destruct Hs as (s1 & o & s2 & -> & Hs1).
    cbn [assign_var]. rewrite name_eqb_neq.
    2: { intros Ex. apply Hid. rewrite <- Ex, Efs, map_app. apply in_or_app. right. left. reflexivity. }
    rewrite Efs in Hnd |- *. rewrite (set_vars fs1 f fs2 s1 o s2 v base (eq_sym Hs1) Hnd). cbn [option_map].
    rewrite <- Efs, <- Hs1, set_slot_app. apply IH. rewrite <- Hl, !app_length. reflexivity.
  - rewrite Hfa. rewrite find_var_eq. rewrite (reading_r _ _ (Hread1 id)).
    destruct (decode_skip (fid_enc id) r1) as [r2| | |]; cbn [bind]; try reflexivity. apply IH. exact Hl.
Qed.

Lemma build_ok kind fs p : NoDup (map f_name fs) -> forall fs1 fs2 s1 s2, fs = fs1 ++ fs2 -> length s1 = length fs1 -> length s2 = length fs2 ->
  p = vars fs (s1 ++ s2) base ->
  build p (map (gen_assign kind) fs2) = assign kind (map (subst_field args) fs2) s2.
Proof.
  intros Hnd fs1 fs2. revert fs1. induction fs2 as [|f fs2 IH]; intros fs1 s1 s2 Efs H1 H2 Ep; [reflexivity|].
  destruct s2 as [|o s2]; [discriminate H2|]. cbn [map]. unfold gen_assign at 1. cbn [build].
  rewrite Ep at 1. rewrite Efs in Hnd |- *. rewrite find_vars; [|symmetry; exact H1|exact Hnd].
  assert (IH' : build p (map (gen_assign kind) fs2) = assign kind (map (subst_field args) fs2) s2).
  { apply (IH (fs1 ++ [f]) (s1 ++ [o])).
    - rewrite <- app_assoc. exact Efs.
    - rewrite !app_length. cbn [length]. lia.
    - injection H2 as H2. exact H2.
    - rewrite Ep. rewrite <- app_assoc. reflexivity. }
  cbn [assign subst_field f_ty f_id f_name].
  destruct (f_ty f); cbn [subst]; try (destruct o; cbn [some_val]; rewrite ?IH'; reflexivity).
  destruct (nth_error args i); destruct o; rewrite ?IH'; reflexivity.
Qed.

Lemma loop_fields_length d fs : forall fuel s r s' r', loop_fields d fs fuel s r = Ok (s', r') -> length s' = length s.
Proof.
  induction fuel as [|fuel IH]; intros s r s' r' H; [discriminate|]. cbn [loop_fields] in H.
  destruct (decode_id r) as [[id r1]| | |]; cbn [bind] in H; try discriminate H.
  destruct (fid_value id =? END_MARKER); [injection H as <- _; reflexivity|].
  destruct (find_field (fid_value id) fs 0) as [[k f]|].
  - destruct (d (payload_ty (f_ty f)) r1) as [[v r2]| | |]; cbn [bind] in H; try discriminate H. apply IH in H. rewrite H. apply set_slot_length.
  - destruct (decode_skip (fid_enc id) r1) as [r2| | |]; cbn [bind] in H; try discriminate H. apply IH in H. exact H.
Qed.

Lemma body_decode fs : fits_fields bt fs -> same (run_body de (gen_decode_fields bt fs) base) (decode_body (dec_ty ext true) (inst args fs)).
Proof.
  intros Hf r. unfold decode_body. cbn [inst fs_kind fs_list].
  assert (Hk : fs_kind fs = KUnit \/ fs_kind fs <> KUnit) by (destruct (fs_kind fs); [right|right|left]; congruence).
  destruct Hk as [Hk|Hk].
  { unfold gen_decode_fields. rewrite Hk. reflexivity. }
  destruct (Hf Hk) as (Hnd & Hres & Hfit).
  assert (Eg : gen_decode_fields bt fs = DLoop (loop_of (fs_kind fs) (fs_list fs))) by (unfold gen_decode_fields; destruct (fs_kind fs); congruence || reflexivity).
  rewrite Eg. cbn [run_body]. cbn [loop_of d_vars d_build]. fold (loop_of (fs_kind fs) (fs_list fs)). rewrite declare_vars.
  assert (Hno : forall x, In x reserved -> ~ In x (map f_name (fs_list fs))).
  { intros x Hx Hin. apply in_map_iff in Hin as (f & <- & Hin). exact (Hres f Hin Hx). }
  rewrite run_loop_ok; try assumption.
  2: { apply Hno. right. left. reflexivity. }
  2: { apply Hno. right. right. left. reflexivity. }
  2: { apply map_length. }
  rewrite map_map.
  assert (Hlf : forall s r1, loop_fields (dec_ty ext true) (map (subst_field args) (fs_list fs)) (S (length r)) (map (fun _ => None) (fs_list fs)) r = Ok (s, r1) -> length s = length (fs_list fs)).
  { intros s r1 H. apply loop_fields_length in H. rewrite H. apply map_length. }
  destruct (fs_kind fs); [| |congruence].
  all: destruct (loop_fields (dec_ty ext true) (map (subst_field args) (fs_list fs)) (S (length r)) (map (fun _ => None) (fs_list fs)) r) as [[s r1]| | |]; cbn [bind]; try reflexivity.
  all: rewrite (build_ok _ (fs_list fs) _ Hnd [] (fs_list fs) [] s eq_refl eq_refl (Hlf s r1 eq_refl) eq_refl); reflexivity.
Qed.
End Body.

Lemma find_body_variant id vs k :
  match find_variant id vs k with
  | Some (j, v) => In v vs /\ find_body id (map (fun v => (v_id v, gen_decode_fields bt (v_fields v))) vs) k = Some (j, gen_decode_fields bt (v_fields v))
  | None => find_body id (map (fun v => (v_id v, gen_decode_fields bt (v_fields v))) vs) k = None
  end.
Proof.
  revert k. induction vs as [|v vs IH]; intros k; [reflexivity|]. cbn [map find_variant find_body]. destruct (v_id v =? id).
  - split; [left; reflexivity|reflexivity].
  - specialize (IH (S k)). destruct (find_variant id vs (S k)) as [[j w]|]; [|exact IH]. split; [right; apply IH|apply IH].
Qed.

Hypothesis Hfits : Forall (fits_def bt) E.

Theorem run_decode_ok n : forall i args, forallb (passable bt) args = true -> same (run_decode bt E n i args) (dec_ext E n i args).
Proof.
  induction n as [|n IH]; intros i args Ha r; [reflexivity|]. cbn [run_decode dec_ext].
  assert (Hde : forall t, portable bt t = true -> same (trait_decode bt (run_decode bt E n) (subst args t)) (dec_ty (dec_ext E n) false (subst args t))).
  { intros t Hp. apply trait_decode_ok; [exact IH|]. apply passable_subst; assumption. }
  destruct (nth_error E i) as [d|] eqn:Ei; [|reflexivity].
  assert (Hd : fits_def bt d) by (rewrite Forall_forall in Hfits; apply Hfits; apply (nth_error_In _ _ Ei)).
  destruct d as [fs|vs]; cbn [gen_decode_def run_dfun].
  - apply dmap_same. apply body_decode; assumption.
  - rewrite reading_r by apply reads_r. destruct (decode_variant_id r) as [[id r1]| | |]; cbn [bind]; try reflexivity.
    pose proof (find_body_variant id vs 0) as H. destruct (find_variant id vs 0) as [[j v]|].
    + destruct H as [Hin H]. rewrite H. apply dmap_same. apply body_decode; [exact Hde|]. apply Hd. exact Hin.
    + rewrite H. reflexivity.
Qed.
End Run.
