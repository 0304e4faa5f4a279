(** How large a decoded value can be compared with the bytes it was decoded from. *)
From Verif Require Import Base Varint VarintSpec VarintProofs Wire WireProofs Codec CodecSpec CodecProofs Safety WireMore DecSound.
Local Open Scope nat_scope.

(** * Specification *)

(** Everything there is in a value: one per value and per map entry, and one per byte of a string or byte array. *)
Fixpoint weight (v : val) : nat :=
  match v with
  | VBytes l => 1 + length l
  | VList l | VRec l | VVar _ l => 1 + list_sum (map weight l)
  | VMap l => 1 + list_sum (map (fun kv => 1 + (weight (fst kv) + weight (snd kv))) l)
  | VSome x => 1 + weight x
  | _ => 1
  end.

(** The number of fields of a definition (of the variant that has most). *)
Definition width_of (d : def) : nat :=
  match d with DStruct fs => length (fs_list fs) | DEnum vs => list_max (map (fun w => length (fs_list (v_fields w))) vs) end.
(** What a value of type [t] has even if it is as empty as possible. *)
Fixpoint spine (E : env) (t : ty) : nat :=
  match t with
  | TOption t => 1 + spine E t
  | TNonZero t | TGen t => spine E t
  | TTuple ts => 1 + list_sum (map (spine E) ts)
  | TArray t n => 1 + n * spine E t
  | TExt i _ => match nth_error E i with Some d => 1 + width_of d | None => 1 end
  | _ => 1
  end.
(** The types of what is directly inside a value of type [t]; a map has entries. *)
Definition fields_of (d : def) : list fields := match d with DStruct fs => [fs] | DEnum vs => map v_fields vs end.
Definition parts (E : env) (t : ty) : list ty :=
  match t with
  | TVec t | TSet t | TOption t | TNonZero t | TGen t | TArray t _ => [t]
  | TMap k v => [TTuple [k; v]]
  | TTuple ts => ts
  | TExt i args => match nth_error E i with
      | Some d => flat_map (fun fs => map (fun f => payload_ty (f_ty f)) (fs_list (inst args fs))) (fields_of d)
      | None => []
      end
  | _ => []
  end.
(** A set of types that contains the types of all parts. *)
Definition closed (E : env) (L : list ty) : Prop := forall t, In t L -> incl (parts E t) L.

(** * Proof *)
Lemma map_insert_sum {A B} (eqb : A -> A -> bool) (w : A -> nat) (w' : B -> nat) k v m :
  list_sum (map (fun p => 1 + (w (fst p) + w' (snd p))) (map_insert eqb k v m)) <= 1 + (w k + w' v) + list_sum (map (fun p => 1 + (w (fst p) + w' (snd p))) m).
Proof.
  induction m as [|[k' v'] m IH]; cbn [map_insert map]; [cbn; lia|]. destruct (eqb k k'); cbn [map fst snd list_sum fold_right] in *; unfold list_sum in *; lia.
Qed.
Lemma map_of_sum {A B} (eqb : A -> A -> bool) (w : A -> nat) (w' : B -> nat) l :
  list_sum (map (fun p => 1 + (w (fst p) + w' (snd p))) (map_of eqb l)) <= list_sum (map (fun p => 1 + (w (fst p) + w' (snd p))) l).
Proof.
  unfold map_of. assert (G : forall l m, list_sum (map (fun p => 1 + (w (fst p) + w' (snd p))) (fold_left (fun m kv => map_insert eqb (fst kv) (snd kv) m) l m))
    <= list_sum (map (fun p => 1 + (w (fst p) + w' (snd p))) l) + list_sum (map (fun p => 1 + (w (fst p) + w' (snd p))) m)).
  { clear l. induction l as [|[k v] l IH]; intros m; cbn [fold_left]; [cbn; lia|]. specialize (IH (map_insert eqb k v m)). pose proof (map_insert_sum eqb w w' k v m) as Hi.
    cbn [map list_sum fold_right fst snd] in *. unfold list_sum in *. lia. }
  specialize (G l []). cbn [map list_sum fold_right] in G. unfold list_sum in *. cbn [fold_right map] in G. lia.
Qed.
Lemma set_insert_sum {A} (eqb : A -> A -> bool) (w : A -> nat) x s : list_sum (map w (set_insert eqb x s)) <= w x + list_sum (map w s).
Proof. unfold set_insert. destruct (existsb _ _); [lia|]. rewrite map_app. induction s as [|y s IH]; cbn [map app list_sum fold_right] in *; unfold list_sum in *; cbn [app fold_right] in *; lia. Qed.
Lemma set_of_sum {A} (eqb : A -> A -> bool) (w : A -> nat) l : list_sum (map w (set_of eqb l)) <= list_sum (map w l).
Proof.
  unfold set_of. assert (G : forall l m, list_sum (map w (fold_left (fun s k => set_insert eqb k s) l m)) <= list_sum (map w l) + list_sum (map w m)).
  { clear l. induction l as [|x l IH]; intros m; cbn [fold_left]; [cbn; lia|]. specialize (IH (set_insert eqb x m)). pose proof (set_insert_sum eqb w x m).
    cbn [map list_sum fold_right] in *. unfold list_sum in *. lia. }
  specialize (G l []). cbn [map] in G. unfold list_sum in *. cbn [fold_right] in G. lia.
Qed.

Section Bound.
Variables (E : env) (L : list ty) (K : nat).
Hypothesis HL : closed E L.
Hypothesis HK1 : 1 <= K.
Hypothesis HK : forall t, In t L -> spine E t <= K.

(** [d] reads on, and what it returns weighs at most [s] and [K] for every byte but the first. *)
Definition fits {A} (w : A -> nat) (s : nat) (d : dec A) : Prop :=
  forall r v r', d r = Ok (v, r') -> suffix r' r /\ w v <= s + K * (length r - length r' - 1).

Lemma fits_pos {A} (w : A -> nat) s (d : dec A) : reader_ok d -> (forall r v r', d r = Ok (v, r') -> w v <= s) -> fits w s d.
Proof. intros Hr Hw r v r' H. split; [exact (Hr _ _ _ H)|]. specialize (Hw _ _ _ H). nia. Qed.
Lemma fits_dmap {A B} (w : A -> nat) (w' : B -> nat) s (f : A -> B) (d : dec A) : fits w s d -> (forall a, w' (f a) <= w a) -> fits w' s (dmap f d).
Proof.
  intros Hd Hw r b r' H. unfold dmap in H. apply bind_ok in H as ([a r1] & H1 & H2). injection H2 as <- <-. destruct (Hd _ _ _ H1) as [Hs Hl].
  split; [exact Hs|]. specialize (Hw a). lia.
Qed.
Lemma fits_one {A} (f : A -> val) (d : dec A) : reader_ok d -> (forall a, weight (f a) = 1) -> fits weight 1 (dmap f d).
Proof.
  intros Hr Hw. apply (fits_dmap (fun _ => 1)); [apply fits_pos; [exact Hr|intros; apply le_n]|]. intros a. rewrite Hw. apply le_n.
Qed.

Lemma suffix_same a b : suffix a b -> length a = length b -> a = b.
Proof. intros [c ->] H. rewrite app_length in H. destruct c; [reflexivity|cbn in H; lia]. Qed.
Lemma u64_consumes r v r' : decode_u64 r = Ok (v, r') -> suffix r' r /\ length r' < length r.
Proof. intros H. split; [exact (decode_uint_ok W64 _ _ _ H)|exact (decode_uint_consumes W64 _ _ _ H)]. Qed.

Lemma fits_bytes : fits (fun l => 1 + length l) 1 decode_bytes.
Proof.
  intros r l r' H. split; [exact (decode_bytes_ok _ _ _ H)|]. unfold decode_bytes in H. apply bind_ok in H as ([len r1] & H1 & H).
  apply ensure_inv in H as [Hn H]. injection H as <- <-. destruct (u64_consumes _ _ _ H1) as [_ Hc].
  unfold lenN in Hn. rewrite firstn_length, skipn_length. nia.
Qed.
Lemma fits_string : fits (fun l => 1 + length l) 1 decode_string.
Proof.
  intros r l r' H. unfold decode_string in H. apply bind_ok in H as ([b r1] & H1 & H). destruct (utf8_ok b); [|discriminate H]. injection H as <- <-.
  exact (fits_bytes _ _ _ H1).
Qed.

(** An element that takes no bytes would be read again and again. *)
Lemma loop_stuck {T} (d : dec T) n : forall r x, r <> [] -> d r = Ok (x, r) -> dloop d n r = Diverge.
Proof.
  induction n as [|n IH]; intros r x Hr Hd; destruct r as [|b r]; try congruence; cbn [dloop]; [reflexivity|]. rewrite Hd. cbn [bind]. rewrite (IH _ _ Hr Hd). reflexivity.
Qed.
Lemma fits_loop {T} (w : T -> nat) s (d : dec T) : fits w s d -> s <= K -> forall n r xs, dloop d n r = Ok xs -> list_sum (map w xs) <= K * length r.
Proof.
  intros Hd Hs n. induction n as [|n IH]; intros r xs H; destruct r as [|b r]; cbn [dloop] in H; try discriminate H; try (injection H as <-; cbn; lia).
  apply bind_ok in H as ([x r'] & H1 & H). apply bind_ok in H as (l & H2 & H). injection H as <-. destruct (Hd _ _ _ H1) as [Hx Hw].
  specialize (IH _ _ H2). pose proof (suffix_length _ _ Hx) as Hlen.
  destruct (Nat.eq_dec (length r') (length (b :: r))) as [He|He].
  - apply (suffix_same _ _ Hx) in He. subst r'. assert (Hne : b :: r <> []) by discriminate. rewrite (loop_stuck d n _ _ Hne H1) in H2. discriminate H2.
  - cbn [map list_sum fold_right]. change (fold_right Nat.add 0 (map w l)) with (list_sum (map w l)). nia.
Qed.
Lemma fits_elems {T} (w : T -> nat) s (d : dec T) r1 len xs r' : fits w s d -> s <= K -> decode_elems d r1 len = Ok (xs, r') ->
  suffix r' r1 /\ list_sum (map w xs) <= K * (length r1 - length r').
Proof.
  intros Hd Hs H. unfold decode_elems in H. apply ensure_inv in H as [Hn H]. cbv zeta in H. apply bind_ok in H as (l & H2 & H). injection H as <- <-.
  split; [apply suffix_skipn|]. pose proof (fits_loop w s d Hd Hs _ _ _ H2) as Hl. unfold lenN in Hn. rewrite firstn_length in Hl. rewrite skipn_length. nia.
Qed.
Lemma fits_vec {T} (w : T -> nat) s (d : dec T) : fits w s d -> s <= K -> fits (fun l => 1 + list_sum (map w l)) 1 (decode_vec d).
Proof.
  intros Hd Hs r xs r' H. split; [exact (decode_vec_ok d _ _ _ H)|]. unfold decode_vec in H. apply bind_ok in H as ([len r1] & H1 & H).
  destruct (u64_consumes _ _ _ H1) as [_ Hc]. destruct (fits_elems w s d _ _ _ _ Hd Hs H) as [Hx Hl]. apply suffix_length in Hx. nia.
Qed.
Lemma fits_pair {A B} (w : A -> nat) (w' : B -> nat) s s' (d : dec A) (d' : dec B) : fits w s d -> fits w' s' d' ->
  fits (fun p => 1 + (w (fst p) + w' (snd p))) (1 + (s + s')) (dpair d d').
Proof.
  intros Hd Hd' r a r' H. unfold dpair in H. apply bind_ok in H as ([k r1] & H1 & H). apply bind_ok in H as ([v r2] & H2 & H). injection H as <- <-.
  destruct (Hd _ _ _ H1) as [Hx Hw]. destruct (Hd' _ _ _ H2) as [Hx' Hw']. split; [exact (suffix_trans _ _ _ Hx' Hx)|]. cbn [fst snd].
  apply suffix_length in Hx, Hx'. nia.
Qed.
Lemma fits_arr {T} (w : T -> nat) s (d : dec T) : fits w s d -> forall n r xs, darr d n r = Ok xs -> list_sum (map w xs) <= n * s + K * (length r - 1).
Proof.
  intros Hd n. induction n as [|n IH]; intros r xs H; destruct r as [|b r]; cbn [darr] in H; try (injection H as <-; cbn; lia).
  apply bind_ok in H as ([x r'] & H1 & H). apply bind_ok in H as (l & H2 & H). injection H as <-. destruct (Hd _ _ _ H1) as [Hx Hw].
  specialize (IH _ _ H2). apply suffix_length in Hx. cbn [map list_sum fold_right]. change (fold_right Nat.add 0 (map w l)) with (list_sum (map w l)). nia.
Qed.
Lemma fits_array {T} (w : T -> nat) s n (d : dec T) : fits w s d -> fits (fun l => 1 + list_sum (map w l)) (1 + n * s) (decode_array n d).
Proof.
  intros Hd r xs r' H. split; [exact (decode_array_ok n d _ _ _ H)|]. unfold decode_array in H. apply bind_ok in H as ([len r1] & H1 & H).
  destruct (u64_consumes _ _ _ H1) as [_ Hc]. apply ensure_inv in H as [Hn H]. cbv zeta in H. apply bind_ok in H as (l & H2 & H).
  destruct (length l =? n); [|discriminate H]. injection H as <- <-. pose proof (fits_arr w s d Hd _ _ _ H2) as Hl. unfold lenN in Hn.
  rewrite firstn_length in Hl. rewrite skipn_length. nia.
Qed.
Lemma fits_seq d ts : (forall t, In t ts -> fits weight (spine E t) (d t)) -> fits (fun l => list_sum (map weight l)) (list_sum (map (spine E) ts)) (decode_seq d ts).
Proof.
  induction ts as [|t ts IH]; intros H r vs r' Hd; cbn [decode_seq] in Hd; [injection Hd as <- <-; split; [apply suffix_refl|cbn; lia]|].
  apply bind_ok in Hd as ([v r1] & H1 & Hd). apply bind_ok in Hd as ([l r2] & H2 & Hd). injection Hd as <- <-.
  destruct (H t (or_introl eq_refl) _ _ _ H1) as [Hx Hw]. destruct (IH (fun x Hx => H x (or_intror Hx)) _ _ _ H2) as [Hx' Hw'].
  split; [exact (suffix_trans _ _ _ Hx' Hx)|]. apply suffix_length in Hx, Hx'. cbn [map list_sum fold_right] in *. unfold list_sum in *. nia.
Qed.

Lemma parts_in t u : In t L -> In u (parts E t) -> In u L.
Proof. intros Ht Hu. exact (HL t Ht u Hu). Qed.

Lemma dec_ty_fits ext : (forall i args, In (TExt i args) L -> fits weight (spine E (TExt i args)) (ext i args)) ->
  forall t root, In t L -> fits weight (spine E t) (dec_ty ext root t).
Proof.
  intros He t. induction t as [t Hl|t IH|k v IHk IHv|t IH|t IH|t IH|ts IH|t n IH|i args IH|t IH] using ty_ind'; intros root Hin.
  - destruct t; try discriminate Hl; cbn [dec_ty spine].
    + apply fits_one; [exact decode_bool_ok|reflexivity].
    + apply fits_one; [exact decode_u8_ok|reflexivity].
    + apply fits_one; [exact decode_i8_ok|reflexivity].
    + apply fits_one; [apply decode_uint_ok|reflexivity].
    + apply fits_one; [apply decode_sint_ok|reflexivity].
    + apply fits_one; [apply decode_fixed_ok|reflexivity].
    + apply fits_one; [apply decode_fixed_ok|reflexivity].
    + apply (fits_dmap (fun l => 1 + length l)); [exact fits_string|reflexivity].
    + apply (fits_dmap (fun l => 1 + length l)); [exact fits_string|reflexivity].
    + apply (fits_dmap (fun l => 1 + length l)); [exact fits_string|reflexivity].
    + apply (fits_dmap (fun l => 1 + length l)); [exact fits_bytes|reflexivity].
    + apply (fits_dmap (fun l => 1 + length l)); [exact fits_bytes|reflexivity].
    + apply (fits_dmap (fun l => 1 + length l)); [exact fits_bytes|reflexivity].
    + intros r a r' H. discriminate H.
  - assert (Ht : In t L) by (apply (parts_in _ _ Hin); left; reflexivity).
    apply (fits_dmap (fun l => 1 + list_sum (map weight l))); [|reflexivity]. apply (fits_vec weight (spine E t)); [apply IH, Ht|apply HK, Ht].
  - assert (Ht : In (TTuple [k; v]) L) by (apply (parts_in _ _ Hin); left; reflexivity).
    assert (Hk : In k L) by (apply (parts_in _ _ Ht); left; reflexivity). assert (Hv : In v L) by (apply (parts_in _ _ Ht); right; left; reflexivity).
    pose proof (HK _ Ht) as Hs. cbn [spine map list_sum fold_right] in Hs.
    apply (fits_dmap (fun l => 1 + list_sum (map (fun p => 1 + (weight (fst p) + weight (snd p))) l))); [|reflexivity].
    intros r m r' H. unfold decode_hash_map in H. apply bind_ok in H as ([l r1] & H1 & H). injection H as <- <-.
    destruct (fits_vec _ _ _ (fits_pair weight weight _ _ _ _ (IHk false Hk) (IHv false Hv)) ltac:(cbn in Hs |- *; lia) _ _ _ H1) as [Hx Hl].
    split; [exact Hx|]. pose proof (map_of_sum val_eqb weight weight l). cbn [spine]. cbv beta in *. lia.
  - assert (Ht : In t L) by (apply (parts_in _ _ Hin); left; reflexivity).
    apply (fits_dmap (fun l => 1 + list_sum (map weight l))); [|reflexivity].
    intros r m r' H. unfold decode_hash_set in H. apply bind_ok in H as ([l r1] & H1 & H). injection H as <- <-.
    destruct (fits_vec weight (spine E t) _ (IH false Ht) (HK _ Ht) _ _ _ H1) as [Hx Hl]. split; [exact Hx|]. pose proof (set_of_sum val_eqb weight l). cbn [spine]. cbv beta in *. lia.
  - assert (Ht : In t L) by (apply (parts_in _ _ Hin); left; reflexivity).
    apply (fits_dmap (fun o => match o with Some v => 1 + weight v | None => 1 end)); [|intros [a|]; reflexivity].
    intros r o r' H. unfold decode_option in H. apply bind_ok in H as ([b r1] & H1 & H). pose proof (decode_u8_ok _ _ _ H1) as Hx1.
    assert (Hc : length r1 < length r).
    { unfold decode_u8 in H1. apply ensure_inv in H1 as [_ H1]. destruct r; [discriminate H1|]. cbn [get_u8] in H1. injection H1 as _ <-. cbn. lia. }
    destruct (b =? 1)%N; [|injection H as <- <-; split; [exact Hx1|cbn [spine]; nia]].
    apply bind_ok in H as ([v r2] & H2 & H). injection H as <- <-. destruct (IH false Ht _ _ _ H2) as [Hx Hw]. split; [exact (suffix_trans _ _ _ Hx Hx1)|].
    cbn [spine]. apply suffix_length in Hx. nia.
  - assert (Ht : In t L) by (apply (parts_in _ _ Hin); left; reflexivity). intros r a r' H. destruct (nz_inner t) eqn:En.
    + rewrite (nz_dec_ty ext root t r En) in H. unfold nz_spec in H. destruct (dec_ty ext root t r) as [[v r1]| | |] eqn:Ed; try discriminate H.
      destruct (nonzero_val v) eqn:Ev; [|discriminate H]. injection H as <- <-. exact (IH root Ht _ _ _ Ed).
    + cbn [dec_ty] in H. destruct t; try discriminate En; discriminate H.
  - intros r a r' H. cbn [dec_ty] in H. apply bind_ok in H as ([x r1] & H1 & H). apply bind_ok in H as ([vs r2] & H2 & H). injection H as <- <-.
    assert (Hr1 : suffix r1 r).
    { destruct root; [exact (proj1 (u64_consumes _ _ _ H1))|injection H1 as _ <-; apply suffix_refl]. }
    rewrite Forall_forall in IH. destruct (fits_seq (dec_ty ext false) ts (fun t Ht => IH t Ht false (parts_in _ _ Hin Ht)) r1 vs r2 H2) as [Hx Hw].
    split; [exact (suffix_trans _ _ _ Hx Hr1)|]. cbn [weight spine]. apply suffix_length in Hx, Hr1. nia.
  - assert (Ht : In t L) by (apply (parts_in _ _ Hin); left; reflexivity).
    apply (fits_dmap (fun l => 1 + list_sum (map weight l))); [|reflexivity]. apply fits_array, IH, Ht.
  - apply He, Hin.
  - cbn [dec_ty spine]. apply IH. apply (parts_in _ _ Hin). left. reflexivity.
Qed.

(** Structs and variants. *)
Definition slot_weight (o : option val) : nat := match o with Some v => weight v | None => 0 end.
Lemma set_slot_weight : forall s k v, list_sum (map slot_weight (set_slot k v s)) <= weight v + list_sum (map slot_weight s).
Proof.
  induction s as [|o s IH]; intros k v; [destruct k; cbn; lia|]. destruct k as [|k]; cbn [set_slot map list_sum fold_right slot_weight].
  - unfold list_sum. lia.
  - specialize (IH k v). unfold list_sum in *. lia.
Qed.
Lemma loop_fits d fs : (forall f, In f fs -> fits weight (spine E (payload_ty (f_ty f))) (d (payload_ty (f_ty f))) /\ spine E (payload_ty (f_ty f)) <= K) ->
  forall n s r s' r', loop_fields d fs n s r = Ok (s', r') ->
  suffix r' r /\ length r' < length r /\ list_sum (map slot_weight s') <= list_sum (map slot_weight s) + K * (length r - length r' - 1).
Proof.
  intros Hd n. induction n as [|n IH]; intros s r s' r' H; [discriminate|]. cbn [loop_fields] in H. apply bind_ok in H as ([id r1] & H1 & H).
  pose proof (decode_id_ok _ _ _ H1) as Hx1. pose proof (decode_id_consumes _ _ _ H1) as Hc1.
  destruct (fid_value id =? END_MARKER)%N; [injection H as <- <-; split; [exact Hx1|split; [exact Hc1|nia]]|].
  destruct (find_field (fid_value id) fs 0) as [[k f]|] eqn:Ef.
  - apply bind_ok in H as ([v r2] & H2 & H). destruct (find_field_nth _ _ _ _ _ Ef) as (i & _ & Hi). destruct (Hd f (nth_error_In _ _ Hi)) as [Hf HS].
    destruct (Hf _ _ _ H2) as [Hx2 Hw]. destruct (IH _ _ _ _ H) as (Hx & Hc & Hs). pose proof (set_slot_weight s k v) as Hw2.
    split; [exact (suffix_trans _ _ _ Hx (suffix_trans _ _ _ Hx2 Hx1))|]. apply suffix_length in Hx, Hx2. split; [lia|]. nia.
  - apply bind_ok in H as (r2 & H2 & H). apply decode_skip_suffix in H2. destruct (IH _ _ _ _ H) as (Hx & Hc & Hs).
    split; [exact (suffix_trans _ _ _ Hx (suffix_trans _ _ _ H2 Hx1))|]. apply suffix_length in Hx, H2. split; [lia|]. nia.
Qed.
Lemma assign_weight kind : forall fs s vs, assign kind fs s = Ok vs -> list_sum (map weight vs) <= length fs + list_sum (map slot_weight s).
Proof.
  induction fs as [|f fs IH]; intros s vs Ha; [injection Ha as <-; cbn; lia|]. destruct s as [|o s]; [injection Ha as <-; cbn; lia|]. cbn [assign] in Ha.
  destruct (f_ty f); destruct o as [v|]; try discriminate Ha; apply bind_ok in Ha as (l & Hl & Ha); injection Ha as <-; specialize (IH s l Hl);
    cbn [map list_sum fold_right slot_weight weight length] in *; unfold list_sum in *; lia.
Qed.
Lemma none_weight (fs : list field) : list_sum (map slot_weight (map (fun _ => None) fs)) = 0.
Proof. induction fs as [|f fs IH]; [reflexivity|]. cbn [map list_sum fold_right slot_weight] in *. exact IH. Qed.
Lemma body_fits d fs : (forall f, In f (fs_list fs) -> fits weight (spine E (payload_ty (f_ty f))) (d (payload_ty (f_ty f))) /\ spine E (payload_ty (f_ty f)) <= K) ->
  fits (fun l => list_sum (map weight l)) (length (fs_list fs)) (decode_body d fs).
Proof.
  intros Hd r vs r' H. unfold decode_body in H. destruct (fs_kind fs) eqn:Ek.
  3: { injection H as <- <-. split; [apply suffix_refl|cbn; lia]. }
  all: apply bind_ok in H as ([s r1] & H1 & H); apply bind_ok in H as (l & H2 & H); injection H as <- <-;
    destruct (loop_fits d (fs_list fs) Hd _ _ _ _ _ H1) as (Hx & Hc & Hs); rewrite none_weight in Hs;
    pose proof (assign_weight _ _ _ _ H2); split; [exact Hx|lia].
Qed.
Lemma inst_length args fs : length (fs_list (inst args fs)) = length (fs_list fs).
Proof. unfold inst. cbn [fs_list]. apply map_length. Qed.
Lemma ext_fields i args d fs f : In (TExt i args) L -> nth_error E i = Some d -> In fs (fields_of d) -> In f (fs_list (inst args fs)) -> In (payload_ty (f_ty f)) L.
Proof.
  intros Hin Hd Hfs Hf. apply (parts_in _ _ Hin). cbn [parts]. rewrite Hd. apply in_flat_map. exists fs. split; [exact Hfs|].
  apply (in_map (fun f => payload_ty (f_ty f))). exact Hf.
Qed.
Lemma dec_ext_fits n : forall i args, In (TExt i args) L -> fits weight (spine E (TExt i args)) (dec_ext E n i args).
Proof.
  induction n as [|n IH]; intros i args Hin r v r' H; [discriminate|]. cbn [dec_ext] in H.
  assert (Hd : forall t, In t L -> fits weight (spine E t) (dec_ty (dec_ext E n) true t)) by (intros t; apply dec_ty_fits; exact IH).
  destruct (nth_error E i) as [d|] eqn:Ei; [|discriminate]. cbn [spine]. rewrite Ei.
  assert (Hb : forall fs, In fs (fields_of d) -> fits (fun l => list_sum (map weight l)) (length (fs_list fs)) (decode_body (dec_ty (dec_ext E n) true) (inst args fs))).
  { intros fs Hfs. rewrite <- (inst_length args). apply body_fits. intros f Hf. pose proof (ext_fields i args d fs f Hin Ei Hfs Hf) as Hp. split; [apply Hd, Hp|apply HK, Hp]. }
  destruct d as [fs|vs].
  - unfold dmap in H. apply bind_ok in H as ([l r1] & H1 & H). injection H as <- <-. destruct (Hb fs (or_introl eq_refl) _ _ _ H1) as [Hx Hw].
    split; [exact Hx|]. cbn [weight width_of]. lia.
  - apply bind_ok in H as ([id r1] & H1 & H). destruct (find_variant id vs 0) as [[k w]|] eqn:Ef; [|discriminate].
    destruct (find_variant_nth _ _ _ _ _ Ef) as (j & -> & Hj). cbn [Nat.add] in *. pose proof (nth_error_In _ _ Hj) as Hw0.
    unfold dmap in H. apply bind_ok in H as ([l r2] & H2 & H). injection H as <- <-. destruct (Hb (v_fields w) (in_map v_fields _ _ Hw0) _ _ _ H2) as [Hx Hw].
    pose proof (decode_uint_ok W32 _ _ _ H1) as Hx1. pose proof (decode_uint_consumes W32 _ _ _ H1) as Hc1.
    split; [exact (suffix_trans _ _ _ Hx Hx1)|]. cbn [weight width_of].
    assert (Hm : length (fs_list (v_fields w)) <= list_max (map (fun w => length (fs_list (v_fields w))) vs)).
    { pose proof (proj1 (list_max_le (map (fun w => length (fs_list (v_fields w))) vs) _) (le_n _)) as Hall. rewrite Forall_forall in Hall. apply Hall.
      apply (in_map (fun w => length (fs_list (v_fields w)))). exact Hw0. }
    apply suffix_length in Hx. nia.
Qed.
Theorem decode_weight root t r v r' : In t L -> decode E root t r = Ok (v, r') -> weight v <= spine E t + K * (length r - length r' - 1).
Proof. intros Ht H. exact (proj2 (dec_ty_fits _ (dec_ext_fits _) t root Ht r v r' H)). Qed.
End Bound.
