(** C80: a small payload cannot make a decoder build a huge value. *)
From Verif Require Import Base Varint VarintSpec VarintProofs Wire WireProofs Codec CodecSpec CodecProofs Safety WireMore DecSound Amplify.
Local Open Scope nat_scope.

(** * Specification of the constant, for schemas whose types have no type parameters *)

(** All types inside a type; a map contains the pairs that are its entries. *)
Fixpoint inside (t : ty) : list ty :=
  t :: match t with
       | TVec u | TSet u | TOption u | TNonZero u | TGen u | TArray u _ => inside u
       | TMap k v => TTuple [k; v] :: inside k ++ inside v
       | TTuple ts => flat_map inside ts
       | _ => []
       end.
(** The types of the fields of a schema and everything inside them. *)
Definition field_types (E : env) : list ty :=
  flat_map (fun d => flat_map (fun fs => flat_map (fun f => inside (payload_ty (f_ty f))) (fs_list fs)) (fields_of d)) E.
Definition all_types (E : env) (t : ty) : list ty := inside t ++ field_types E.
(** The largest of them. *)
Definition factor (E : env) (t : ty) : nat := list_max (map (spine E) (all_types E t)).
Definition no_type_arguments (E : env) (t : ty) : Prop := forall i args, In (TExt i args) (all_types E t) -> args = [].

(** * Facts *)
Lemma inside_self t : In t (inside t).
Proof. destruct t; left; reflexivity. Qed.
Lemma spine_pos E t : 1 <= spine E t.
Proof. induction t using ty_ind'; cbn [spine]; try lia.
  - destruct t; cbn [spine] in *; try lia; discriminate.
  - destruct (nth_error E i); lia.
Qed.
Lemma inside_parts E t : forall u, In u (inside t) -> (forall i args, u <> TExt i args) -> incl (parts E u) (inside t).
Proof.
  induction t as [t Hl|t IH|k v IHk IHv|t IH|t IH|t IH|ts IH|t n IH|i args IH|t IH] using ty_ind'; intros u Hu Hx.
  1: { destruct t; try discriminate Hl; cbn [inside] in Hu; destruct Hu as [<-|[]]; intros y Hy; destruct Hy. }
  all: try (cbn [inside] in Hu; destruct Hu as [<-|Hu]; [intros y Hy; cbn [parts] in Hy; destruct Hy as [<-|[]]; right; apply inside_self|intros y Hy; right; exact (IH u Hu Hx y Hy)]).
  - cbn [inside] in Hu. destruct Hu as [<-|[<-|Hu]].
    + intros y [<-|[]]. right. left. reflexivity.
    + intros y [<-|[<-|[]]]; right; right; apply in_or_app; [left|right]; apply inside_self.
    + apply in_app_or in Hu as [Hu|Hu]; intros y Hy; right; right; apply in_or_app; [left; exact (IHk u Hu Hx y Hy)|right; exact (IHv u Hu Hx y Hy)].
  - cbn [inside] in Hu. rewrite Forall_forall in IH. destruct Hu as [<-|Hu]; intros y Hy; right; apply in_flat_map.
    + exists y. split; [exact Hy|apply inside_self].
    + apply in_flat_map in Hu as (t & Ht & Hu). exists t. split; [exact Ht|]. exact (IH t Ht u Hu Hx y Hy).
  - cbn [inside] in Hu. destruct Hu as [<-|[]]. exfalso. exact (Hx i args eq_refl).
Qed.
Lemma subst_nil t : subst [] t = t.
Proof.
  induction t as [t Hl|t IH|k v IHk IHv|t IH|t IH|t IH|ts IH|t n IH|i args IH|t IH] using ty_ind'; cbn [subst]; try congruence.
  - destruct t; try discriminate Hl; try reflexivity. cbn [subst]. destruct i; reflexivity.
  - f_equal. rewrite Forall_forall in IH. rewrite <- (map_id ts) at 2. apply map_ext_in. exact IH.
  - f_equal. rewrite Forall_forall in IH. rewrite <- (map_id args) at 2. apply map_ext_in. exact IH.
Qed.
Lemma inst_nil fs : inst [] fs = fs.
Proof.
  destruct fs as [k l]. unfold inst. cbn [fs_kind fs_list]. f_equal. rewrite <- (map_id l) at 2. apply map_ext. intros [n i t]. unfold subst_field. cbn [f_name f_id f_ty].
  rewrite subst_nil. reflexivity.
Qed.
Lemma field_inside E d fs f : In d E -> In fs (fields_of d) -> In f (fs_list fs) -> incl (inside (payload_ty (f_ty f))) (field_types E).
Proof.
  intros Hd Hfs Hf y Hy. apply in_flat_map. exists d. split; [exact Hd|]. apply in_flat_map. exists fs. split; [exact Hfs|]. apply in_flat_map. exists f. split; assumption.
Qed.
Lemma all_closed E t : no_type_arguments E t -> closed E (all_types E t).
Proof.
  intros Hn u Hu. destruct (match u with TExt _ _ => true | _ => false end) eqn:Ex.
  - destruct u as [| | | | | | | | | | | | | | | | | | | |i args| |]; try discriminate Ex. rewrite (Hn i args Hu). cbn [parts]. intros y Hy.
    destruct (nth_error E i) as [d|] eqn:Ei; [|destruct Hy]. apply in_flat_map in Hy as (fs & Hfs & Hy). rewrite inst_nil in Hy. apply in_map_iff in Hy as (f & <- & Hf).
    apply in_or_app. right. apply (field_inside E d fs f (nth_error_In _ _ Ei) Hfs Hf). apply inside_self.
  - assert (Hx : forall i args, u <> TExt i args) by (intros i args ->; discriminate Ex). apply in_app_or in Hu as [Hu|Hu].
    + intros y Hy. apply in_or_app. left. exact (inside_parts E t u Hu Hx y Hy).
    + apply in_flat_map in Hu as (d & Hd & Hu). apply in_flat_map in Hu as (fs & Hfs & Hu). apply in_flat_map in Hu as (f & Hf & Hu).
      intros y Hy. apply in_or_app. right. apply (field_inside E d fs f Hd Hfs Hf). exact (inside_parts E _ u Hu Hx y Hy).
Qed.
Lemma factor_max E t u : In u (all_types E t) -> spine E u <= factor E t.
Proof.
  intros Hu. pose proof (proj1 (list_max_le (map (spine E) (all_types E t)) _) (le_n _)) as Hall. rewrite Forall_forall in Hall. apply Hall. apply in_map. exact Hu.
Qed.
Lemma times_read K s w n : s <= K -> w <= s + K * (n - 1) -> w <= K * Nat.max 1 n.
Proof. intros Hs Hw. destruct n as [|n]; cbn [Nat.sub Nat.max] in *; [lia|]. rewrite Nat.sub_0_r in Hw. destruct n; nia. Qed.

(** * C80 *)

(** Whatever the payload, and whether or not something follows: a decoded value consists of at most [K] values and bytes for every byte that was read, where [K] depends on
    the types alone. *)
Theorem C80_factor : forall (E : env) (L : list ty) (K : nat) (root : bool) (t : ty) (r : list N) (v : val) (r' : list N),
  closed E L -> (forall u, In u L -> spine E u <= K) -> In t L -> decode E root t r = Ok (v, r') ->
  weight v <= spine E t + K * (length r - length r' - 1) /\ weight v <= K * Nat.max 1 (length r - length r').
Proof.
  intros E L K root t r v r' HL HK Ht H. assert (HK1 : 1 <= K) by (pose proof (spine_pos E t); specialize (HK t Ht); lia).
  pose proof (decode_weight E L K HL HK1 HK root t r v r' Ht H) as Hw. split; [exact Hw|]. exact (times_read K (spine E t) _ _ (HK t Ht) Hw).
Qed.

(** The constant of a schema without type arguments. *)
Theorem C80_schema : forall (E : env) (root : bool) (t : ty) (r : list N) (v : val) (r' : list N),
  no_type_arguments E t -> decode E root t r = Ok (v, r') -> weight v <= factor E t * Nat.max 1 (length r - length r').
Proof.
  intros E root t r v r' Hn H. refine (proj2 (C80_factor E (all_types E t) (factor E t) root t r v r' (all_closed E t Hn) (factor_max E t) _ H)).
  apply in_or_app. left. apply inside_self.
Qed.

(** A vec, set or map never has as many elements as its encoding has bytes, so a short payload has no long collection, whatever length it announces. *)
Lemma loop_count {T} (d : dec T) : reader_ok d -> forall n r xs, dloop d n r = Ok xs -> length xs <= length r.
Proof.
  intros Hd n r xs H. assert (Hf : fits 1 (fun _ : T => 1) 1 d) by (apply fits_pos; [exact (le_n 1)|exact Hd|intros; apply le_n]).
  pose proof (fits_loop 1 (le_n 1) (fun _ => 1) 1 d Hf (le_n _) n r xs H) as Hl. replace (list_sum (map (fun _ => 1) xs)) with (length xs) in Hl; [lia|].
  clear. induction xs as [|x xs IH]; [reflexivity|]. cbn [map list_sum fold_right length] in *. unfold list_sum in IH. lia.
Qed.
Lemma vec_count {T} (d : dec T) r xs r' : reader_ok d -> decode_vec d r = Ok (xs, r') -> length xs < length r - length r'.
Proof.
  intros Hd H. unfold decode_vec in H. apply bind_ok in H as ([len r1] & H1 & H). destruct (u64_consumes _ _ _ H1) as [_ Hc].
  unfold decode_elems in H. apply ensure_inv in H as [Hn H]. cbv zeta in H. apply bind_ok in H as (l & H2 & H). injection H as <- <-.
  pose proof (loop_count d Hd _ _ _ H2) as Hl. unfold lenN in Hn. rewrite firstn_length in Hl. rewrite skipn_length. lia.
Qed.
Lemma pair_reader {A B} (d : dec A) (d' : dec B) : reader_ok d -> reader_ok d' -> reader_ok (dpair d d').
Proof.
  intros Hd Hd' r a r' H. unfold dpair in H. apply bind_ok in H as ([k r1] & H1 & H). apply bind_ok in H as ([v r2] & H2 & H). injection H as <- <-.
  exact (suffix_trans _ _ _ (Hd' _ _ _ H2) (Hd _ _ _ H1)).
Qed.
Lemma map_of_count {A B} (eqb : A -> A -> bool) (l : list (A * B)) : length (map_of eqb l) <= length l.
Proof.
  pose proof (map_of_sum eqb (fun _ => 0) (fun _ => 0) l) as H.
  assert (G : forall m : list (A * B), list_sum (map (fun _ => 1 + (0 + 0)) m) = length m).
  { induction m as [|x m IH]; [reflexivity|]. cbn [map list_sum fold_right length] in *. unfold list_sum in IH. lia. }
  cbv beta in H. rewrite !G in H. exact H.
Qed.
Lemma set_of_count {A} (eqb : A -> A -> bool) (l : list A) : length (set_of eqb l) <= length l.
Proof.
  pose proof (set_of_sum eqb (fun _ => 1) l) as H. assert (G : forall m : list A, list_sum (map (fun _ => 1) m) = length m).
  { induction m as [|x m IH]; [reflexivity|]. cbn [map list_sum fold_right length] in *. unfold list_sum in IH. lia. }
  rewrite !G in H. exact H.
Qed.
Theorem C80_elements : forall (E : env) (root : bool) (t : ty) (r : list N) (v : val) (r' : list N),
  (exists u k w, t = TVec u \/ t = TSet u \/ t = TMap k w) -> decode E root t r = Ok (v, r') ->
  length (match v with VList l => map (fun _ => tt) l | VMap l => map (fun _ => tt) l | _ => [] end) < length r - length r'.
Proof.
  intros E root t r v r' (u & k & w & Ht) H. unfold decode in H.
  assert (Hrd : forall x, reader_ok (dec_ty (dec_ext E (S (length r))) false x)) by (intros x; apply dec_ty_reader, dec_ext_reader).
  destruct Ht as [->|[->| ->]]; cbn [dec_ty] in H; unfold dmap in H; apply bind_ok in H as ([l r1] & H1 & H); injection H as <- <-; cbv iota; rewrite map_length.
  - exact (vec_count _ _ _ _ (Hrd _) H1).
  - unfold decode_hash_set in H1. apply bind_ok in H1 as ([m r2] & H1 & H2). injection H2 as <- <-. pose proof (vec_count _ _ _ _ (Hrd _) H1). pose proof (set_of_count val_eqb m). lia.
  - unfold decode_hash_map in H1. apply bind_ok in H1 as ([m r2] & H1 & H2). injection H2 as <- <-.
    pose proof (vec_count _ _ _ _ (pair_reader _ _ (Hrd _) (Hrd _)) H1). pose proof (map_of_count val_eqb m). lia.
Qed.

(** What the constant has to cover: the size of an array and of a tuple is in the type, not in the payload.  Two bytes are enough for an array of a thousand empty structs. *)
Theorem C80_arrays : forall n, exists E r, length r = 2 /\ decode E true (TArray (TExt 0 []) (S n)) r = Ok (VList (repeat (VRec []) (S n)), []).
Proof.
  intros n. exists [DStruct (Fields KUnit [])], [1%N; 0%N]. split; [reflexivity|].
  assert (G : forall m (d : dec val), (forall r, d r = Ok (VRec [], r)) -> darr d m [0%N] = Ok (repeat (VRec []) m)).
  { clear n. induction m as [|m IH]; intros d Hd; [reflexivity|]. cbn [darr]. rewrite Hd. cbn [bind]. rewrite (IH d Hd). reflexivity. }
  unfold decode. cbn [dec_ty]. unfold dmap, decode_array.
  assert (Hl : decode_u64 [1%N; 0%N] = Ok (1%N, [0%N])) by reflexivity. rewrite Hl. cbn [bind].
  assert (He : forall A (k : res A), ensure_size [0%N] 1 k = k) by reflexivity. rewrite He. cbv zeta. change (N.to_nat 1) with 1. change (firstn 1 [0%N]) with [0%N].
  rewrite (G (S n)).
  - cbn [bind]. rewrite repeat_length, Nat.eqb_refl. reflexivity.
  - intros r. reflexivity.
Qed.

(** ** A concrete case: a recursive tree with names and a map *)
Definition tree : env :=
  [DStruct (Fields KNamed [Field [97%N] 1 TString; Field [98%N] 2 (TVec (TExt 0 [])); Field [99%N] 3 (TMap TU8 (TOption TU8))])].
Example tree_no_args : no_type_arguments tree (TExt 0 []).
Proof. intros i args H. cbn in H. repeat (destruct H as [H|H]; [try discriminate H; injection H; congruence|]). destruct H. Qed.
Example tree_factor : factor tree (TExt 0 []) = 4.
Proof. reflexivity. Qed.
(** A tree with one child: 17 bytes, a value of weight 12, at most 4 * 17. *)
Definition one_child : val := VRec [VBytes [104%N]; VList [VRec [VBytes []; VList []; VMap []]]; VMap [(VInt 1, VNone)]].
Example tree_value : exists r, decode tree true (TExt 0 []) r = Ok (one_child, []) /\ weight one_child = 12 /\ length r = 17.
Proof. exists (encode tree true (TExt 0 []) one_child). split; [vm_compute; reflexivity|split; [reflexivity|vm_compute; reflexivity]]. Qed.
