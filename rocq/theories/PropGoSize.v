(** C81: what the Size methods of the generated Go code return. *)
From Verif Require Import Base Varint Wire WireProofs Codec CodecSpec CodecProofs Safety Go GoSpec GoSize PropGo.
Local Open Scope nat_scope.

(** * Specification *)

(** [c] writes [n] bytes behind what is there. *)
Definition adds (c : writer) (n : nat) : Prop := forall w, length (c w) = length w + n.

(** The runtime's Size functions return what its Encode functions write. *)
Record sizes_match (R : go_buf) (Z : go_sizes) : Prop := SizesMatch {
  sm_prim : forall t v, gz_prim Z t v = length (gb_prim R t v);
  sm_seq : forall k cs ns, Forall2 adds cs ns -> adds (gb_seq R k cs) (gz_seq Z k ns);
  sm_map : forall cs ns, Forall2 (fun c n => adds (fst c) (fst n) /\ adds (snd c) (snd n)) cs ns -> adds (gb_map R cs) (gz_map Z ns);
  sm_some : forall c n, adds c n -> adds (gb_option R (Some c)) (gz_option Z (Some n));
  sm_none : adds (gb_option R None) (gz_option Z None);
  sm_field : forall id c n, adds c n -> adds (gb_field R id c) (gz_field Z id n);
  sm_field_some : forall id c n, adds c n -> adds (gb_field_option R id (Some c)) (gz_field_option Z id (Some n));
  sm_field_none : forall id, adds (gb_field_option R id None) (gz_field_option Z id None);
  sm_end : gz_end Z = length (gb_prim R (TUInt W32) (VInt (Z.of_N (gb_end R))))
}.

(** No enum value anywhere inside. *)
Fixpoint no_enum (v : val) : bool :=
  match v with
  | VList l | VRec l => forallb no_enum l
  | VMap l => forallb (fun kv => no_enum (fst kv) && no_enum (snd kv)) l
  | VSome x => no_enum x
  | VVar _ _ => false
  | _ => true
  end.

(** Every call of a function literal passes as many arguments as it has parameters. *)
Fixpoint arity_ok (e : gexpr) : bool :=
  match e with
  | call_fn cbs => forallb (fun cb => arity_ok (snd cb)) cbs
  | call_lit params body args => (params =? args) && forallb arity_ok body
  end.
(** No tuple anywhere inside a type (arguments of a reference are not rendered by Size). *)
Fixpoint no_tuple (t : ty) : bool :=
  match t with
  | TVec t | TSet t | TOption t | TNonZero t | TArray t _ => no_tuple t
  | TMap k v => no_tuple k && no_tuple v
  | TTuple _ => false
  | _ => true
  end.

(** * Proofs *)
Section WithBuf.
Variables (R : go_buf) (Z : go_sizes) (E : env).
Hypothesis HM : sizes_match R Z.
Definition exact_at (v : val) : Prop := forall t, adds (go_enc R E t v) (go_size Z E t v).

Lemma all_adds t l : Forall (fun v => no_enum v = true -> exact_at v) l -> forallb no_enum l = true -> Forall2 adds (map (go_enc R E t) l) (map (go_size Z E t) l).
Proof.
  intros H. induction H as [|v l Hv H IH]; intros Hn; [constructor|]. cbn [forallb] in Hn. apply andb_prop in Hn as [H1 H2]. cbn [map]. constructor; [apply Hv, H1|apply IH, H2].
Qed.
Lemma tuple_adds : forall l ts w s, Forall (fun v => no_enum v = true -> exact_at v) l -> forallb no_enum l = true ->
  length (go_tuple (go_enc R E) ts l w) + s = length w + gz_tuple (go_size Z E) ts l s.
Proof.
  intros l. induction l as [|v l IH]; intros ts w s H Hn; [destruct ts; cbn; lia|]. inversion H as [|? ? Hv H']; subst. cbn [forallb] in Hn. apply andb_prop in Hn as [H1 H2].
  destruct ts as [|t ts]; cbn [go_tuple gz_tuple]; [lia|]. specialize (IH ts (go_enc R E t v w) (s + go_size Z E t v) H' H2). pose proof (Hv H1 t w). lia.
Qed.
Lemma fields_adds : forall l fs w s, Forall (fun v => no_enum v = true -> exact_at v) l -> forallb no_enum l = true ->
  (forall v, In v l -> match v with VSome x => exact_at x | _ => True end) ->
  length (go_fields R (go_enc R E) fs l w) + s = length w + gz_fields Z (go_size Z E) fs l s.
Proof.
  intros l. induction l as [|v l IH]; intros fs w s H Hn Hs; [destruct fs; cbn; lia|]. inversion H as [|? ? Hv H']; subst. cbn [forallb] in Hn. apply andb_prop in Hn as [H1 H2].
  destruct fs as [|f fs]; cbn [go_fields gz_fields]; [lia|]. specialize (Hv H1). pose proof (Hs v (or_introl eq_refl)) as Hx.
  assert (G : exists n, gz_fields Z (go_size Z E) (f :: fs) (v :: l) s = gz_fields Z (go_size Z E) fs l (s + n) /\
    forall w, length (match f_ty f with TOption t => gb_field_option R (f_id f) (match v with VSome x => Some (go_enc R E t x) | _ => None end) w
                 | t => gb_field R (f_id f) (go_enc R E t v) w end) = length w + n).
  { cbn [gz_fields]. destruct (f_ty f); eexists; (split; [reflexivity|]); try (apply (sm_field R Z HM); apply Hv).
    destruct v; try apply (sm_field_none R Z HM). apply (sm_field_some R Z HM). apply Hx. }
  destruct G as (n & Hg & Hw). cbn [gz_fields] in Hg. rewrite Hg.
  specialize (IH fs (match f_ty f with TOption t => gb_field_option R (f_id f) (match v with VSome x => Some (go_enc R E t x) | _ => None end) w
                 | t => gb_field R (f_id f) (go_enc R E t v) w end) (s + n) H' H2 (fun x Hin => Hs x (or_intror Hin))).
  rewrite Hw in IH. lia.
Qed.
Lemma prim_adds t v : adds (fun w => w ++ gb_prim R t v) (gz_prim Z t v).
Proof. intros w. rewrite app_length, (sm_prim R Z HM). reflexivity. Qed.

(** The values inside options that are fields are needed one level deeper: [deep]. *)
Definition deep (v : val) : Prop := (no_enum v = true -> exact_at v) /\ match v with VSome x => no_enum x = true -> exact_at x | _ => True end.
Lemma size_exact : forall v, deep v.
Proof.
  intros v. induction v as [b|z|b|l|l IH|l IH| |x IH|l IH|i l IH] using val_ind'; (split; [|try exact I]); try (intros Hn t w; cbn [go_enc go_size]; destruct (go_inner t); apply prim_adds).
  - intros Hn t w. cbn [no_enum] in Hn. assert (IH' : Forall (fun v => no_enum v = true -> exact_at v) l) by (eapply Forall_impl; [|exact IH]; intros v Hv; exact (proj1 Hv)).
    cbn [go_enc go_size]. destruct (go_inner t); try apply prim_adds; try (apply (sm_seq R Z HM); apply all_adds; assumption).
    pose proof (tuple_adds l ts w 0 IH' Hn). lia.
  - intros Hn t w. cbn [no_enum] in Hn. cbn [go_enc go_size]. destruct (go_inner t); try apply prim_adds. apply (sm_map R Z HM). clear w.
    induction IH as [|[k v] l [Hk Hv] IH IHl]; [constructor|]. cbn [forallb fst snd] in *. apply andb_prop in Hn as [H1 H2]. apply andb_prop in H1 as [H0 H1]. cbn [map fst snd].
    constructor; [split; [apply Hk, H0|apply Hv, H1]|apply IHl, H2].
  - intros Hn t w. cbn [go_enc go_size]. destruct (go_inner t); try apply prim_adds. apply (sm_none R Z HM).
  - intros Hn t w. cbn [go_enc go_size]. destruct (go_inner t); try apply prim_adds. apply (sm_some R Z HM). exact (proj1 IH Hn _).
  - exact (proj1 IH).
  - intros Hn t w. cbn [no_enum] in Hn. assert (IH' : Forall (fun v => no_enum v = true -> exact_at v) l) by (eapply Forall_impl; [|exact IH]; intros v Hv; exact (proj1 Hv)).
    cbn [go_enc go_size]. destruct (go_inner t); try apply prim_adds. destruct (nth_error E i) as [[fs|vs]|]; try (cbn; lia).
    assert (Hd : forall v, In v l -> match v with VSome x => exact_at x | _ => True end).
    { intros x Hx. rewrite Forall_forall in IH. rewrite forallb_forall in Hn. pose proof (IH x Hx) as [_ Hd]. pose proof (Hn x Hx) as Hnx. destruct x; try exact I. exact (Hd Hnx). }
    pose proof (fields_adds l (fs_list (inst args fs)) w 0 IH' Hn Hd) as Hf.
    unfold go_body, gz_body. destruct (fs_kind (inst args fs)); [| |lia]; rewrite app_length, (sm_end R Z HM); lia.
  - intros Hn. discriminate Hn.
Qed.
End WithBuf.

(** * C81 *)

(** Whatever the runtime, as long as its Size functions fit its Encode functions: [Size] of a value without enums is the number of bytes [Encode] writes for it. *)
Theorem C81_size_exact_partial : forall (R : go_buf) (Z : go_sizes) (E : env) (t : ty) (v : val) (w : list N),
  sizes_match R Z -> no_enum v = true -> length (go_enc R E t v w) = length w + go_size Z E t v.
Proof. intros R Z E t v w HM Hn. exact (proj1 (size_exact R Z E HM v) Hn t w). Qed.

(** It never is for an enum's variant with fields: [Encode] returns nothing, and [Size] counts at least the end marker. *)
Theorem C81_enum_refuted : forall (R : go_buf) (Z : go_sizes) (E : env) (i idx : nat) (args : list ty) (vars : list variant) (var : variant) (vs : list val) (w : list N),
  0 < gz_end Z -> nth_error E i = Some (DEnum vars) -> nth_error vars idx = Some var -> fs_kind (v_fields var) <> KUnit ->
  length (go_enc R E (TExt i args) (VVar idx vs) w) < length w + go_size Z E (TExt i args) (VVar idx vs).
Proof.
  intros R Z E i idx args vars var vs w He Hi Hx Hk. cbn [go_enc go_size go_inner]. rewrite Hi, Hx. unfold gz_body. cbn [inst fs_kind].
  destruct (fs_kind (v_fields var)); [| |congruence]; cbn [length]; lia.
Qed.
(** The emitted expression for a type passes the right number of arguments exactly if no tuple occurs in the type, so no [Size] method of a struct with a tuple compiles. *)
Lemma expr_arity t : forall e, size_expr t = Some e -> arity_ok e = no_tuple t.
Proof.
  induction t as [t Hl|t IH|k v IHk IHv|t IH|t IH|t IH|ts IH|t n IH|i args IH|t IH] using ty_ind'; intros e H; cbn [size_expr] in H.
  - destruct t; try discriminate Hl; injection H as <-; reflexivity.
  - destruct (size_expr t) as [a|] eqn:Ea; [|discriminate H]. injection H as <-. cbn [arity_ok forallb snd no_tuple]. rewrite (IH a eq_refl), andb_true_r. reflexivity.
  - destruct (size_expr k) as [a|] eqn:Ea; [|discriminate H]. destruct (size_expr v) as [b|] eqn:Eb; [|discriminate H]. injection H as <-.
    cbn [arity_ok forallb snd no_tuple]. rewrite (IHk a eq_refl), (IHv b eq_refl), andb_true_r. reflexivity.
  - destruct (size_expr t) as [a|] eqn:Ea; [|discriminate H]. injection H as <-. cbn [arity_ok forallb snd no_tuple]. rewrite (IH a eq_refl), andb_true_r. reflexivity.
  - destruct (size_expr t) as [a|] eqn:Ea; [|discriminate H]. injection H as <-. cbn [arity_ok forallb snd no_tuple]. rewrite (IH a eq_refl), andb_true_r. reflexivity.
  - cbn [no_tuple]. destruct (go_nz t); [|discriminate H]. exact (IH e H).
  - destruct ((2 <=? length ts) && (length ts <=? 12)); [|discriminate H]. match type of H with option_map _ ?x = _ => destruct x as [es|]; [|discriminate H] end.
    injection H as <-. reflexivity.
  - destruct ((1 <=? n) && (n <=? 32)); [|discriminate H]. destruct (size_expr t) as [a|] eqn:Ea; [|discriminate H]. injection H as <-.
    cbn [arity_ok forallb snd no_tuple]. rewrite (IH a eq_refl), andb_true_r. reflexivity.
  - injection H as <-. reflexivity.
  - injection H as <-. reflexivity.
Qed.
Theorem C81_tuple_calls_exact : forall (t : ty) (e : gexpr), size_expr t = Some e -> (arity_ok e = true <-> no_tuple t = true).
Proof. intros t e H. rewrite (expr_arity t e H). reflexivity. Qed.
(** The two halves of the generator panic for the same types (without references' arguments). *)
Theorem C81_same_types : forall t, go_renders t = true <-> exists e, size_expr t = Some e.
Proof.
  assert (G : forall t, go_renders t = match size_expr t with Some _ => true | None => false end).
  { intros t. induction t as [t Hl|t IH|k v IHk IHv|t IH|t IH|t IH|ts IH|t n IH|i args IH|t IH] using ty_ind'; cbn [go_renders size_expr].
    - destruct t; try discriminate Hl; reflexivity.
    - rewrite IH. destruct (size_expr t); reflexivity.
    - rewrite IHk, IHv. destruct (size_expr k), (size_expr v); reflexivity.
    - rewrite IH. destruct (size_expr t); reflexivity.
    - rewrite IH. destruct (size_expr t); reflexivity.
    - rewrite IH. destruct (go_nz t); [|reflexivity]. destruct (size_expr t); reflexivity.
    - destruct ((2 <=? length ts) && (length ts <=? 12)); [|reflexivity]. cbn [andb].
      induction IH as [|t ts Ht IH IHl]; [reflexivity|]. cbn [forallb]. rewrite Ht, IHl. destruct (size_expr t); [|reflexivity]. cbn [andb].
      match goal with |- match option_map _ ?x with _ => _ end = _ => destruct x; reflexivity end.
    - destruct ((1 <=? n) && (n <=? 32)); [|reflexivity]. cbn [andb]. rewrite IH. destruct (size_expr t); reflexivity.
    - reflexivity.
    - reflexivity. }
  intros t. rewrite G. destruct (size_expr t) as [e|]; split; intros H; try discriminate H; [exists e; reflexivity|reflexivity|destruct H as [e H]; discriminate H].
Qed.

(** ** A concrete case: a runtime whose functions match, and a struct with an optional field, a vec and a nested struct *)
Definition rust_sizes : go_sizes := {|
  gz_prim := fun t v => length (encode [] false t v);
  gz_seq := fun _ ns => length (encode_u64 (N.of_nat (list_sum ns))) + list_sum ns;
  gz_map := fun ns => let n := list_sum (map (fun n => fst n + snd n) ns) in length (encode_u64 (N.of_nat n)) + n;
  gz_option := fun o => match o with Some n => 1 + n | None => 1 end;
  gz_field := fun id n => length (encode_id (FieldId id EVarint)) + n;
  gz_field_option := fun id o => match o with Some n => length (encode_id (FieldId id EVarint)) + n | None => 0 end;
  gz_end := length (encode_u32 END_MARKER) |}.
Lemma concat_adds cs ns : Forall2 adds cs ns -> length (concat (map (fun c : writer => c []) cs)) = list_sum ns.
Proof. induction 1 as [|c n cs ns Hc H IH]; [reflexivity|]. cbn [map concat list_sum fold_right]. rewrite app_length, IH, Hc. reflexivity. Qed.
Lemma concat_adds2 cs ns : Forall2 (fun c n => adds (fst c) (fst n) /\ adds (snd c) (snd n)) cs ns ->
  length (concat (map (fun c : writer * writer => fst c [] ++ snd c []) cs)) = list_sum (map (fun n => fst n + snd n) ns).
Proof. induction 1 as [|c n cs ns [H1 H2] H IH]; [reflexivity|]. cbn [map concat list_sum fold_right]. rewrite !app_length, IH, H1, H2. reflexivity. Qed.
Example C81_ex_runtime : sizes_match rust_buf rust_sizes.
Proof.
  constructor; cbn [gb_prim gb_seq gb_map gb_option gb_field gb_field_option gb_end rust_buf gz_prim gz_seq gz_map gz_option gz_field gz_field_option gz_end rust_sizes].
  - reflexivity.
  - intros k cs ns H w. unfold sequence, lenN. rewrite !app_length, (concat_adds cs ns H). lia.
  - intros cs ns H w. unfold sequence, lenN. cbv zeta. rewrite !app_length, (concat_adds2 cs ns H). lia.
  - intros c n H w. rewrite H, app_length. cbn [length]. lia.
  - intros w. rewrite app_length. reflexivity.
  - intros id c n H w. rewrite H, app_length. lia.
  - intros id c n H w. rewrite H, app_length. lia.
  - intros id w. lia.
  - reflexivity.
Qed.
Definition go_pair : env := [DStruct (Fields KNamed [Field [97%N] 1 (TOption TU8); Field [98%N] 2 (TVec (TUInt W32)); Field [99%N] 3 (TExt 1 [])]); DStruct (Fields KUnnamed [Field [] 1 TString])].
Example C81_ex_size : go_size rust_sizes go_pair (TExt 0 []) (VRec [VSome (VInt 5); VList [VInt 1; VInt 300]; VRec [VBytes [104%N; 105%N]]]) = 14.
Proof. reflexivity. Qed.
Example C81_ex_tuple : size_expr (TVec (TTuple [TU8; TU8])) = Some (call_fn [(1, call_lit 0 [call_fn []; call_fn []] 1)]).
Proof. reflexivity. Qed.
