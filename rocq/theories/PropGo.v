(** Property theorems C48: the Go back end against the Rust back end.
    Every theorem holds for every Go runtime library [R]. *)
From Verif Require Import Base Varint Wire WireProofs Codec CodecSpec CodecProofs Safety
  Syntax Compiler Lower PropProject Go GoSpec GoProofs.
Local Open Scope N_scope.

(** * A runtime that follows the Rust one exists: the hypotheses below can be met *)
Definition sequence (bs : list (list N)) : list N := encode_u64 (lenN (concat bs)) ++ concat bs.
Definition rust_buf : go_buf := {|
  gb_prim := encode [] false;
  gb_seq := fun _ cs w => w ++ sequence (map (fun c : writer => c []) cs);
  gb_map := fun cs w => w ++ sequence (map (fun c : writer * writer => fst c [] ++ snd c []) cs);
  gb_option := fun o w => match o with Some c => c (w ++ [1]) | None => w ++ [0] end;
  gb_field := fun id c w => c (w ++ encode_id (FieldId id EVarint));
  gb_field_option := fun id o w => match o with Some c => c (w ++ encode_id (FieldId id EVarint)) | None => w end;
  gb_end := END_MARKER;
  gd_id := fun r => do (f, r') <- decode_id r; Ok (fid_value f, r');
  gd_prim := dec_ty no_ext false;
  gd_non_zero_prim := fun t => dec_ty no_ext false (TNonZero t);
  gd_seq := fun k => match k with SqVec => decode_vec | SqSet => decode_hash_set val_eqb | SqArray n => decode_array n end;
  gd_non_zero_seq := fun k => match k with SqVec => decode_non_zero_vec | _ => decode_non_zero_hash_set val_eqb end;
  gd_map := decode_hash_map val_eqb;
  gd_non_zero_map := decode_non_zero_hash_map val_eqb;
  gd_option := decode_option |}.

Lemma appends_nil cs bs : Forall2 appends cs bs -> map (fun c : writer => c []) cs = bs.
Proof. induction 1 as [|c b cs bs Hc H IH]; [reflexivity|]. cbn [map]. rewrite IH, Hc. reflexivity. Qed.

Example C48_ex_runtime : reads_like_rust rust_buf /\ writes_like_rust rust_buf.
Proof.
  split; [split; reflexivity|]. split; try reflexivity.
  - intros k cs bs H w. cbn [gb_seq rust_buf]. rewrite (appends_nil _ _ H). reflexivity.
  - intros cs bs H w. cbn [gb_map rust_buf].
    replace (map (fun c : writer * writer => fst c [] ++ snd c []) cs) with (map (fun b : list N * list N => fst b ++ snd b) bs); [reflexivity|].
    induction H as [|c b cs bs [H1 H2] H IH]; [reflexivity|]. cbn [map]. rewrite IH, H1, H2. reflexivity.
  - intros c b H w. cbn [gb_option rust_buf]. rewrite H, <- app_assoc. reflexivity.
  - intros w. reflexivity.
Qed.

(** * Rust writes, Go reads *)
Lemma go_loop_cons R d fs n s b r : go_loop R d fs (S n) s (b :: r)
  = do (id, r1) <- gd_id R (b :: r);
    match find_field id fs 0 with
    | Some (k, f) => do (v, r2) <- d (f_ty f) r1; go_loop R d fs n (set_slot k v s) r2
    | None => go_loop R d fs n s r1
    end.
Proof. reflexivity. Qed.
Lemma go_ext_struct R E n i args fs r : nth_error E i = Some (DStruct fs) ->
  go_ext R E (S n) i args r = dmap VRec (go_dec_body R (S n) (go_dec_ty R (go_ext R E n)) (inst args fs)) r.
Proof. intros H. cbn [go_ext]. rewrite H. reflexivity. Qed.

Lemma go_struct R E i args fs vs root fuel :
  reads_like_rust R -> env_ok E = true -> nth_error E i = Some (DStruct fs) -> fs_kind fs <> KUnit ->
  (forall f v, In (f, v) (combine (fs_list (inst args fs)) vs) -> alike f v) ->
  typed E (TExt i args) (VRec vs) = true -> prefix_ok E (TExt i args) (VRec vs) = true ->
  lenN (encode E root (TExt i args) (VRec vs)) < 2 ^ 64 ->
  (length (encode E root (TExt i args) (VRec vs)) <= fuel)%nat ->
  length vs = length (fs_list (inst args fs))
  /\ go_ext R E fuel i args (encode E root (TExt i args) (VRec vs))
     = do xs <- go_found (fs_kind fs) (fs_list (inst args fs)) (slots_of (fs_list (inst args fs)) vs); Ok (VRec xs, []).
Proof.
  intros HR HE Hi Hk Hal Ht Hp Hl Hf.
  pose proof (env_struct E HE i fs Hi) as Hok. apply (inst_ok args) in Hok.
  destruct (fields_ok_ids _ Hok) as (Hnd & Hids & _).
  cbn [typed core head_ok andb] in Ht. rewrite Hi in Ht.
  cbn [prefix_ok core] in Hp. rewrite Hi in Hp.
  cbn [encode core] in *. rewrite Hi in *. unfold encode_body in *.
  change (fs_kind (inst args fs)) with (fs_kind fs) in *.
  assert (He : match fs_kind fs with KUnit => [] | _ => encode_fields (encode E) (fs_list (inst args fs)) vs ++ encode_u32 END_MARKER end
     = encode_fields (encode E) (fs_list (inst args fs)) vs ++ encode_u32 END_MARKER) by (destruct (fs_kind fs); congruence).
  rewrite He in *.
  pose proof (all2_length _ _ _ Ht) as Hlen. rewrite map_length in Hlen.
  split; [symmetry; exact Hlen|].
  assert (Hpos : (0 < length (encode_fields (encode E) (fs_list (inst args fs)) vs ++ encode_u32 END_MARKER))%nat).
  { rewrite app_length. change (length (encode_u32 END_MARKER)) with 1%nat. lia. }
  destruct fuel as [|fuel]; [lia|]. cbn [go_ext]. rewrite Hi.
  unfold dmap, go_dec_body.
  rewrite (go_loop_encode R E HR (go_dec_ty R (go_ext R E fuel)) (fs_list (inst args fs)) vs [] []).
  - cbn [app bind]. change (fs_kind (inst args fs)) with (fs_kind fs).
    destruct (go_found (fs_kind fs) (fs_list (inst args fs)) (slots_of (fs_list (inst args fs)) vs)); reflexivity.
  - exact Hnd.
  - exact Hids.
  - reflexivity.
  - symmetry. exact Hlen.
  - exact Hal.
  - intros f v x r Hin Hs. destruct (alike_payload f v x (Hal f v Hin) Hs) as (-> & Hpay & Hpl).
    rewrite (plain_dec R HR (go_ext R E fuel) (dec_ext E (S (length (encode E true (f_ty f) x ++ r)))) (f_ty f) true Hpl).
    apply (proj1 (RT_all E HE x)).
    + apply (all2_combine _ _ _ Ht (f_ty f) x). apply combine_map_l. exact Hin.
    + apply (all2_combine _ _ _ Hp (f_ty f) x). apply combine_map_l. exact Hin.
    + pose proof (encode_fields_in (encode E) _ vs f x x Hin Hs) as Hle. rewrite Hpay in Hle. rewrite lenN_app in Hl. lia.
    + lia.
  - exact Hf.
Qed.

(** Structs whose fields are of plain types (see [plain]: no references, tuples or type
    parameters) and not optional are read back by the Go code, for every runtime that reads like
    the Rust one. *)
Theorem C48_go_reads_rust_partial : forall (R : go_buf) (E : env) (i : nat) (args : list ty) (fs : fields)
    (vs : list val) (root : bool) (fuel : nat),
  reads_like_rust R -> env_ok E = true -> nth_error E i = Some (DStruct fs) -> fs_kind fs <> KUnit ->
  forallb (fun f => plain_field (f_ty f)) (fs_list (inst args fs)) = true ->
  typed E (TExt i args) (VRec vs) = true -> prefix_ok E (TExt i args) (VRec vs) = true ->
  lenN (encode E root (TExt i args) (VRec vs)) < 2 ^ 64 ->
  (length (encode E root (TExt i args) (VRec vs)) <= fuel)%nat ->
  go_ext R E fuel i args (encode E root (TExt i args) (VRec vs)) = Ok (VRec vs, []).
Proof.
  intros R E i args fs vs root fuel HR HE Hi Hk Hpl Ht Hp Hl Hf. rewrite forallb_forall in Hpl.
  destruct (go_struct R E i args fs vs root fuel HR HE Hi Hk) as [Hlen ->]; try assumption.
  - intros f v Hin. left. apply Hpl. eapply in_combine_l. exact Hin.
  - rewrite go_found_all; [reflexivity|exact Hlen|]. intros f v Hin. apply Hpl. eapply in_combine_l. exact Hin.
Qed.
Print Assumptions C48_go_reads_rust_partial.

(** [struct S { a: u32 @1, b: vec<option<string>> @2, c: non_zero<hash_map<u8, bool>> @5 }] *)
Definition go_demo : env :=
  [DStruct (Fields KNamed [Field [97] 1 (TUInt W32); Field [98] 2 (TVec (TOption TString));
     Field [99] 5 (TNonZero (TMap TU8 TBool))])].
Definition go_value : list val :=
  [VInt 300; VList [VNone; VSome (VBytes [104; 105])]; VMap [(VInt 7, VBool true)]].
Example C48_ex :
  env_ok go_demo = true
  /\ forallb (fun f => plain_field (f_ty f)) (fs_list (inst [] (Fields KNamed [Field [97] 1 (TUInt W32);
       Field [98] 2 (TVec (TOption TString)); Field [99] 5 (TNonZero (TMap TU8 TBool))]))) = true
  /\ typed go_demo (TExt 0 []) (VRec go_value) = true /\ prefix_ok go_demo (TExt 0 []) (VRec go_value) = true
  /\ encode go_demo true (TExt 0 []) (VRec go_value) = [8; 172; 2; 17; 5; 0; 1; 2; 104; 105; 41; 2; 7; 1; 0]
  /\ go_ext rust_buf go_demo 20 0 [] [8; 172; 2; 17; 5; 0; 1; 2; 104; 105; 41; 2; 7; 1; 0] = Ok (VRec go_value, []).
Proof. vm_compute. repeat split. Qed.

(** An absent optional field makes the Go code fail: it insists on every field. *)
Theorem C48_absent_option_refuted : forall (R : go_buf) (E : env) (i : nat) (args : list ty) (fs : fields)
    (vs : list val) (root : bool) (fuel : nat),
  reads_like_rust R -> env_ok E = true -> nth_error E i = Some (DStruct fs) -> fs_kind fs <> KUnit ->
  (forall f v, In (f, v) (combine (fs_list (inst args fs)) vs) ->
     plain_field (f_ty f) = true \/ ((exists t, f_ty f = TOption t) /\ v = VNone)) ->
  (exists f t, In (f, VNone) (combine (fs_list (inst args fs)) vs) /\ f_ty f = TOption t) ->
  typed E (TExt i args) (VRec vs) = true -> prefix_ok E (TExt i args) (VRec vs) = true ->
  lenN (encode E root (TExt i args) (VRec vs)) < 2 ^ 64 ->
  (length (encode E root (TExt i args) (VRec vs)) <= fuel)%nat ->
  exists id name, go_ext R E fuel i args (encode E root (TExt i args) (VRec vs)) = Err (MissingField id name).
Proof.
  intros R E i args fs vs root fuel HR HE Hi Hk Hall (f0 & t0 & Hin0 & Hf0) Ht Hp Hl Hf.
  assert (Hnone : forall f t, f_ty f = TOption t -> slot_of f VNone = None) by (intros f t Hft; unfold slot_of; rewrite Hft; reflexivity).
  destruct (go_struct R E i args fs vs root fuel HR HE Hi Hk) as [Hlen ->]; try assumption.
  - intros f v Hin. destruct (Hall f v Hin) as [H|[[t H] ->]]; [left; exact H|right; eapply Hnone; exact H].
  - destruct (go_found_none (fs_kind fs) (fs_list (inst args fs)) vs Hlen) as (g & _ & ->).
    + exists f0, VNone. split; [exact Hin0|]. eapply Hnone. exact Hf0.
    + cbn [bind]. eexists. eexists. reflexivity.
Qed.
Print Assumptions C48_absent_option_refuted.

(** [struct S { a: option<u8> @1 }] *)
Definition go_optional : env := [DStruct (Fields KNamed [Field [97] 1 (TOption TU8)])].
Example C48_ex_option : env_ok go_optional = true /\ typed go_optional (TExt 0 []) (VRec [VNone]) = true
  /\ encode go_optional true (TExt 0 []) (VRec [VNone]) = [0]
  /\ go_ext rust_buf go_optional 5 0 [] [0] = Err (MissingField 1 (Some [97])).
Proof. vm_compute. repeat split. Qed.

(** ... and a present one is silently read as absent, as the Go code expects a presence byte
    that the Rust code does not write for an optional field: here for every number but 1. *)
Theorem C48_present_option_refuted : forall (R : go_buf) (fuel : nat) (n : Z),
  reads_like_rust R -> (2 <= fuel)%nat -> (0 <= n < 256)%Z -> n <> 1%Z ->
  typed go_optional (TExt 0 []) (VRec [VSome (VInt n)]) = true
  /\ go_ext R go_optional fuel 0 [] (encode go_optional true (TExt 0 []) (VRec [VSome (VInt n)])) = Ok (VRec [VNone], []).
Proof.
  intros R fuel n HR Hf Hn H1. split; [cbn; lia|].
  change (encode go_optional true (TExt 0 []) (VRec [VSome (VInt n)])) with (encode_id (FieldId 1 EFixed1) ++ [Z.to_N n; 0]).
  destruct fuel as [|[|fuel]]; try lia.
  rewrite (go_ext_struct R go_optional _ 0 [] _ _ eq_refl).
  set (ext := go_ext R go_optional (S fuel)). clearbody ext.
  assert (Hid : gd_id R (encode_id (FieldId 1 EFixed1) ++ [Z.to_N n; 0]) = Ok (1, [Z.to_N n; 0])).
  { rewrite (rl_id R HR), decode_id_encode by reflexivity. reflexivity. }
  assert (Hid0 : gd_id R [0] = Ok (0, [])).
  { change [0] with (encode_id (FieldId 0 EVarint) ++ []). rewrite (rl_id R HR), decode_id_encode by reflexivity. reflexivity. }
  assert (Hopt : go_dec_ty R ext (TOption TU8) [Z.to_N n; 0] = Ok (VNone, [0])).
  { cbn [go_dec_ty]. rewrite (rl_option R HR), (rl_prim R HR) by reflexivity.
    unfold dmap, decode_option, decode_u8, get_u8, ensure_size.
    change (lenN [Z.to_N n; 0]) with 2. change (2 <? 1) with false. cbv iota. cbn [bind].
    replace (Z.to_N n =? 1) with false by lia. reflexivity. }
  change (encode_id (FieldId 1 EFixed1) ++ [Z.to_N n; 0]) with [10; Z.to_N n; 0] in *.
  change (inst [] (Fields KNamed [Field [97] 1 (TOption TU8)])) with (Fields KNamed [Field [97] 1 (TOption TU8)]).
  unfold dmap, go_dec_body. cbn [fs_list fs_kind map].
  rewrite go_loop_cons, Hid. cbn [bind].
  change (find_field 1 [Field [97] 1 (TOption TU8)] 0) with (Some (0%nat, Field [97] 1 (TOption TU8))). cbv iota beta.
  cbn [f_ty]. rewrite Hopt. cbn [bind set_slot].
  rewrite go_loop_cons, Hid0. cbn [bind].
  change (find_field 0 [Field [97] 1 (TOption TU8)] 0) with (@None (nat * field)). cbv iota beta.
  destruct fuel; reflexivity.
Qed.
Print Assumptions C48_present_option_refuted.

(** ** The Go struct decoder never stops before the end of the input *)
Theorem C48_go_reads_everything : forall (R : go_buf) (E : env) (fuel i : nat) (args : list ty) (r r' : list N) (v : val),
  go_ext R E fuel i args r = Ok (v, r') -> r' = [].
Proof. intros R E fuel i args r r' v H. eapply go_ext_end. exact H. Qed.
Print Assumptions C48_go_reads_everything.

(** A struct followed by anything else is therefore not read like the Rust code reads it ... *)
Theorem C48_trailing_refuted : forall (R : go_buf) (E : env) (fuel i : nat) (args : list ty) (v v' : val) (rest : list N) (root : bool),
  env_ok E = true -> typed E (TExt i args) v = true -> prefix_ok E (TExt i args) v = true ->
  lenN (encode E root (TExt i args) v) < 2 ^ 64 -> rest <> [] ->
  decode E root (TExt i args) (encode E root (TExt i args) v ++ rest) = Ok (v, rest)
  /\ go_ext R E fuel i args (encode E root (TExt i args) v ++ rest) <> Ok (v', rest).
Proof.
  intros R E fuel i args v v' rest root HE Ht Hp Hl Hr. split.
  - apply (proj1 (RT_all E HE v)); try assumption. apply le_n.
  - intros H. apply go_ext_end in H. contradiction.
Qed.
Print Assumptions C48_trailing_refuted.

(** ... and a struct that is a field swallows the fields after it. *)
(** [struct S { a: T @1, b: u8 @2 }  struct T { x: u8 @1 }] *)
Definition go_nested : env :=
  [DStruct (Fields KNamed [Field [97] 1 (TExt 1 []); Field [98] 2 TU8]); DStruct (Fields KNamed [Field [120] 1 TU8])].
Theorem C48_nested_struct_refuted : forall (R : go_buf) (fuel : nat) (x b : Z) (v : val) (r' : list N),
  reads_like_rust R -> (0 <= x < 256)%Z -> (0 <= b < 256)%Z ->
  typed go_nested (TExt 0 []) (VRec [VRec [VInt x]; VInt b]) = true
  /\ go_ext R go_nested fuel 0 [] (encode go_nested true (TExt 0 []) (VRec [VRec [VInt x]; VInt b])) <> Ok (v, r').
Proof.
  intros R fuel x b v r' HR Hx Hb. split; [cbn; lia|].
  change (encode go_nested true (TExt 0 []) (VRec [VRec [VInt x]; VInt b]))
    with (encode_id (FieldId 1 ELengthPrefixed) ++ [10; Z.to_N x; 0; 18; Z.to_N b; 0]).
  destruct fuel as [|fuel]; [discriminate|].
  rewrite (go_ext_struct R go_nested _ 0 [] _ _ eq_refl).
  assert (Hext : forall r3 y r4, go_ext R go_nested fuel 1 [] r3 = Ok (y, r4) -> r4 = []) by (intros; eapply go_ext_end; eassumption).
  set (ext := go_ext R go_nested fuel) in *. clearbody ext.
  assert (Hid : gd_id R (encode_id (FieldId 1 ELengthPrefixed) ++ [10; Z.to_N x; 0; 18; Z.to_N b; 0]) = Ok (1, [10; Z.to_N x; 0; 18; Z.to_N b; 0])).
  { rewrite (rl_id R HR), decode_id_encode by reflexivity. reflexivity. }
  change (encode_id (FieldId 1 ELengthPrefixed)) with [9] in *. cbn [app] in *.
  match goal with |- context [inst [] ?f] => change (inst [] f) with f end.
  unfold dmap, go_dec_body. cbn [fs_list fs_kind map].
  rewrite go_loop_cons, Hid. cbn [bind].
  change (find_field 1 [Field [97] 1 (TExt 1 []); Field [98] 2 TU8] 0) with (Some (0%nat, Field [97] 1 (TExt 1 []))). cbv iota beta.
  cbn [f_ty go_dec_ty]. intros H.
  apply bind_ok in H as ([xs r1] & H & _). apply bind_ok in H as ([s r2] & H1 & H).
  apply bind_ok in H1 as ([y r3] & Hy & H1). apply Hext in Hy. subst r3.
  destruct fuel; cbn [go_loop set_slot] in H1; injection H1 as <- <-; discriminate H.
Qed.
Print Assumptions C48_nested_struct_refuted.

(** * What Go writes *)
(** The payload of a field of a plain type is the one the Rust code writes, for every runtime
    that writes like the Rust one. *)
Theorem C48_go_payload_partial : forall (R : go_buf) (E : env) (t : ty) (v : val) (w : list N),
  writes_like_rust R -> plain t = true -> typed E t v = true -> prefix_ok E t v = true ->
  go_enc R E t v w = w ++ encode E true t v.
Proof.
  intros R E t v w HR Hpl Ht Hp. rewrite (plain_root E t v true Hpl). apply (plain_appends R E HR); assumption.
Qed.
Print Assumptions C48_go_payload_partial.

(** A struct of plain fields is the sequence of its payloads, each behind whatever the runtime
    writes for the id alone, and the end marker: the Rust bytes but for the field ids. *)
Theorem C48_go_struct_partial : forall (R : go_buf) (ids : N -> list N) (E : env) (i : nat) (args : list ty) (fs : fields)
    (vs : list val) (w : list N),
  writes_like_rust R -> (forall id c w, gb_field R id c w = c (w ++ ids id)) ->
  nth_error E i = Some (DStruct fs) -> fs_kind fs <> KUnit ->
  forallb (fun f => plain_field (f_ty f)) (fs_list (inst args fs)) = true ->
  typed E (TExt i args) (VRec vs) = true -> prefix_ok E (TExt i args) (VRec vs) = true ->
  go_enc R E (TExt i args) (VRec vs) w
  = w ++ concat (map (fun p => ids (f_id (fst p)) ++ encode E true (f_ty (fst p)) (snd p)) (combine (fs_list (inst args fs)) vs))
      ++ encode_u32 END_MARKER.
Proof.
  intros R ids E i args fs vs w HR Hg Hi Hk Hpl Ht Hp.
  cbn [typed core head_ok andb] in Ht. rewrite Hi in Ht. cbn [prefix_ok core] in Hp. rewrite Hi in Hp.
  cbn [go_enc go_inner]. rewrite Hi. unfold go_body. change (fs_kind (inst args fs)) with (fs_kind fs).
  assert (Hend : gb_prim R (TUInt W32) (VInt (Z.of_N (gb_end R))) = encode_u32 END_MARKER).
  { rewrite (wl_end R HR), (wl_prim R HR) by reflexivity. reflexivity. }
  assert (Hf : forall gs xs u, forallb (fun f => plain_field (f_ty f)) gs = true ->
    all2 (typed E) (map f_ty gs) xs = true -> all2 (prefix_ok E) (map f_ty gs) xs = true ->
    go_fields R (go_enc R E) gs xs u
    = u ++ concat (map (fun p => ids (f_id (fst p)) ++ encode E true (f_ty (fst p)) (snd p)) (combine gs xs))).
  { clear - HR Hg. induction gs as [|g gs IH]; intros [|x xs] u Hpl Ht Hp; try discriminate Ht;
      [cbn; symmetry; apply app_nil_r|].
    cbn [forallb map all2] in *. apply andb_true_iff in Hpl as [Hg1 Hpl]. apply andb_true_iff in Ht as [Ht1 Ht].
    apply andb_true_iff in Hp as [Hp1 Hp]. cbn [go_fields combine map concat fst snd].
    assert (Hpt : plain (f_ty g) = true) by (destruct (f_ty g); try discriminate Hg1; exact Hg1).
    pose proof (C48_go_payload_partial R E (f_ty g) x (u ++ ids (f_id g)) HR Hpt Ht1 Hp1) as Hpay.
    rewrite <- Hg in Hpay. rewrite IH by assumption.
    destruct (f_ty g); try discriminate Hg1; rewrite Hpay, <- !app_assoc; reflexivity. }
  destruct (fs_kind fs); try congruence; rewrite Hf by assumption; rewrite Hend, <- app_assoc; reflexivity.
Qed.
Print Assumptions C48_go_struct_partial.

Example C48_ex_write :
  go_enc rust_buf go_demo (TExt 0 []) (VRec go_value) [] = [8; 172; 2; 16; 5; 0; 1; 2; 104; 105; 40; 2; 7; 1; 0].
Proof. vm_compute. reflexivity. Qed.

(** No runtime can make the field ids right: a [u8] and a [u32] with the same value are
    indistinguishable to it, but the Rust code writes different ids. *)
Theorem C48_encoding_class_refuted : forall (R : go_buf) (n : Z), writes_like_rust R -> (0 <= n < 128)%Z ->
  let E := [DStruct (Fields KNamed [Field [97] 1 TU8]); DStruct (Fields KNamed [Field [97] 1 (TUInt W32)])] in
  env_ok E = true /\ typed E (TExt 0 []) (VRec [VInt n]) = true /\ typed E (TExt 1 []) (VRec [VInt n]) = true
  /\ go_enc R E (TExt 0 []) (VRec [VInt n]) [] = go_enc R E (TExt 1 []) (VRec [VInt n]) []
  /\ encode E true (TExt 0 []) (VRec [VInt n]) = [10; Z.to_N n; 0]
  /\ encode E true (TExt 1 []) (VRec [VInt n]) = [8; Z.to_N n; 0].
Proof.
  intros R n HR Hn E.
  assert (H32 : encode_uint W32 (Z.to_N n) = [Z.to_N n]).
  { assert (Hall : forallb (fun k => list_eqb N.eqb (encode_uint W32 (N.of_nat k)) [N.of_nat k]) (seq 0 128) = true) by reflexivity.
    rewrite forallb_forall in Hall. specialize (Hall (Z.to_nat n)). rewrite in_seq in Hall.
    specialize (Hall ltac:(lia)). replace (N.of_nat (Z.to_nat n)) with (Z.to_N n) in Hall by lia.
    destruct (encode_uint W32 (Z.to_N n)) as [|a [|b l]]; cbn in Hall; try discriminate Hall.
    - rewrite andb_true_r in Hall. apply N.eqb_eq in Hall. congruence.
    - rewrite andb_false_r in Hall. discriminate. }
  assert (H8 : gb_prim R TU8 (VInt n) = [Z.to_N n]) by (rewrite (wl_prim R HR) by reflexivity; reflexivity).
  assert (Hu : gb_prim R (TUInt W32) (VInt n) = [Z.to_N n]) by (rewrite (wl_prim R HR) by reflexivity; exact H32).
  split; [reflexivity|]. split; [cbn; lia|]. split; [unfold E; cbn [typed core head_ok nth_error inst fs_list map subst_field subst f_ty andb all2]; unfold in_unsigned; cbn; lia|].
  split; [|split].
  - change (gb_field R 1 (fun w => w ++ gb_prim R TU8 (VInt n)) [] ++ gb_prim R (TUInt W32) (VInt (Z.of_N (gb_end R)))
      = gb_field R 1 (fun w => w ++ gb_prim R (TUInt W32) (VInt n)) [] ++ gb_prim R (TUInt W32) (VInt (Z.of_N (gb_end R)))).
    rewrite H8, Hu. reflexivity.
  - reflexivity.
  - change (encode E true (TExt 1 []) (VRec [VInt n])) with ((([8] ++ encode_uint W32 (Z.to_N n)) ++ []) ++ [0]).
    rewrite H32. reflexivity.
Qed.
Print Assumptions C48_encoding_class_refuted.

(** [Encode] of an enum's variant returns no bytes at all, dropping even what was written before
    it; the Rust code writes at least the variant's id. *)
Theorem C48_enum_refuted : forall (R : go_buf) (E : env) (i idx : nat) (args : list ty) (vars : list variant) (var : variant)
    (vs : list val) (w : list N) (root : bool),
  nth_error E i = Some (DEnum vars) -> nth_error vars idx = Some var -> v_id var < 2 ^ 32 ->
  go_enc R E (TExt i args) (VVar idx vs) w = [] /\ encode E root (TExt i args) (VVar idx vs) <> [].
Proof.
  intros R E i idx args vars var vs w root Hi Hx Hv. cbn [go_enc go_inner encode core]. rewrite Hi, Hx.
  split; [reflexivity|]. pose proof (encode_uint_nonempty W32 (v_id var) Hv) as Hne.
  unfold encode_variant_id, encode_u32. destruct (encode_uint W32 (v_id var)); [congruence|discriminate].
Qed.
Print Assumptions C48_enum_refuted.

(** A tuple that is a field has no length prefix. *)
Theorem C48_tuple_refuted : forall (R : go_buf) (a b : Z), writes_like_rust R -> (0 <= a < 256)%Z -> (0 <= b < 256)%Z ->
  let t := TTuple [TU8; TU8] in let v := VList [VInt a; VInt b] in
  typed [] t v = true /\ go_enc R [] t v [] = [Z.to_N a; Z.to_N b] /\ encode [] true t v = [2; Z.to_N a; Z.to_N b].
Proof.
  intros R a b HR Ha Hb t v. split; [cbn; lia|]. split; [|reflexivity].
  change (([] ++ gb_prim R TU8 (VInt a)) ++ gb_prim R TU8 (VInt b) = [Z.to_N a; Z.to_N b]).
  rewrite !(wl_prim R HR) by reflexivity. reflexivity.
Qed.
Print Assumptions C48_tuple_refuted.

(** * The Go generator itself *)
(** It panics on a project that passes all checks and for which the Rust back end works:
    [struct A([u8; 33]);] *)
Theorem C48_generator_refuted :
  let values := [([109], PSchema [] [field1 [65] (PArray (PPrim PrU8) 33)])] in
  accepted values
  /\ lower_project (outs_of values) = Some [DStruct (Fields KUnnamed [Field [110; 48] 1 (TArray TU8 33)])]
  /\ go_renders (TArray TU8 33) = false.
Proof.
  split; [|split; reflexivity].
  split; [apply project_check_ok; reflexivity|]. split; [reflexivity|]. split; [repeat constructor|reflexivity].
Qed.
Print Assumptions C48_generator_refuted.
