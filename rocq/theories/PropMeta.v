(** Property theorems C41 and C42: suggested ids and reported wire sizes. *)
From Verif Require Import Base Varint Wire Codec CodecSpec SchemaSpec Size Syntax Compiler CompilerSpec CompilerMore
  Lower LowerProofs Meta MetaSpec MetaProofs.
Local Open Scope N_scope.

(** * C41: suggested ids *)

(** The suggested variant id is a [u32] other than 0 that is larger than every id in use,
    unless the largest [u32] is in use. *)
Theorem C41_variant_id_unused_partial : forall (chk : bool) (vs : list svariant),
  (forall v, In v vs -> sv_id v < 2 ^ 32 - 1) ->
  exists n, next_variant_id chk vs = Some n /\ 1 <= n < 2 ^ 32 /\ forall v, In v vs -> sv_id v < n.
Proof.
  intros chk vs H. unfold next_variant_id, succ_u32.
  assert (Hm : max_id (map sv_id vs) < u32_max).
  { destruct (max_id_in (map sv_id vs)) as [->|Hi]; [reflexivity|]. apply in_map_iff in Hi as (v & <- & Hv). exact (H v Hv). }
  destruct (N.eqb_spec (max_id (map sv_id vs)) u32_max) as [E|_]; [lia|].
  exists (max_id (map sv_id vs) + 1). split; [reflexivity|]. unfold u32_max in Hm. split; [lia|].
  intros v Hv. pose proof (max_id_ge (map sv_id vs) (sv_id v) (in_map sv_id vs v Hv)). lia.
Qed.
Print Assumptions C41_variant_id_unused_partial.

(** The same for fields; a unit struct or variant gets no suggestion. *)
Theorem C41_field_id_unused_partial : forall (chk : bool) (fs : sfields),
  (forall f, In f (ss_fields fs) -> sf_id f < 2 ^ 32 - 1) ->
  if match ss_kind fs with SKUnit => true | _ => false end then next_field_id chk fs = None
  else exists n, next_field_id chk fs = Some (Some n) /\ 1 <= n < 2 ^ 32 /\ forall f, In f (ss_fields fs) -> sf_id f < n.
Proof.
  intros chk fs H. unfold next_field_id, succ_u32.
  assert (Hm : max_id (map sf_id (ss_fields fs)) < u32_max).
  { destruct (max_id_in (map sf_id (ss_fields fs))) as [->|Hi]; [reflexivity|]. apply in_map_iff in Hi as (v & <- & Hv). exact (H v Hv). }
  destruct (N.eqb_spec (max_id (map sf_id (ss_fields fs))) u32_max) as [E|_]; [lia|].
  assert (G : exists n, Some (Some (max_id (map sf_id (ss_fields fs)) + 1)) = Some (Some n) /\ 1 <= n < 2 ^ 32
                /\ forall f, In f (ss_fields fs) -> sf_id f < n).
  { exists (max_id (map sf_id (ss_fields fs)) + 1). split; [reflexivity|]. unfold u32_max in Hm. split; [lia|].
    intros v Hv. pose proof (max_id_ge (map sf_id (ss_fields fs)) (sf_id v) (in_map sf_id _ v Hv)). lia. }
  destruct (ss_kind fs); [exact G|exact G|reflexivity].
Qed.
Print Assumptions C41_field_id_unused_partial.
Example C41_ex : next_field_id true (SFields SKNamed [SField [] [97] (SPrim PrU8) 3; SField [] [98] (SPrim PrU8) 9; SField [] [99] (SPrim PrU8) 4])
  = Some (Some 10).
Proof. reflexivity. Qed.

(** [enum E { A @0, B @4294967295 }] passes validation in a release build, and 0, an id in
    use, is suggested; with overflow checks asking for the next id panics. *)
Theorem C41_id_unused_refuted : forall pick,
  let e := PEnum [] [] [69] None (Punct [PVariant [] [65] FUnit (Some 0)] (PVariant [] [66] FUnit (Some 4294967295)) false) in
  validate_schema pick false (PSchema [] [e : pdef unit]) = COk tt
  /\ exists vs, simplify_definition false e = Some (SEnum [] [69] [] vs)
       /\ next_variant_id false vs = Some 0 /\ (exists v, In v vs /\ sv_id v = 0) /\ next_variant_id true vs = None.
Proof.
  intros pick e. split; [reflexivity|]. eexists. split; [reflexivity|]. split; [reflexivity|]. split; [|reflexivity].
  eexists. split; [left; reflexivity|reflexivity].
Qed.
Print Assumptions C41_id_unused_refuted.

(** * C42: reported wire sizes *)

(** The reported bounds hold, for every type and value, for what the generated [size()]
    computes ([t'] is the type the generated code has for [t]; [args] instantiates the type
    parameters of the definition around). *)
Theorem C42_size_within_bounds : forall (E : env) look params args (t : sty) (t' : ty) (v : val),
  u32_arrays t -> lower_type look params t = Some t' -> typed E (subst args t') v = true ->
  above (wire_size t) (size E (subst args t') v) /\ below_max (wire_size t) (size E (subst args t') v).
Proof. exact size_bounds. Qed.
Print Assumptions C42_size_within_bounds.

(** For the bytes of a field: the minimum is right if elements of arrays occupy bytes ... *)
Theorem C42_minimum_partial : forall (E : env) look params args (t : sty) (t' : ty) (v : val),
  u32_arrays t -> lower_type look params t = Some t' -> typed E (subst args t') v = true ->
  all_ty (node_arrays E) (subst args t') = true -> size E (subst args t') v < 2 ^ 64 ->
  above (wire_size t) (lenN (field_bytes E (subst args t') v)).
Proof.
  intros E look params args t t' v Hu Hl Ht Ha Hs.
  assert (Hcases : (exists u, t = SOption u) \/ (exists p n l, t = SExternal p n l) \/
                   match t' with TOption _ => False | _ => True end).
  { destruct t as [p|t|k w|t|t|t|ts|t n|path name ts]; cbn [lower_type] in Hl; try (left; eexists; reflexivity).
    - right; right. injection Hl as <-. destruct p; exact I.
    - right; right. destruct (lower_type look params t); [|discriminate]. injection Hl as <-. exact I.
    - right; right. destruct (lower_type look params k); [|discriminate]. destruct (lower_type look params w); [|discriminate]. injection Hl as <-. exact I.
    - right; right. destruct (lower_type look params t); [|discriminate]. injection Hl as <-. exact I.
    - right; right. destruct (lower_type look params t); [|discriminate]. injection Hl as <-. exact I.
    - right; right. destruct (all_opt (lower_type look params) ts); [|discriminate]. injection Hl as <-. exact I.
    - right; right. destruct (lower_type look params t); [|discriminate]. injection Hl as <-. exact I.
    - right; left. exists path, name, ts. reflexivity. }
  destruct Hcases as [[u ->]|[(p & n & l & ->)|Hno]]; [cbn; lia|exact I|].
  assert (Hf : field_bytes E (subst args t') v = encode E true (subst args t') v).
  { destruct t'; try contradiction; try reflexivity. cbn [subst]. destruct (nth_error args i); reflexivity. }
  rewrite Hf. eapply bytes_lower; eassumption.
Qed.
Print Assumptions C42_minimum_partial.

(** ... and the maximum if the field is no tuple (or optional tuple), there are no maps and
    collections have one-byte elements. *)
Theorem C42_maximum_partial : forall (E : env) (D : list nat) look params args (t : sty) (t' : ty) (v : val),
  env_ok E = true -> flat_defs E D = true -> flat_type D (subst args t') = true -> is_tuple (payload_ty (subst args t')) = false ->
  u32_arrays t -> lower_type look params t = Some t' -> typed E (subst args t') v = true ->
  lenN (field_bytes E (subst args t') v) < 2 ^ 64 ->
  below_max (wire_size t) (lenN (field_bytes E (subst args t') v)).
Proof.
  intros E D look params args t t' v HE HD Hf Hr Hu Hl Ht Hs.
  destruct (C42_size_within_bounds E look params args t t' v Hu Hl Ht) as [_ Hb].
  assert (Hle : lenN (field_bytes E (subst args t') v) <= size E (subst args t') v).
  { unfold field_bytes in *.
    assert (Hgen : lenN (encode E true (subst args t') v) < 2 ^ 64 -> is_tuple (subst args t') = false ->
                   lenN (encode E true (subst args t') v) <= size E (subst args t') v).
    { intros Hs' Hr'. rewrite (size_flat E HE D HD true _ v Ht Hf); [lia|cbn; exact Hr'|exact Hs']. }
    destruct (subst args t') as [| | | | | | | | | | | | | | | |u| | | | | |]; try (apply Hgen; [exact Hs|exact Hr]).
    destruct v; try discriminate Ht; [cbn; lia|]. cbn [size core]. unfold size_option, size_u8.
    rewrite (size_flat E HE D HD true u v); [lia|exact Ht| |exact Hr|exact Hs].
    unfold flat_type in *. cbn [all_ty] in Hf. apply andb_true_iff in Hf as [_ Hf]. exact Hf. }
  unfold below_max in *. destruct (wire_size t) as [w|]; [|exact I]. destruct (w_max w) as [m|]; [|exact I]. lia.
Qed.
Print Assumptions C42_maximum_partial.

(** [(option<u32>, [u8; 3])] is reported as 4..10 bytes; a value of it. *)
Definition sample_tuple : sty := STuple [SOption (SPrim PrU32); SArray (SPrim PrU8) 3].
Example C42_ex : wire_size sample_tuple = Some (WSize 4 (Some 10))
  /\ lower_type (fun _ _ => None) [] sample_tuple = Some (TTuple [TOption (TUInt W32); TArray TU8 3])
  /\ u32_arrays sample_tuple
  /\ typed [] (TTuple [TOption (TUInt W32); TArray TU8 3]) (VList [VSome (VInt 300); VList [VInt 1; VInt 2; VInt 3]]) = true
  /\ size [] (TTuple [TOption (TUInt W32); TArray TU8 3]) (VList [VSome (VInt 300); VList [VInt 1; VInt 2; VInt 3]]) = 7.
Proof. vm_compute. intuition. Qed.
(** [option<[u8; 3]>] meets the conditions of the maximum. *)
Example C42_ex2 : flat_type [] (TOption (TArray TU8 3)) = true /\ wire_size (SOption (SArray (SPrim PrU8) 3)) = Some (WSize 0 (Some 5)).
Proof. vm_compute. intuition. Qed.

(** In general the bounds are wrong: a field [(u8, u8)] is reported to take exactly 2 bytes
    and takes 3; [[u16; 100]] is reported to take at most 301 bytes and can take 302; an
    array of 200 field-less structs is reported to take at least 2 bytes and takes 1. *)
Theorem C42_bounds_refuted : exists (E : env) (v1 v2 v3 : val),
  let unit_struct := SExternal [] [85] [] in
  let t1 := STuple [SPrim PrU8; SPrim PrU8] in
  let t2 := SArray (SPrim PrU16) 100 in
  let t3 := SArray unit_struct 200 in
  let t1' := TTuple [TU8; TU8] in
  let t2' := TArray (TUInt W16) 100 in
  let t3' := TArray (TExt 0 []) 200 in
  let look := fun (p : list str) (n : str) => Some 0%nat in
  env_ok E = true
  /\ lower_type look [] t1 = Some t1' /\ typed E t1' v1 = true /\ wire_size t1 = Some (WSize 2 (Some 2)) /\ lenN (field_bytes E t1' v1) = 3
  /\ lower_type look [] t2 = Some t2' /\ typed E t2' v2 = true /\ wire_size t2 = Some (WSize 101 (Some 301)) /\ lenN (field_bytes E t2' v2) = 302
  /\ lower_type look [] t3 = Some t3' /\ typed E t3' v3 = true /\ wire_size t3 = Some (WSize 2 None) /\ lenN (field_bytes E t3' v3) = 1.
Proof.
  exists [DStruct (Fields KUnit [])], (VList [VInt 1; VInt 2]), (VList (repeat (VInt 65535) 100)), (VList (repeat (VRec []) 200)).
  vm_compute. repeat split.
Qed.
Print Assumptions C42_bounds_refuted.
