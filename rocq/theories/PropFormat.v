(** Property theorems C54: the wire format of the manual. *)
From Verif Require Import Base Varint VarintSpec VarintProofs Wire WireProofs Codec CodecSpec CodecProofs
  SchemaSpec Demo WireDoc WireDocProofs WireDocRead.
Local Open Scope N_scope.

(** * C54 *)
(** What is written is the format's encoding, provided the lengths that are announced are right. *)
Theorem C54_encoder_partial : forall (E : env) (root : bool) (t : ty) (v : val),
  env_ok E = true -> typed E t v = true -> lengths_ok E root t v = true -> lenN (encode E root t v) < 2 ^ 64 ->
  wire false E root t v (encode E root t v).
Proof. exact (fun E root t v HE => encode_wire E HE root t v). Qed.
Print Assumptions C54_encoder_partial.

(** In particular for all values of schemas whose collections and tuples have flat elements. *)
Theorem C54_encoder_measured_partial : forall (E : env) (D : list nat) (root : bool) (t : ty) (v : val),
  env_ok E = true -> measured E D = true -> measured_type D t = true ->
  typed E t v = true -> lenN (encode E root t v) < 2 ^ 64 ->
  wire false E root t v (encode E root t v).
Proof.
  intros E D root t v HE HM Hm Ht Hl. apply encode_wire; try assumption. eapply measured_lengths; eassumption.
Qed.
Print Assumptions C54_encoder_measured_partial.

(** Every encoding of the format is read back, whatever the encoder would have written (no
    condition on announced lengths), unless elements of collections occupy no byte. *)
Theorem C54_decoder_partial : forall (E : env) (root : bool) (t : ty) (v : val) (l rest : list N),
  env_ok E = true -> solid E = true -> solid_type E t = true -> typed E t v = true ->
  wire false E root t v l -> lenN l < 2 ^ 64 ->
  decode E root t (l ++ rest) = Ok (v, rest).
Proof. exact (fun E root t v l rest HE HS Hs Ht Hw Hl => decode_wire E HE HS root t v l rest Ht Hs Hw Hl). Qed.
Print Assumptions C54_decoder_partial.

(** The format gives every value exactly one encoding. *)
Theorem C54_format_function : forall (book : bool) (E : env) (root : bool) (t : ty) (v : val),
  env_ok E = true -> typed E t v = true ->
  exists l, wire book E root t v l /\ forall l', wire book E root t v l' -> l' = l.
Proof.
  intros book E root t v HE Ht. destruct (wire_total book E HE root t v Ht) as (l & Hl). exists l. split; [exact Hl|].
  intros l' Hl'. exact (proj1 (wire_unique book E) _ _ _ _ Hl' _ Hl).
Qed.
Print Assumptions C54_format_function.

(** Without arrays, tuples as fields and fields of a parameter type, it is the format of the manual. *)
Theorem C54_manual_partial : forall (E : env) (root : bool) (t : ty) (v : val) (l : list N),
  agreed E = true -> agreed_type t = true -> root && is_tuple t = false ->
  (wire true E root t v l <-> wire false E root t v l).
Proof.
  intros E root t v l HA Ha Hr. split; intros H.
  - exact (proj1 (wire_agree E HA true false) _ _ _ _ H Ha Hr).
  - exact (proj1 (wire_agree E HA false true) _ _ _ _ H Ha Hr).
Qed.
Print Assumptions C54_manual_partial.

(** A schema with most of the types, and a value of it. *)
Definition format_demo : env :=
  [DStruct (Fields KNamed [Field [97] 1 TF32; Field [98] 2 (TOption TString); Field [99] 16 (TVec (TTuple [TI8; TBool]));
                           Field [100] 5 (TExt 1 []); Field [101] 6 (TMap TString (TUInt W16)); Field [102] 7 (TNonZero (TSInt W64))]);
   DEnum [Variant 3 (Fields KUnit []); Variant 200 (Fields KUnnamed [Field [] 1 (TOption TU8)])]].
Definition format_value : val :=
  VRec [VBits 1065353216; VSome (VBytes [104; 105]); VList [VList [VInt (-2); VBool true]]; VVar 1 [VSome (VInt 9)];
        VMap [(VBytes [107], VInt 300)]; VInt (-3)].
Definition format_bytes : list N :=
  [11; 63; 128; 0; 0; 17; 2; 104; 105; 129; 1; 2; 254; 1; 41; 200; 1; 10; 9; 0; 49; 4; 1; 107; 172; 2; 56; 5; 0].
Example C54_ex : env_ok format_demo = true /\ solid format_demo = true /\ solid_type format_demo (TExt 0 []) = true
  /\ agreed format_demo = true /\ measured format_demo [] = true /\ measured_type [] (TExt 0 []) = true
  /\ typed format_demo (TExt 0 []) format_value = true /\ lengths_ok format_demo true (TExt 0 []) format_value = true
  /\ encode format_demo true (TExt 0 []) format_value = format_bytes.
Proof. vm_compute. repeat split. Qed.
(** The same bytes derived from the rules of the format alone. *)
Example C54_ex_format : wire true format_demo true (TExt 0 []) format_value format_bytes.
Proof.
  apply C54_manual_partial; try reflexivity.
  change format_bytes with (encode format_demo true (TExt 0 []) format_value).
  apply C54_encoder_partial; vm_compute; reflexivity.
Qed.

(** The three points on which code and manual differ: an array, a tuple that is a field, a field of
    a parameter type (here instantiated with a number). *)
Theorem C54_manual_refuted : exists (E : env) (v1 v2 v3 : val),
  env_ok E = true
  /\ (typed E (TArray TU8 2) v1 = true /\ wire true E false (TArray TU8 2) v1 [5; 6]
      /\ encode E false (TArray TU8 2) v1 = [2; 5; 6])
  /\ (typed E (TExt 0 []) v2 = true /\ wire true E false (TExt 0 []) v2 [9; 5; 6; 0]
      /\ encode E false (TExt 0 []) v2 = [9; 2; 5; 6; 0])
  /\ (typed E (TExt 1 [TUInt W32]) v3 = true /\ wire true E false (TExt 1 [TUInt W32]) v3 [8; 7; 0]
      /\ encode E false (TExt 1 [TUInt W32]) v3 = [9; 7; 0]).
Proof.
  exists [DStruct (Fields KNamed [Field [97] 1 (TTuple [TU8; TU8])]); DStruct (Fields KNamed [Field [97] 1 (TParam 0)])],
    (VList [VInt 5; VInt 6]), (VRec [VList [VInt 5; VInt 6]]), (VRec [VInt 7]).
  assert (H5 : forall b E, wire b E false TU8 (VInt 5) [5]) by (intros b E; apply (w_u8 b E false 5); reflexivity).
  assert (H6 : forall b E, wire b E false TU8 (VInt 6) [6]) by (intros b E; apply (w_u8 b E false 6); reflexivity).
  split; [reflexivity|]. split; [|split]; (split; [reflexivity|]; split; [|reflexivity]).
  - apply (w_array true _ false TU8 2 _ [] [5; 6]); [|reflexivity].
    apply (e_cons true _ TU8 _ _ [5] [6]); [apply H5|]. apply (e_cons true _ TU8 _ _ [6] []); [apply H6|]. constructor.
  - eapply (w_struct true _ false 0%nat [] _ _ [9; 5; 6]); [reflexivity|discriminate|].
    eapply (m_field true _ _ _ _ _ [9] [5; 6] []); [reflexivity|repeat split| |constructor].
    apply (w_tuple true _ true _ _ [] [5; 6]); [|reflexivity].
    apply (i_cons true _ TU8 _ _ _ [5] [6]); [apply H5|]. apply (i_cons true _ TU8 _ _ _ [6] []); [apply H6|]. constructor.
  - eapply (w_struct true _ false 1%nat [TUInt W32] _ _ [8; 7]); [reflexivity|discriminate|].
    eapply (m_field true _ _ _ _ _ [8] [7] []); [reflexivity|repeat split| |constructor].
    apply w_gen. apply (w_uint true _ false W32 7). repeat split.
Qed.
Print Assumptions C54_manual_refuted.

(** The encoder leaves the format when an announced length is wrong. *)
Theorem C54_encoder_refuted : exists (t : ty) (v : val),
  env_ok demo = true /\ solid demo = true /\ solid_type demo t = true /\ typed demo t v = true
  /\ lenN (encode demo true t v) < 2 ^ 64 /\ ~ wire false demo true t v (encode demo true t v).
Proof.
  exists (TVec (TVec (TUInt W32))), (VList [VList (repeat (VInt 4000000000) 100)]).
  split; [reflexivity|]. split; [vm_compute; reflexivity|]. split; [reflexivity|]. split; [vm_compute; reflexivity|].
  split; [vm_compute; reflexivity|]. intros H.
  assert (G := C54_decoder_partial demo true (TVec (TVec (TUInt W32))) (VList [VList (repeat (VInt 4000000000) 100)])
    (encode demo true (TVec (TVec (TUInt W32))) (VList [VList (repeat (VInt 4000000000) 100)])) []).
  specialize (G eq_refl).
  assert (S1 : solid demo = true) by (vm_compute; reflexivity).
  assert (T1 : typed demo (TVec (TVec (TUInt W32))) (VList [VList (repeat (VInt 4000000000) 100)]) = true) by (vm_compute; reflexivity).
  specialize (G S1 eq_refl T1 H). specialize (G ltac:(vm_compute; reflexivity)).
  rewrite app_nil_r in G. vm_compute in G. discriminate.
Qed.
Print Assumptions C54_encoder_refuted.
