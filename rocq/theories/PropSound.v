(** Property theorems C72: what decoding returns. *)
From Verif Require Import Base Varint Wire Codec CodecSpec CodecProofs SchemaSpec Demo PropCodec DecSound.
Local Open Scope N_scope.

(** * C72: decoding yields values of the type *)
(** Structs and variants written without fields have none. *)
Definition units_empty (E : env) : Prop :=
  forall d fs, In d E -> In fs (match d with DStruct fs => [fs] | DEnum vs => map v_fields vs end) -> fs_kind fs = KUnit -> fs_list fs = [].
Lemma env_ok_units E : env_ok E = true -> units_empty E.
Proof.
  unfold env_ok. rewrite forallb_forall. intros H d fs Hd Hf Hk.
  assert (Hx : fields_ok fs = true).
  { specialize (H d Hd). destruct d as [fs'|vs]; cbn [def_ok] in H; [destruct Hf as [<-|[]]; exact H|].
    apply in_map_iff in Hf as (v & <- & Hv). apply andb_prop in H as [_ H]. rewrite forallb_forall in H. specialize (H v Hv). apply andb_prop in H. apply H. }
  unfold fields_ok in Hx. apply andb_prop in Hx as [_ Hx]. rewrite Hk in Hx. destruct (fs_list fs); [reflexivity|discriminate].
Qed.

(** Whatever bytes are given: if decoding succeeds, the value is one of the type asked for -- integers in range, text
    valid, collections of the right elements, arrays of the right length, maps and sets without repeated keys, non-zero
    values not zero, all fields of a struct present, variants that exist. *)
Theorem C72_decoded_valid : forall (E : env) (root : bool) (t : ty) (r : list N) (v : val) (rest : list N),
  units_empty E -> bytes_ok r = true -> decode E root t r = Ok (v, rest) -> typed E t v = true.
Proof. intros E root t r v rest HE Hr H. exact (decode_typed E HE root t r v rest Hr H). Qed.
Print Assumptions C72_decoded_valid.

(** A received value can be sent on: its encoding decodes to the same value, with or without what follows, even if the
    bytes it came from were not the ones an encoder writes (longer varints than necessary, fields in another order,
    unknown or repeated fields, repeated map keys, flags other than 0 and 1). *)
Theorem C14_forward_partial : forall (E : env) (root root' : bool) (t : ty) (r : list N) (v : val) (rest rest' : list N),
  env_ok E = true -> bytes_ok r = true -> decode E root t r = Ok (v, rest) ->
  prefix_ok E t v = true -> lenN (encode E root' t v) < 2 ^ 64 ->
  decode E root' t (encode E root' t v ++ rest') = Ok (v, rest').
Proof.
  intros E root root' t r v rest rest' HE Hr H Hp Hl.
  exact (C14_roundtrip_partial E root' t v rest' HE (C72_decoded_valid E root t r v rest (env_ok_units E HE) Hr H) Hp Hl).
Qed.
Print Assumptions C14_forward_partial.
Theorem C14_forward_flat_partial : forall (E : env) (D : list nat) (root root' : bool) (t : ty) (r : list N) (v : val) (rest rest' : list N),
  env_ok E = true -> flat_elements E D = true -> flat_elements_type E D t = true ->
  bytes_ok r = true -> decode E root t r = Ok (v, rest) -> lenN (encode E root' t v) < 2 ^ 64 ->
  decode E root' t (encode E root' t v ++ rest') = Ok (v, rest').
Proof.
  intros E D root root' t r v rest rest' HE HD Hf Hr H Hl.
  exact (C14_roundtrip_flat_partial E D root' t v rest' HE HD Hf (C72_decoded_valid E root t r v rest (env_ok_units E HE) Hr H) Hl).
Qed.
Print Assumptions C14_forward_flat_partial.

(** The shape of C14_ex, sent with a longer varint than necessary, its fields in reverse order, one of them twice; what
    is sent on is the shape's own encoding. *)
Definition odd_bytes : list N := [2; 9; 41; 4; 129; 0; 172; 2; 17; 2; 104; 104; 10; 7; 17; 2; 104; 105; 0; 0].
Example C72_ex : env_ok demo = true /\ units_empty demo /\ bytes_ok odd_bytes = true /\ odd_bytes <> encode demo true (TExt 1 []) shape
  /\ decode demo true (TExt 1 []) odd_bytes = Ok (shape, []) /\ prefix_ok demo (TExt 1 []) shape = true.
Proof.
  split; [reflexivity|]. split; [apply env_ok_units; reflexivity|]. split; [reflexivity|]. split; [vm_compute; discriminate|].
  split; vm_compute; reflexivity.
Qed.
