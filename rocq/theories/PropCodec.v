(** Property theorems C13-C16 and C18-C25: the generated codecs. *)
From Coq Require Import Permutation.
From Verif Require Import Base Varint VarintSpec VarintProofs Wire WireProofs Codec CodecSpec CodecProofs
  SchemaSpec Safety Stable Size PrefixOk EvolutionSpec Entries Evolution EvolutionMore Demo.
Local Open Scope N_scope.

(** * C13: sizes *)
(** The number of bytes written is the announced size plus [gap]: the differences, for every
    collection inside the value, between the length of its byte-count prefix and the length
    of an element-count prefix, plus the forgotten prefix of tuples that are fields. *)
Theorem C13_size_gap : forall (E : env) (root : bool) (t : ty) (v : val),
  env_ok E = true -> typed E t v = true -> lenN (encode E root t v) < 2 ^ 64 ->
  Z.of_N (lenN (encode E root t v)) = (Z.of_N (size E t v) + gap E root t v)%Z.
Proof. exact (fun E root t v HE => size_gap E HE root t v). Qed.
Print Assumptions C13_size_gap.

(** Exact for types without maps whose collections have one-byte elements, and whose
    definitions are of the same kind and have no tuples as fields. *)
Theorem C13_size_exact_partial : forall (E : env) (D : list nat) (root : bool) (t : ty) (v : val),
  env_ok E = true -> flat_defs E D = true -> flat_type D t = true -> root && is_tuple t = false ->
  typed E t v = true -> lenN (encode E root t v) < 2 ^ 64 ->
  lenN (encode E root t v) = size E t v.
Proof. exact (fun E D root t v HE HD Hf Hr Ht Hl => size_flat E HE D HD root t v Ht Hf Hr Hl). Qed.
Print Assumptions C13_size_exact_partial.

Definition flat_demo : env :=
  [DStruct (Fields KNamed [Field [97] 1 (TUInt W64); Field [98] 2 (TOption TString); Field [99] 3 (TVec TU8)])].
Example C13_ex : env_ok flat_demo = true /\ flat_defs flat_demo [0%nat] = true
  /\ flat_type [0%nat] (TExt 0 []) = true
  /\ (let v := VRec [VInt 300; VSome (VBytes [65]); VList [VInt 1; VInt 2]] in
      typed flat_demo (TExt 0 []) v = true
      /\ encode flat_demo true (TExt 0 []) v = [8; 172; 2; 17; 1; 65; 25; 2; 1; 2; 0]
      /\ size flat_demo (TExt 0 []) v = 11).
Proof. vm_compute. repeat split. Qed.

(** Not exact in general: 100 large numbers; a tuple as a field. *)
Theorem C13_size_refuted : exists (E : env) (t t' : ty) (v v' : val),
  env_ok E = true
  /\ typed E t v = true /\ lenN (encode E true t v) = 502 /\ size E t v = 501
  /\ typed E t' v' = true /\ lenN (encode E true t' v') = 6 /\ size E t' v' = 5.
Proof.
  exists [DStruct (Fields KNamed [Field [97] 1 (TTuple [TU8; TString])])],
    (TVec (TUInt W32)), (TExt 0 []), (VList (repeat (VInt 4000000000) 100)), (VRec [VList [VInt 1; VBytes [65]]]).
  vm_compute. repeat split.
Qed.
Print Assumptions C13_size_refuted.

(** * C14: round trip *)
(** For every value whose announced collection lengths are right ([prefix_ok]). *)
Theorem C14_roundtrip_partial : forall (E : env) (root : bool) (t : ty) (v : val) (rest : list N),
  env_ok E = true -> typed E t v = true -> prefix_ok E t v = true -> lenN (encode E root t v) < 2 ^ 64 ->
  decode E root t (encode E root t v ++ rest) = Ok (v, rest).
Proof.
  intros E root t v rest HE Ht Hp Hl. apply (proj1 (RT_all E HE v)); try assumption. apply le_n.
Qed.
Print Assumptions C14_roundtrip_partial.

(** For every value of a schema whose collections have flat elements (see [flat_type]); such
    collections, maps included, may occur anywhere outside collections. *)
Theorem C14_roundtrip_flat_partial : forall (E : env) (D : list nat) (root : bool) (t : ty) (v : val) (rest : list N),
  env_ok E = true -> flat_elements E D = true -> flat_elements_type E D t = true ->
  typed E t v = true -> lenN (encode E root t v) < 2 ^ 64 ->
  decode E root t (encode E root t v ++ rest) = Ok (v, rest).
Proof.
  exact (fun E D root t v rest HE HD Hf Ht Hl =>
    C14_roundtrip_partial E root t v rest HE Ht (flat_prefix_ok E HE D HD root t v Ht Hf Hl) Hl).
Qed.
Print Assumptions C14_roundtrip_flat_partial.

Example C14_ex : env_ok demo = true /\ flat_elements demo [] = true
  /\ flat_elements_type demo [] (TExt 1 []) = true /\ flat_elements_type demo [] (TExt 4 []) = true
  /\ typed demo (TExt 1 []) shape = true /\ typed demo (TExt 4 []) tree = true
  /\ prefix_ok demo (TExt 4 []) tree = true
  /\ encode demo true (TExt 1 []) shape = [2; 9; 10; 7; 17; 2; 104; 105; 41; 3; 1; 172; 2; 0; 0]
  /\ decode demo true (TExt 4 []) (encode demo true (TExt 4 []) tree ++ [1; 2; 3]) = Ok (tree, [1; 2; 3]).
Proof. vm_compute. repeat split. Qed.

(** Three ways in which it fails: a collection whose elements have inexact sizes; a
    collection of field-less structs; a field with id 0 (accepted by the compiler). *)
Theorem C14_roundtrip_refuted :
  (exists v, typed demo (TVec (TVec (TUInt W32))) v = true
     /\ lenN (encode demo true (TVec (TVec (TUInt W32))) v) < 2 ^ 64
     /\ exists e, decode demo true (TVec (TVec (TUInt W32))) (encode demo true (TVec (TVec (TUInt W32))) v) = Err e)
  /\ (exists v, typed demo (TVec (TExt 2 [])) v = true /\ v <> VList []
     /\ decode demo true (TVec (TExt 2 [])) (encode demo true (TVec (TExt 2 [])) v) = Ok (VList [], []))
  /\ (exists E v, nodupb N.eqb (map f_id [Field [97] 0 TU8]) = true
     /\ E = [DStruct (Fields KNamed [Field [97] 0 TU8])]
     /\ typed E (TExt 0 []) v = true
     /\ decode E true (TExt 0 []) (encode E true (TExt 0 []) v) = Err (MissingField 0 (Some [97]))).
Proof.
  split; [|split].
  - exists (VList [VList (repeat (VInt 4000000000) 100)]). vm_compute. repeat split. eexists. reflexivity.
  - exists (VList [VRec []]). vm_compute. repeat split. discriminate.
  - exists [DStruct (Fields KNamed [Field [97] 0 TU8])], (VRec [VInt 5]). vm_compute. repeat split.
Qed.
Print Assumptions C14_roundtrip_refuted.

(** * C15: decoders stay inside their input and terminate *)
Theorem C15_suffix : forall (E : env) (root : bool) (t : ty) (r : list N) (v : val) (r' : list N),
  decode E root t r = Ok (v, r') -> exists consumed, r = consumed ++ r'.
Proof. exact (fun E root t r v r' H => decode_reader E root t r v r' H). Qed.
Print Assumptions C15_suffix.

(** The result does not depend on what follows the bytes that were read. *)
Theorem C15_local : forall (E : env) (root : bool) (t : ty) (r s : list N) (v : val) (r' : list N),
  decode E root t r = Ok (v, r') -> decode E root t (r ++ s) = Ok (v, r' ++ s).
Proof. exact (fun E root t r s v r' H => decode_stable E root t r v r' s H). Qed.
Print Assumptions C15_local.

(** Termination, unless a collection's elements can be empty on the wire. *)
Theorem C15_terminates_partial : forall (E : env) (root : bool) (t : ty) (r : list N),
  loop_free E = true -> loop_free_type E t = true -> decode E root t r <> Diverge.
Proof. exact decode_terminates. Qed.
Print Assumptions C15_terminates_partial.

Example C15_ex : loop_free demo = true /\ loop_free_type demo (TExt 4 []) = true
  /\ loop_free_type demo (TExt 3 [TVec (TExt 1 [])]) = true.
Proof. vm_compute. repeat split. Qed.

(** vec<Unit> on the two bytes 1, 0 loops for ever. *)
Theorem C15_terminates_refuted : exists (E : env) (t : ty) (r : list N),
  env_ok E = true /\ decode E true t r = Diverge.
Proof. exists demo, (TVec (TExt 2 [])), [1; 0]. vm_compute. split; reflexivity. Qed.
Print Assumptions C15_terminates_refuted.

(** * C16: decoders do not panic *)
Theorem C16_no_panic_partial : forall (ar : list nat) (E : env) (root : bool) (t : ty) (r : list N),
  wf_schema ar E = true -> array_free E = true -> wf_type ar t = true -> array_free_type t = true ->
  decode E root t r <> Panic.
Proof. exact decode_no_panic. Qed.
Print Assumptions C16_no_panic_partial.

Example C16_ex : wf_schema demo_arity demo = true /\ array_free demo = true
  /\ wf_type demo_arity (TExt 3 [TNonZero (TMap TString (TExt 1 []))]) = true
  /\ array_free_type (TExt 3 [TNonZero (TMap TString (TExt 1 []))]) = true.
Proof. vm_compute. repeat split. Qed.

(** [u8; 2] on a payload with a single element. *)
Theorem C16_no_panic_refuted : exists (ar : list nat) (E : env) (t : ty) (r : list N),
  wf_schema ar E = true /\ wf_type ar t = true /\ decode E true t r = Panic.
Proof. exists demo_arity, demo, (TArray TU8 2), [1; 5]. vm_compute. repeat split. Qed.
Print Assumptions C16_no_panic_refuted.

(** * C18: skipping *)
Theorem C18_skip_partial : forall (E : env) (D : list nat) (t : ty) (v : val) (rest : list N),
  env_ok E = true -> flat_defs E D = true -> skippable D t = true ->
  typed E t v = true -> prefix_ok E t v = true -> lenN (encode E true t v) < 2 ^ 64 ->
  decode_skip (fenc_of t) (encode E true t v ++ rest) = Ok rest.
Proof. exact (fun E D t v rest HE HD => skip_encode E HE D HD t v rest). Qed.
Print Assumptions C18_skip_partial.

Example C18_ex : skippable [] (TVec (TVec (TUInt W32))) = true /\ skippable [] (TTuple [TU8; TString]) = true
  /\ prefix_ok demo (TVec (TVec (TUInt W32))) (VList [VList [VInt 1; VInt 300]; VList []]) = true
  /\ decode_skip (fenc_of (TVec (TVec (TUInt W32))))
       (encode demo true (TVec (TVec (TUInt W32))) (VList [VList [VInt 1; VInt 300]; VList []]) ++ [8; 9]) = Ok [8; 9].
Proof. vm_compute. repeat split. Qed.

(** A struct field, a nested option and a generic field are labelled length-prefixed but
    carry no length: skipping them goes wrong. *)
Theorem C18_skip_refuted :
  (exists v, typed demo (TExt 0 []) v = true
     /\ decode_skip (fenc_of (TExt 0 [])) (encode demo true (TExt 0 []) v ++ [0]) <> Ok [0])
  /\ (exists v, typed demo (TOption (TUInt W16)) v = true
     /\ decode_skip (fenc_of (TOption (TUInt W16))) (encode demo true (TOption (TUInt W16)) v ++ [0; 0; 0]) <> Ok [0; 0; 0])
  /\ (exists v, typed demo (TGen TU8) v = true
     /\ decode_skip (fenc_of (TGen TU8)) (encode demo true (TGen TU8) v ++ [0; 0; 0]) <> Ok [0; 0; 0]).
Proof.
  split; [exists point|split; [exists (VSome (VInt 300))|exists (VInt 2)]]; vm_compute; (split; [reflexivity|discriminate]).
Qed.
Print Assumptions C18_skip_refuted.

(** * C19: unknown fields *)
(** Data written with definitions [Ew] decodes with definitions [Er] to the corresponding
    value, for every pair of schemas related by [schema_evolves]. *)
Theorem C19_evolution_partial : forall (Ew Er : env) (D : list nat) (root : bool) (t : ty) (v v' : val) (rest : list N),
  env_ok Ew = true -> env_ok Er = true -> flat_defs Ew D = true -> schema_evolves D Ew Er ->
  typed Ew t v = true -> prefix_ok Ew t v = true -> lenN (encode Ew root t v) < 2 ^ 64 ->
  project Ew Er t v = Some v' ->
  decode Er root t (encode Ew root t v ++ rest) = Ok (v', rest).
Proof. exact (fun Ew Er D root t v v' rest HW HR HD Hev => evolve Ew Er HW HR D HD Hev root t v v' rest). Qed.
Print Assumptions C19_evolution_partial.

(** A struct whose writer knows additional fields [fx]: the reader obtains the old fields'
    values. *)
Theorem C19_added_fields_partial :
  forall (Ew Er : env) (D S : list nat) (k : fkind) (fo fx : list field) (i : nat) (args : list ty)
         (vo vx : list val) (root : bool) (rest : list N),
  env_ok Ew = true -> env_ok Er = true -> flat_defs Ew D = true -> schema_evolves D Ew Er -> unchanged S Ew Er ->
  forallb (refs_in S) args = true -> forallb (refs_in S) (map f_ty fo) = true ->
  nth_error Ew i = Some (DStruct (Fields k (fo ++ fx))) ->
  nth_error Er i = Some (DStruct (Fields k fo)) ->
  length vo = length fo ->
  typed Ew (TExt i args) (VRec (vo ++ vx)) = true ->
  prefix_ok Ew (TExt i args) (VRec (vo ++ vx)) = true ->
  lenN (encode Ew root (TExt i args) (VRec (vo ++ vx))) < 2 ^ 64 ->
  decode Er root (TExt i args) (encode Ew root (TExt i args) (VRec (vo ++ vx)) ++ rest) = Ok (VRec vo, rest).
Proof.
  exact (fun Ew Er D S k fo fx i args vo vx root rest HW HR HD Hev HS Ha Hf =>
    struct_forward Ew Er HW HR D S HD Hev HS k fo fx i args Ha Hf vo vx root rest).
Qed.
Print Assumptions C19_added_fields_partial.

Definition old_env : env := [DStruct (Fields KNamed [Field [97] 1 TU8; Field [98] 4 TString])].
Definition new_env : env := [DStruct (Fields KNamed ([Field [97] 1 TU8; Field [98] 4 TString]
  ++ [Field [99] 2 (TVec (TUInt W32)); Field [100] 3 (TOption (TTuple [TU8; TString]))]))].

Lemma old_new : schema_evolves [] new_env old_env.
Proof.
  intros [|[|i]]; cbn; try exact I; try (destruct i; exact I).
  split; [split; discriminate|]. intros g Hg.
  destruct Hg as [<-|[<-|[<-|[<-|[]]]]].
  - left. exists (Field [97] 1 TU8). cbn. auto.
  - left. exists (Field [98] 4 TString). cbn. auto.
  - right. split; [|reflexivity]. intros f [<-|[<-|[]]]; discriminate.
  - right. split; [|reflexivity]. intros f [<-|[<-|[]]]; discriminate.
Qed.

Example C19_ex : env_ok new_env = true /\ env_ok old_env = true /\ flat_defs new_env [] = true
  /\ schema_evolves [] new_env old_env /\ unchanged [] new_env old_env
  /\ (let v := VRec ([VInt 1; VBytes [65]] ++ [VList [VInt 300]; VSome (VList [VInt 2; VBytes []])]) in
      typed new_env (TExt 0 []) v = true /\ prefix_ok new_env (TExt 0 []) v = true
      /\ project new_env old_env (TExt 0 []) v = Some (VRec [VInt 1; VBytes [65]])).
Proof. repeat split; try reflexivity; try apply old_new; contradiction. Qed.

(** The restriction to skippable fields is needed: with an additional struct-typed field the
    old reader fails. *)
Theorem C19_unknown_struct_field_refuted : exists (Ew Er : env) (v : val) (e : derr),
  env_ok Ew = true /\ env_ok Er = true
  /\ nth_error Er 0 = Some (DStruct (Fields KNamed [Field [97] 1 TU8]))
  /\ nth_error Ew 0 = Some (DStruct (Fields KNamed [Field [97] 1 TU8; Field [98] 2 (TExt 1 [])]))
  /\ nth_error Ew 1 = nth_error Er 1
  /\ typed Ew (TExt 0 []) v = true /\ prefix_ok Ew (TExt 0 []) v = true
  /\ decode Er true (TExt 0 []) (encode Ew true (TExt 0 []) v) = Err e.
Proof.
  exists [DStruct (Fields KNamed [Field [97] 1 TU8; Field [98] 2 (TExt 1 [])]); DStruct (Fields KNamed [Field [99] 1 TU8])],
    [DStruct (Fields KNamed [Field [97] 1 TU8]); DStruct (Fields KNamed [Field [99] 1 TU8])],
    (VRec [VInt 1; VRec [VInt 9]]), InsufficientData.
  vm_compute. repeat split.
Qed.
Print Assumptions C19_unknown_struct_field_refuted.

(** * C20: added optional fields *)
(** The reader has additional optional fields: they are [None], all others keep their values. *)
Theorem C20_added_optional_partial :
  forall (Ew Er : env) (D S : list nat) (k : fkind) (fo fx : list field) (i : nat) (args : list ty)
         (vo : list val) (root : bool) (rest : list N),
  env_ok Ew = true -> env_ok Er = true -> flat_defs Ew D = true -> schema_evolves D Ew Er -> unchanged S Ew Er ->
  forallb (refs_in S) args = true -> forallb (refs_in S) (map f_ty fo) = true ->
  nth_error Ew i = Some (DStruct (Fields k fo)) ->
  nth_error Er i = Some (DStruct (Fields k (fo ++ fx))) ->
  forallb optional fx = true ->
  typed Ew (TExt i args) (VRec vo) = true ->
  prefix_ok Ew (TExt i args) (VRec vo) = true ->
  lenN (encode Ew root (TExt i args) (VRec vo)) < 2 ^ 64 ->
  decode Er root (TExt i args) (encode Ew root (TExt i args) (VRec vo) ++ rest)
  = Ok (VRec (vo ++ map (fun _ => VNone) fx), rest).
Proof.
  exact (fun Ew Er D S k fo fx i args vo root rest HW HR HD Hev HS Ha Hf =>
    struct_backward Ew Er HW HR D S HD Hev HS k fo fx i args Ha Hf vo root rest).
Qed.
Print Assumptions C20_added_optional_partial.

(** Whenever only optional fields and new variants are added, anywhere in the schema, every
    value decodes (to the corresponding value). *)
Theorem C20_total_partial : forall (Ew Er : env) (D : list nat) (root : bool) (t : ty) (v : val) (rest : list N),
  env_ok Ew = true -> env_ok Er = true -> flat_defs Ew D = true ->
  schema_evolves D Ew Er -> schema_total Ew Er ->
  typed Ew t v = true -> prefix_ok Ew t v = true -> lenN (encode Ew root t v) < 2 ^ 64 ->
  exists v', project Ew Er t v = Some v' /\ decode Er root t (encode Ew root t v ++ rest) = Ok (v', rest).
Proof.
  intros Ew Er D root t v rest HW HR HD Hev Htot Ht Hp Hl.
  destruct (project_total Ew Er HW HR Htot t v Ht) as [v' Hv']. exists v'. split; [exact Hv'|].
  exact (evolve Ew Er HW HR D HD Hev root t v v' rest Ht Hp Hl Hv').
Qed.
Print Assumptions C20_total_partial.

(** Definitions that did not change keep their values. *)
Theorem C20_unchanged : forall (Ew Er : env) (S : list nat) (t : ty) (v : val),
  env_ok Ew = true -> unchanged S Ew Er -> refs_in S t = true -> typed Ew t v = true ->
  project Ew Er t v = Some v.
Proof. exact (fun Ew Er S t v HW HS => project_same Ew Er HW S HS t v). Qed.
Print Assumptions C20_unchanged.

Definition newer_env : env := [DStruct (Fields KNamed ([Field [97] 1 TU8; Field [98] 4 TString]
  ++ [Field [99] 2 (TOption (TExt 0 []))]))].
Example C20_ex : schema_evolves [] old_env newer_env /\ schema_total old_env newer_env
  /\ decode newer_env true (TExt 0 []) (encode old_env true (TExt 0 []) (VRec [VInt 1; VBytes [65]]) ++ [7])
     = Ok (VRec [VInt 1; VBytes [65]; VNone], [7]).
Proof.
  split; [|split; [|reflexivity]].
  - intros [|[|i]]; cbn; try exact I; try (destruct i; exact I).
    split; [split; discriminate|]. intros g Hg. left. destruct Hg as [<-|[<-|[]]].
    + exists (Field [97] 1 TU8). cbn. auto.
    + exists (Field [98] 4 TString). cbn. auto.
  - intros [|[|i]]; cbn; try exact I; try (destruct i; exact I).
    intros f [<-|[<-|[<-|[]]]] Ho; try discriminate Ho.
    + exists (Field [97] 1 TU8). cbn. auto.
    + exists (Field [98] 4 TString). cbn. auto.
Qed.

(** * C21: missing required fields *)
(** [es] are the fields of a well-formed payload: each one is a known field with a payload of
    its type, or an unknown field that can be skipped.  [f] is the first declared field that
    is required and not sent. *)
Theorem C21_missing_field : forall (E : env) (i : nat) (args : list ty) (fs : fields) (es : list entry)
    (pre post : list field) (f : field) (rest : list N) (root : bool),
  nth_error E i = Some (DStruct fs) -> fs_kind fs <> KUnit -> fields_ok fs = true ->
  Forall (entry_fits E (fs_list (inst args fs))) es ->
  fs_list (inst args fs) = pre ++ f :: post ->
  optional f = false -> ~ In (f_id f) (map e_id es) ->
  (forall g, In g pre -> optional g = true \/ In (f_id g) (map e_id es)) ->
  decode E root (TExt i args) (payload es ++ rest)
  = Err (MissingField (f_id f) (match fs_kind fs with KNamed => Some (f_name f) | _ => None end)).
Proof.
  intros E i args fs es pre post f rest root Hi Hk Hok Hes Hfs Ho Hn Hpre.
  rewrite (struct_entries E i args fs es rest root Hi Hk Hok Hes). rewrite Hfs.
  rewrite (collect_missing (fs_kind fs) es pre post f Ho Hn Hpre). reflexivity.
Qed.
Print Assumptions C21_missing_field.

Theorem C21_missing_field_variant : forall (E : env) (i : nat) (args : list ty) (vars : list variant) (k : nat)
    (var : variant) (es : list entry) (pre post : list field) (f : field) (rest : list N) (root : bool),
  nth_error E i = Some (DEnum vars) -> def_ok (DEnum vars) = true -> nth_error vars k = Some var ->
  fs_kind (v_fields var) <> KUnit ->
  Forall (entry_fits E (fs_list (inst args (v_fields var)))) es ->
  fs_list (inst args (v_fields var)) = pre ++ f :: post ->
  optional f = false -> ~ In (f_id f) (map e_id es) ->
  (forall g, In g pre -> optional g = true \/ In (f_id g) (map e_id es)) ->
  decode E root (TExt i args) (encode_variant_id (v_id var) ++ payload es ++ rest)
  = Err (MissingField (f_id f) (match fs_kind (v_fields var) with KNamed => Some (f_name f) | _ => None end)).
Proof.
  intros E i args vars k var es pre post f rest root Hi Hok Hv Hk Hes Hfs Ho Hn Hpre.
  rewrite (variant_entries E i args vars k var es rest root Hi Hok Hv Hk Hes). rewrite Hfs.
  rewrite (collect_missing _ es pre post f Ho Hn Hpre). reflexivity.
Qed.
Print Assumptions C21_missing_field_variant.

(** If every required field was sent, decoding succeeds (optional fields may be missing). *)
Theorem C21_complete : forall (E : env) (i : nat) (args : list ty) (fs : fields) (es : list entry)
    (rest : list N) (root : bool),
  nth_error E i = Some (DStruct fs) -> fs_kind fs <> KUnit -> fields_ok fs = true ->
  Forall (entry_fits E (fs_list (inst args fs))) es ->
  (forall g, In g (fs_list (inst args fs)) -> optional g = true \/ In (f_id g) (map e_id es)) ->
  exists vs, decode E root (TExt i args) (payload es ++ rest) = Ok (VRec vs, rest)
    /\ Forall2 (fun f v => v = match last_value (f_id f) es with
                               | Some x => if optional f then VSome x else x
                               | None => VNone
                               end) (fs_list (inst args fs)) vs.
Proof.
  intros E i args fs es rest root Hi Hk Hok Hes Hall.
  destruct (collect_complete (fs_kind fs) es (fs_list (inst args fs)) Hall) as (vs & Hc & HF).
  exists vs. rewrite (struct_entries E i args fs es rest root Hi Hk Hok Hes), Hc. split; [reflexivity|exact HF].
Qed.
Print Assumptions C21_complete.

(** * C22: order and repetition of fields *)
Theorem C22_order_irrelevant : forall (E : env) (i : nat) (args : list ty) (fs : fields) (es es' : list entry)
    (rest : list N) (root : bool),
  nth_error E i = Some (DStruct fs) -> fs_kind fs <> KUnit -> fields_ok fs = true ->
  Forall (entry_fits E (fs_list (inst args fs))) es ->
  Permutation es es' -> NoDup (map e_id es) ->
  decode E root (TExt i args) (payload es ++ rest) = decode E root (TExt i args) (payload es' ++ rest).
Proof.
  intros E i args fs es es' rest root Hi Hk Hok Hes HP Hnd.
  rewrite !(struct_entries E i args fs _ rest root Hi Hk Hok);
    [|eapply Permutation_Forall; [exact HP|exact Hes]|exact Hes].
  rewrite (collect_ext _ _ es es'); [reflexivity|]. intros f _. apply last_value_perm; assumption.
Qed.
Print Assumptions C22_order_irrelevant.

(** An occurrence of a field that is followed by another one has no effect. *)
Theorem C22_last_wins : forall (E : env) (i : nat) (args : list ty) (fs : fields) (es1 es2 : list entry) (e : entry)
    (rest : list N) (root : bool),
  nth_error E i = Some (DStruct fs) -> fs_kind fs <> KUnit -> fields_ok fs = true ->
  Forall (entry_fits E (fs_list (inst args fs))) (es1 ++ e :: es2) ->
  In (e_id e) (map e_id es2) ->
  decode E root (TExt i args) (payload (es1 ++ e :: es2) ++ rest)
  = decode E root (TExt i args) (payload (es1 ++ es2) ++ rest).
Proof.
  intros E i args fs es1 es2 e rest root Hi Hk Hok Hes Hin.
  rewrite !(struct_entries E i args fs _ rest root Hi Hk Hok);
    [| |exact Hes].
  - rewrite (collect_ext _ _ (es1 ++ e :: es2) (es1 ++ es2)); [reflexivity|]. intros f _. apply last_value_dup. exact Hin.
  - apply Forall_app in Hes as [H1 H2]. inversion H2; subst. apply Forall_app. split; assumption.
Qed.
Print Assumptions C22_last_wins.

Definition ent_a : entry := Entry 1 EFixed1 [7] (VInt 7).
Definition ent_a' : entry := Entry 1 EFixed1 [8] (VInt 8).
Definition ent_c : entry := Entry 5 ELengthPrefixed [1; 3] (VList [VInt 3]).
Definition ent_x : entry := Entry 9 EFixed4 [1; 2; 3; 4] VNone.
Example C22_ex : Forall (entry_fits demo (fs_list (inst [] (Fields KNamed
      [Field [97] 1 TU8; Field [98] 2 (TOption TString); Field [99] 5 (TVec (TUInt W32))]))))
    [ent_a; ent_x; ent_c; ent_a']
  /\ decode demo true (TExt 0 []) (payload [ent_a; ent_x; ent_c; ent_a'] ++ [1])
     = Ok (VRec [VInt 8; VNone; VList [VInt 3]], [1])
  /\ decode demo true (TExt 0 []) (payload [ent_x; ent_a] ++ [1]) = Err (MissingField 5 (Some [99])).
Proof.
  split; [|vm_compute; split; reflexivity].
  assert (HU8 : forall n r, decode demo true TU8 (n :: r) = Ok (VInt (Z.of_N n), r)).
  { intros n r. unfold decode. cbn [dec_ty]. apply dmap_ok with (f := dVN). exact (decode_u8_encode n r). }
  repeat apply Forall_cons; try apply Forall_nil; (split; [reflexivity|split; [reflexivity|]]);
    cbn [inst fs_list map subst_field subst f_name f_id f_ty].
  - left. exists (Field [97] 1 TU8). split; [left; reflexivity|]. split; [reflexivity|]. apply (HU8 7).
  - right. split; [intros f [<-|[<-|[<-|[]]]]; discriminate|]. intros r. apply skip_fixed_app. reflexivity.
  - left. exists (Field [99] 5 (TVec (TUInt W32))). split; [right; right; left; reflexivity|].
    split; [reflexivity|]. intros r.
    exact (C14_roundtrip_partial demo true (TVec (TUInt W32)) (VList [VInt 3]) r eq_refl eq_refl eq_refl eq_refl).
  - left. exists (Field [97] 1 TU8). split; [left; reflexivity|]. split; [reflexivity|]. apply (HU8 8).
Qed.

(** * C23: variants *)
Theorem C23_unknown_variant : forall (E : env) (i : nat) (args : list ty) (vars : list variant) (root : bool)
    (r r1 : list N) (id : N),
  nth_error E i = Some (DEnum vars) -> decode_u32 r = Ok (id, r1) -> ~ In id (map v_id vars) ->
  decode E root (TExt i args) r = Err (UnknownVariant id).
Proof.
  intros E i args vars root r r1 id Hi Hd Hn. unfold decode. cbn [dec_ty dec_ext]. rewrite Hi.
  unfold decode_variant_id. rewrite Hd. cbn [bind].
  apply (find_variant_none id vars 0) in Hn. rewrite Hn. reflexivity.
Qed.
Print Assumptions C23_unknown_variant.

(** What is decoded is always the variant whose id was read. *)
Theorem C23_known_variant : forall (E : env) (i : nat) (args : list ty) (vars : list variant) (root : bool)
    (r r' : list N) (v : val),
  nth_error E i = Some (DEnum vars) -> decode E root (TExt i args) r = Ok (v, r') ->
  exists id r1 k var vs, decode_u32 r = Ok (id, r1) /\ nth_error vars k = Some var /\ v_id var = id /\ v = VVar k vs.
Proof.
  intros E i args vars root r r' v Hi H. unfold decode in H. cbn [dec_ty dec_ext] in H. rewrite Hi in H.
  apply bind_ok in H as ([id r1] & Hd & H).
  destruct (find_variant id vars 0) as [[k var]|] eqn:Ef; [|discriminate].
  destruct (find_variant_some _ _ _ _ _ Ef) as (_ & Hk & Hid). rewrite Nat.sub_0_r in Hk.
  unfold dmap in H. apply bind_ok in H as ([vs r2] & Hb & H).
  exists id, r1, k, var, vs. repeat split; try assumption. congruence.
Qed.
Print Assumptions C23_known_variant.

Example C23_ex : decode demo true (TExt 1 []) [9; 1; 2] = Err (UnknownVariant 9)
  /\ decode demo true (TExt 1 []) [1; 7] = Ok (VVar 0 [], [7]).
Proof. vm_compute. split; reflexivity. Qed.


(** * C24: different values have different encodings *)
(** Even when followed by arbitrary bytes. *)
Theorem C24_unique_partial : forall (E : env) (root : bool) (t : ty) (v v' : val) (rest rest' : list N),
  env_ok E = true -> typed E t v = true -> typed E t v' = true ->
  prefix_ok E t v = true -> prefix_ok E t v' = true ->
  lenN (encode E root t v) < 2 ^ 64 -> lenN (encode E root t v') < 2 ^ 64 ->
  encode E root t v ++ rest = encode E root t v' ++ rest' -> v = v' /\ rest = rest'.
Proof.
  intros E root t v v' rest rest' HE Ht Ht' Hp Hp' Hl Hl' He.
  pose proof (C14_roundtrip_partial E root t v rest HE Ht Hp Hl) as H1.
  pose proof (C14_roundtrip_partial E root t v' rest' HE Ht' Hp' Hl') as H2.
  rewrite He, H2 in H1. split; congruence.
Qed.
Print Assumptions C24_unique_partial.

(** Without conditions on values, for schemas whose collections have flat elements. *)
Theorem C24_unique_flat_partial : forall (E : env) (D : list nat) (root : bool) (t : ty) (v v' : val) (rest rest' : list N),
  env_ok E = true -> flat_elements E D = true -> flat_elements_type E D t = true ->
  typed E t v = true -> typed E t v' = true ->
  lenN (encode E root t v) < 2 ^ 64 -> lenN (encode E root t v') < 2 ^ 64 ->
  encode E root t v ++ rest = encode E root t v' ++ rest' -> v = v' /\ rest = rest'.
Proof.
  intros E D root t v v' rest rest' HE HD Hf Ht Ht' Hl Hl' He.
  exact (C24_unique_partial E root t v v' rest rest' HE Ht Ht' (flat_prefix_ok E HE D HD root t v Ht Hf Hl)
    (flat_prefix_ok E HE D HD root t v' Ht' Hf Hl') Hl Hl' He).
Qed.
Print Assumptions C24_unique_flat_partial.

Example C24_ex : encode demo true (TExt 4 []) tree <> encode demo true (TExt 4 []) (VRec [VInt 1000; VNone; VMap []])
  /\ typed demo (TExt 4 []) (VRec [VInt 1000; VNone; VMap []]) = true.
Proof. vm_compute. split; [discriminate|reflexivity]. Qed.

(** Collections of field-less structs, and fields whose ids differ by 2^29 (both accepted by
    the compiler), are confused. *)
Theorem C24_unique_refuted :
  (exists v v', v <> v' /\ typed demo (TVec (TExt 2 [])) v = true /\ typed demo (TVec (TExt 2 [])) v' = true
     /\ encode demo true (TVec (TExt 2 [])) v = encode demo true (TVec (TExt 2 [])) v')
  /\ (exists E v v', E = [DStruct (Fields KNamed [Field [97] 1 (TOption TU8); Field [98] 536870913 (TOption TU8)])]
     /\ v <> v' /\ typed E (TExt 0 []) v = true /\ typed E (TExt 0 []) v' = true
     /\ encode E true (TExt 0 []) v = encode E true (TExt 0 []) v').
Proof.
  split.
  - exists (VList []), (VList [VRec []]). vm_compute. repeat split. discriminate.
  - exists [DStruct (Fields KNamed [Field [97] 1 (TOption TU8); Field [98] 536870913 (TOption TU8)])],
      (VRec [VSome (VInt 5); VNone]), (VRec [VNone; VSome (VInt 5)]).
    vm_compute. repeat split. discriminate.
Qed.
Print Assumptions C24_unique_refuted.

(** * C25: truncated data *)
(** No strict prefix of an encoding decodes. *)
Theorem C25_truncated_partial : forall (E : env) (root : bool) (t : ty) (v : val) (p q : list N),
  env_ok E = true -> typed E t v = true -> prefix_ok E t v = true -> lenN (encode E root t v) < 2 ^ 64 ->
  encode E root t v = p ++ q -> q <> [] ->
  forall v' r', decode E root t p <> Ok (v', r').
Proof.
  intros E root t v p q HE Ht Hp Hl Hpq Hq v' r' H.
  pose proof (C14_roundtrip_partial E root t v [] HE Ht Hp Hl) as H1.
  rewrite app_nil_r, Hpq in H1. rewrite (C15_local E root t p q v' r' H) in H1.
  assert (Hx : r' ++ q = []) by congruence. apply app_eq_nil in Hx as [_ Hx]. contradiction.
Qed.
Print Assumptions C25_truncated_partial.

(** ... and it is refused with an error, not by a panic or an endless loop, under the
    conditions of C15 and C16. *)
Theorem C25_truncated_error_partial : forall (ar : list nat) (E : env) (D : list nat) (root : bool) (t : ty) (v : val) (p q : list N),
  env_ok E = true -> flat_elements E D = true -> flat_elements_type E D t = true ->
  wf_schema ar E = true -> array_free E = true -> wf_type ar t = true -> array_free_type t = true ->
  loop_free E = true -> loop_free_type E t = true ->
  typed E t v = true -> lenN (encode E root t v) < 2 ^ 64 ->
  encode E root t v = p ++ q -> q <> [] ->
  exists e, decode E root t p = Err e.
Proof.
  intros ar E D root t v p q HE HD Hf Hw Ha Hwt Hat Hlf Hlt Ht Hl Hpq Hq.
  pose proof (C25_truncated_partial E root t v p q HE Ht (flat_prefix_ok E HE D HD root t v Ht Hf Hl) Hl Hpq Hq) as Hno.
  pose proof (C16_no_panic_partial ar E root t p Hw Ha Hwt Hat) as Hnp.
  pose proof (C15_terminates_partial E root t p Hlf Hlt) as Hnd.
  destruct (decode E root t p) as [[v' r']|e| |]; [|eauto|contradiction|contradiction].
  exfalso. exact (Hno v' r' eq_refl).
Qed.
Print Assumptions C25_truncated_error_partial.

Example C25_ex : flat_elements demo [] = true /\ flat_elements_type demo [] (TExt 1 []) = true
  /\ wf_schema demo_arity demo = true /\ array_free demo = true /\ wf_type demo_arity (TExt 1 []) = true
  /\ loop_free demo = true
  /\ decode demo true (TExt 1 []) (firstn 14 (encode demo true (TExt 1 []) shape)) = Err DecodeInt.
Proof. vm_compute. repeat split. Qed.
