(** C85: running the methods of the generated Go file ([GoEval]), with any package buf, against the
    schema's definitions and against the bytes of the Rust code. *)
From Verif Require Import Base Varint Wire WireProofs Codec CodecSpec CodecProofs Safety Syntax Parser Printer Compiler Lower GoNames GoFile GoEval GoEvalProofs GoEvalDec GoEvalFile PropGoText GoSpec PropGoSize GoClosedProofs.
From Verif Require Go GoSize PropGo ParserRound2 PropGoClosed PropAmplify.
Require Coq.Strings.String.
Import Coq.Strings.String.StringSyntax.
Local Open Scope N_scope.

(** * Specification *)

Section Programs.
Context {F : Type}.
(** [f] is the file of the schema [name] with the definitions [ds], all names declared in it are
    different (C62), [E] are the definitions of the schema, and [sub] are structs of [ds] without type parameters
    whose fields refer only to structs in [sub] (no enum, alias or other module), with different names of fields in Go. *)
Record program (name : str) (ds : list (sdef F)) (f : gfile F) (E : env) (sub : list (sdef F)) : Prop := Program {
  pg_file : go_file [] name ds = Some f;
  pg_defs : lower_project [(name, ds)] = Some E;
  pg_names : NoDup (flat_map item_names (g_items f));
  pg_sub : incl sub ds;
  pg_closed : closed_structs sub
}.
(** The struct [n] is the [i]th definition. *)
Definition is_def (name : str) (ds : list (sdef F)) (n : str) (i : nat) : Prop := find_entry [name] n (project_entries [(name, ds)]) = Some i.
(** Named fields have a name (the parser sees to it). *)
Definition named_ok (sub : list (sdef F)) : Prop := forall c n fs, In (SStruct c n [] fs) sub -> ss_kind fs = SKNamed -> Forall (fun f => sf_name f <> []) (ss_fields fs).

Lemma look_def name ds n i : is_def name ds n i -> look_in name ds [] n = Some i.
Proof. unfold is_def, look_in, lookup. cbn [app]. intros ->. reflexivity. Qed.
Lemma program_structs name ds f E sub : program name ds f E sub -> structs_ok (g_items f) sub (look_in name ds) E.
Proof. intros [H1 H2 H3 H4 H5]. eapply file_structs; eassumption. Qed.
Lemma program_def name ds f E sub c n fs i : program name ds f E sub -> In (SStruct c n [] fs) sub -> is_def name ds n i ->
  exists fs', nth_error E i = Some (DStruct fs') /\ fs_kind fs' = lower_kind (ss_kind fs) /\ length (fs_list fs') = length (ss_fields fs).
Proof.
  intros HP Hin Hi. destruct (program_structs _ _ _ _ _ HP c n fs Hin) as (_ & _ & _ & i' & fs' & Hi' & HE & Hl). rewrite (look_def _ _ _ _ Hi) in Hi'. apply some_inj in Hi'. subst i'. exists fs'. split; [exact HE|].
  unfold lower_fields in Hl. apply omap_some in Hl as (l & Hl & ->). split; [reflexivity|]. cbn [fs_list]. apply LowerProofs.all_opt_forall2 in Hl. symmetry. exact (forall2_len _ _ _ Hl).
Qed.

(** * The methods do what the models of C48 and C81 say *)

(** [Encode]: for every struct in [sub], every value, every runtime; [bad] is what a program without meaning would return. *)
Theorem C85_encode : forall name (ds : list (sdef F)) f E sub R c n fs i v w bad fuel,
  program name ds f E sub -> extensional R -> In (SStruct c n [] fs) sub -> is_def name ds n i ->
  typed E (TExt i []) v = true -> (vdepth v < fuel)%nat ->
  run_encode (g_items f) R bad fuel (camel n) v w = Go.go_enc (buf_of R) E (TExt i []) v w.
Proof.
  intros name ds f E sub R c n fs i v w bad fuel HP HR Hin Hi Ht Hd. eapply (run_encode_ok (g_items f) R sub (look_in name ds) E HR (program_structs _ _ _ _ _ HP)); try eassumption. apply look_def, Hi.
Qed.
(** [Size], if the structs in [sub] have no tuples. *)
Theorem C85_size_partial : forall name (ds : list (sdef F)) f E sub R c n fs i v bad fuel,
  program name ds f E sub -> tuple_free sub -> In (SStruct c n [] fs) sub -> is_def name ds n i ->
  typed E (TExt i []) v = true -> (vdepth v < fuel)%nat ->
  run_size (g_items f) R bad fuel (camel n) v = GoSize.go_size (sizes_of R) E (TExt i []) v.
Proof.
  intros name ds f E sub R c n fs i v bad fuel HP Hf Hin Hi Ht Hd. eapply (run_size_ok (g_items f) R sub (look_in name ds) E (program_structs _ _ _ _ _ HP) Hf); try eassumption. apply look_def, Hi.
Qed.
(** [Decode], called on a variable whose fields have any values [vs0], with any input, if the structs in [sub] have no tuples. *)
Theorem C85_decode_partial : forall name (ds : list (sdef F)) f E sub R c n fs i vs0 r fuel,
  program name ds f E sub -> extensional R -> tuple_free sub -> named_ok sub -> In (SStruct c n [] fs) sub -> is_def name ds n i -> length vs0 = length (ss_fields fs) ->
  run_decode (g_items f) R fuel (camel n) vs0 r = Go.go_ext (buf_of R) E fuel i [] r.
Proof.
  intros name ds f E sub R c n fs i vs0 r fuel HP HR Hf Hn Hin Hi Hl. eapply (run_decode_ok (g_items f) R sub (look_in name ds) E HR (program_structs _ _ _ _ _ HP) Hf Hn); try eassumption. apply look_def, Hi.
Qed.

(** * Against the Rust code *)

(** Rust writes, the Go file reads: fields without references, options and tuples. *)
Theorem C85_reads_rust_partial : forall name (ds : list (sdef F)) f E sub R c n fs i fs' vs vs0 root fuel,
  program name ds f E sub -> extensional R -> tuple_free sub -> named_ok sub -> In (SStruct c n [] fs) sub -> is_def name ds n i ->
  reads_like_rust (buf_of R) -> env_ok E = true -> nth_error E i = Some (DStruct fs') -> fs_kind fs' <> KUnit -> forallb (fun f => plain_field (f_ty f)) (fs_list fs') = true ->
  typed E (TExt i []) (VRec vs) = true -> prefix_ok E (TExt i []) (VRec vs) = true -> lenN (encode E root (TExt i []) (VRec vs)) < 2 ^ 64 ->
  (length (encode E root (TExt i []) (VRec vs)) <= fuel)%nat -> length vs0 = length (ss_fields fs) ->
  run_decode (g_items f) R fuel (camel n) vs0 (encode E root (TExt i []) (VRec vs)) = Ok (VRec vs, []).
Proof.
  intros. erewrite C85_decode_partial by eassumption. eapply PropGo.C48_go_reads_rust_partial; try eassumption. rewrite PropAmplify.inst_nil. assumption.
Qed.
(** ... but an absent option is a missing field for the Go file ... *)
Theorem C85_absent_option_refuted : forall name (ds : list (sdef F)) f E sub R c n fs i fs' vs vs0 root fuel,
  program name ds f E sub -> extensional R -> tuple_free sub -> named_ok sub -> In (SStruct c n [] fs) sub -> is_def name ds n i ->
  reads_like_rust (buf_of R) -> env_ok E = true -> nth_error E i = Some (DStruct fs') -> fs_kind fs' <> KUnit ->
  (forall f v, In (f, v) (combine (fs_list fs') vs) -> plain_field (f_ty f) = true \/ ((exists t, f_ty f = TOption t) /\ v = VNone)) ->
  (exists f t, In (f, VNone) (combine (fs_list fs') vs) /\ f_ty f = TOption t) ->
  typed E (TExt i []) (VRec vs) = true -> prefix_ok E (TExt i []) (VRec vs) = true -> lenN (encode E root (TExt i []) (VRec vs)) < 2 ^ 64 ->
  (length (encode E root (TExt i []) (VRec vs)) <= fuel)%nat -> length vs0 = length (ss_fields fs) ->
  exists id nm, run_decode (g_items f) R fuel (camel n) vs0 (encode E root (TExt i []) (VRec vs)) = Err (MissingField id nm).
Proof.
  intros. erewrite C85_decode_partial by eassumption. eapply PropGo.C48_absent_option_refuted; try eassumption; rewrite PropAmplify.inst_nil; assumption.
Qed.
(** ... and it always reads its input to the end: nothing can follow a struct. *)
Theorem C85_reads_everything : forall name (ds : list (sdef F)) f E sub R c n fs i vs0 r r' v fuel,
  program name ds f E sub -> extensional R -> tuple_free sub -> named_ok sub -> In (SStruct c n [] fs) sub -> is_def name ds n i -> length vs0 = length (ss_fields fs) ->
  run_decode (g_items f) R fuel (camel n) vs0 r = Ok (v, r') -> r' = [].
Proof. intros name ds f E sub R c n fs i vs0 r r' v fuel HP HR Hf Hn Hin Hi Hl H. erewrite C85_decode_partial in H by eassumption. eapply PropGo.C48_go_reads_everything. exact H. Qed.
(** The Go file writes what Rust writes but for the field ids, for the same fields. *)
Theorem C85_writes_partial : forall name (ds : list (sdef F)) f E sub R (ids : N -> list N) c n fs i fs' vs w bad fuel,
  program name ds f E sub -> extensional R -> In (SStruct c n [] fs) sub -> is_def name ds n i ->
  writes_like_rust (buf_of R) -> (forall id c w, Go.gb_field (buf_of R) id c w = c (w ++ ids id)) -> nth_error E i = Some (DStruct fs') -> fs_kind fs' <> KUnit ->
  forallb (fun f => plain_field (f_ty f)) (fs_list fs') = true -> typed E (TExt i []) (VRec vs) = true -> prefix_ok E (TExt i []) (VRec vs) = true -> (vdepth (VRec vs) < fuel)%nat ->
  run_encode (g_items f) R bad fuel (camel n) (VRec vs) w =
  w ++ concat (map (fun p => ids (f_id (fst p)) ++ encode E true (f_ty (fst p)) (snd p)) (combine (fs_list fs') vs)) ++ encode_u32 END_MARKER.
Proof.
  intros name ds f E sub R ids c n fs i fs' vs w bad fuel HP HR Hin Hi HW Hids HE Hk Hpl Ht Hp Hd. erewrite C85_encode by eassumption. rewrite (PropGo.C48_go_struct_partial _ ids E i [] fs' vs w); try assumption; rewrite PropAmplify.inst_nil; [reflexivity|exact Hpl].
Qed.
(** [Size] is the number of bytes [Encode] appends. *)
Theorem C85_size_of_encode_partial : forall name (ds : list (sdef F)) f E sub R c n fs i v w bad bad' fuel,
  program name ds f E sub -> extensional R -> tuple_free sub -> In (SStruct c n [] fs) sub -> is_def name ds n i -> sizes_match (buf_of R) (sizes_of R) ->
  typed E (TExt i []) v = true -> no_enum v = true -> (vdepth v < fuel)%nat ->
  length (run_encode (g_items f) R bad fuel (camel n) v w) = (length w + run_size (g_items f) R bad' fuel (camel n) v)%nat.
Proof.
  intros name ds f E sub R c n fs i v w bad bad' fuel HP HR Hf Hin Hi HM Ht Hn Hd. erewrite C85_encode by eassumption. erewrite C85_size_partial by eassumption. apply C81_size_exact_partial; assumption.
Qed.

(** * Variants of enums *)

(** [Encode] of a variant of an enum without type parameters returns nothing, not even what was written before. *)
Theorem C85_variant_encode_refuted : forall name (ds : list (sdef F)) f E sub R c n vs v fs' us w bad fuel,
  program name ds f E sub -> extensional R -> In (SEnum c n [] vs) ds -> In v vs ->
  Forall (fun x => simple sub (sf_ty x)) (ss_fields (sv_fields v)) -> NoDup (map (fun x => camel (sf_name x)) (ss_fields (sv_fields v))) -> lower_fields (look_in name ds) [] (sv_fields v) = Some fs' ->
  all2 (typed E) (map f_ty (fs_list fs')) us = true -> (vdepth (VRec us) < fuel)%nat ->
  run_encode (g_items f) R bad fuel (variant_name n v) (VRec us) w = [].
Proof.
  intros name ds f E sub R c n vs v fs' us w bad fuel HP HR Hin Hv Hs Hn Hl Ht Hd. pose proof (file_variant _ _ _ _ _ _ _ _ (pg_file _ _ _ _ _ HP) (pg_names _ _ _ _ _ HP) Hin Hv) as HU.
  destruct fuel as [|fuel]; [lia|]. destruct (ua_encode _ _ _ _ HU) as (e & He & Hm). cbn [run_encode]. rewrite Hm. cbn [vdepth] in Hd.
  erewrite (body_run (g_items f) R sub (look_in name ds) E bad _ HR (variant_name n v) (sv_fields v) fs' (xid "nil") us (Nat.pred fuel) e HU Hs Hn Hl Ht); try assumption.
  - reflexivity.
  - rewrite Forall_forall. intros u Hu. pose proof (depth_in us u Hu). lia.
  - intros c0 n0 fs0 i0 u0 w0 Hin0 Hi0 Ht0 Hd0. eapply (run_encode_ok (g_items f) R sub (look_in name ds) E HR (program_structs _ _ _ _ _ HP)); try eassumption. destruct fuel; [lia|]. cbn [Nat.pred] in Hd0. lia.
Qed.
(** Its [Decode] is that of a struct with the same fields. *)
Theorem C85_variant_decode_partial : forall name (ds : list (sdef F)) f E sub R c n vs v fs' us0 r fuel,
  program name ds f E sub -> extensional R -> tuple_free sub -> named_ok sub -> In (SEnum c n [] vs) ds -> In v vs ->
  Forall (fun x => simple sub (sf_ty x)) (ss_fields (sv_fields v)) -> Forall (fun x => GoEvalProofs.no_tuple (sf_ty x) = true) (ss_fields (sv_fields v)) -> NoDup (map (fun x => camel (sf_name x)) (ss_fields (sv_fields v))) ->
  (ss_kind (sv_fields v) = SKNamed -> Forall (fun x => sf_name x <> []) (ss_fields (sv_fields v))) -> lower_fields (look_in name ds) [] (sv_fields v) = Some fs' -> length us0 = length (ss_fields (sv_fields v)) ->
  run_decode (g_items f) R (S fuel) (variant_name n v) us0 r = dmap VRec (Go.go_dec_body (buf_of R) (S fuel) (Go.go_dec_ty (buf_of R) (Go.go_ext (buf_of R) E fuel)) fs') r.
Proof.
  intros name ds f E sub R c n vs v fs' us0 r fuel HP HR Hfree Hnm Hin Hv Hs Hnt Hn Hk Hl Lv. pose proof (file_variant _ _ _ _ _ _ _ _ (pg_file _ _ _ _ _ HP) (pg_names _ _ _ _ _ HP) Hin Hv) as HU.
  destruct (ua_fields _ _ _ _ HU) as (flds & Hf & Hdecl). destruct (ua_decode _ _ _ _ HU) as (b & Hb & Hm). cbn [run_decode]. rewrite Hm.
  unfold lower_fields in Hl. apply omap_some in Hl as (fl' & Hl & ->). apply LowerProofs.all_opt_forall2 in Hl.
  match goal with |- context [exec_block (g_items f) R ?c] => set (call := c) end.
  pose proof (program_structs _ _ _ _ _ HP) as Hok.
  assert (Hcall : dcall_ok sub (look_in name ds) call (Go.go_ext (buf_of R) E fuel)).
  { intros c0 n0 fs0 i0 r0 Hin0 Hi0. unfold call. eapply (run_decode_ok (g_items f) R sub (look_in name ds) E HR Hok Hfree Hnm); try eassumption. destruct (Hok c0 n0 fs0 Hin0) as (HU0 & _). destruct (ua_fields _ _ _ _ HU0) as (fl0 & Hf0 & Hd0).
    unfold zero_of. rewrite Hd0. rewrite !map_length. destruct (decl_ok fs0 fl0 Hf0) as [_ K]. apply forall2_len in K. rewrite map_length in K. auto. }
  pose proof (dbody_ok (g_items f) R sub (look_in name ds) HR call (Go.go_ext (buf_of R) E fuel) Hcall (S fuel) (variant_name n v) (sv_fields v) flds fl' Hf Hdecl Hs Hnt Hn Hl b r us0 Hk Hb Lv) as HB.
  unfold base in HB. unfold dmap. destruct (Go.go_dec_body (buf_of R) (S fuel) (Go.go_dec_ty (buf_of R) (Go.go_ext (buf_of R) E fuel)) (Fields (lower_kind (ss_kind (sv_fields v))) fl') r) as [[vs' r']|e| |]; cbn [bind].
  - destruct HB as (p & g & -> & Hp). cbn [bind]. rewrite Hp. reflexivity.
  - destruct HB as (p & ->). reflexivity.
  - rewrite HB. reflexivity.
  - rewrite HB. reflexivity.
Qed.
End Programs.
Print Assumptions C85_encode.
Print Assumptions C85_size_partial.
Print Assumptions C85_decode_partial.
Print Assumptions C85_reads_rust_partial.
Print Assumptions C85_absent_option_refuted.
Print Assumptions C85_reads_everything.
Print Assumptions C85_writes_partial.
Print Assumptions C85_size_of_encode_partial.
Print Assumptions C85_variant_encode_refuted.
Print Assumptions C85_variant_decode_partial.

(** * A runtime that follows the Rust one *)
Definition prims : list ty := [TBool; TU8; TI8; TUInt W16; TUInt W32; TUInt W64; TUInt W128; TSInt W16; TSInt W32; TSInt W64; TSInt W128; TF32; TF64; TString; TBytes].
Definition by_name (n : str) : option ty := find (fun t => str_eqb (rt_name t) n) prims.
Definition array_len (fn : str) : nat := N.to_nat (dec_value (skipn 11 fn)).
Definition rust_rt : runtime := {|
  rt_write := fun fn v => match by_name (skipn 6 fn) with Some t => encode [] false t v | None => [] end;
  rt_write_seq := fun _ cs w => w ++ PropGo.sequence (map (fun c : writer => c []) cs);
  rt_write_map := fun _ cs w => w ++ PropGo.sequence (map (fun c : writer * writer => fst c [] ++ snd c []) cs);
  rt_write_option := fun _ o w => match o with Some c => c (w ++ [1]) | None => w ++ [0] end;
  rt_write_field := fun _ id c w => c (w ++ encode_id (FieldId id EVarint));
  rt_write_field_option := fun _ id o w => match o with Some c => c (w ++ encode_id (FieldId id EVarint)) | None => w end;
  rt_end := END_MARKER;
  rt_size := fun fn v => match by_name (skipn 4 fn) with Some t => length (encode [] false t v) | None => O end;
  rt_size_seq := fun _ ns => (length (encode_u64 (N.of_nat (list_sum ns))) + list_sum ns)%nat;
  rt_size_map := fun _ ns => let n := list_sum (map (fun n => fst n + snd n)%nat ns) in (length (encode_u64 (N.of_nat n)) + n)%nat;
  rt_size_option := fun _ o => match o with Some n => (1 + n)%nat | None => 1%nat end;
  rt_size_field := fun _ id n => (length (encode_id (FieldId id EVarint)) + n)%nat;
  rt_size_field_option := fun _ id o => match o with Some n => (length (encode_id (FieldId id EVarint)) + n)%nat | None => O end;
  rt_end_size := length (encode_u32 END_MARKER);
  rt_read := fun fn =>
    if str_eqb (firstn 13 fn) (tx "DecodeNonZero") then match by_name (skipn 13 fn) with Some t => dec_ty no_ext false (TNonZero t) | None => fun _ => Panic end
    else match by_name (skipn 6 fn) with Some t => dec_ty no_ext false t | None => fun _ => Panic end;
  rt_read_id := fun _ r => do (f, r') <- decode_id r; Ok (fid_value f, r');
  rt_read_seq := fun fn =>
    if str_eqb fn (tx "DecodeVec") then decode_vec else if str_eqb fn (tx "DecodeHashSet") then decode_hash_set val_eqb
    else if str_eqb fn (tx "DecodeNonZeroVec") then decode_non_zero_vec else if str_eqb fn (tx "DecodeNonZeroHashSet") then decode_non_zero_hash_set val_eqb
    else decode_array (array_len fn);
  rt_read_map := fun fn => if str_eqb fn (tx "DecodeHashMap") then decode_hash_map val_eqb else decode_non_zero_hash_map val_eqb;
  rt_read_option := fun _ => decode_option |}.

Lemma dloop_ext {T} (d d' : dec T) : same_dec d d' -> forall n r, dloop d n r = dloop d' n r.
Proof. intros H. induction n as [|n IH]; intros [|b r]; cbn [dloop]; try reflexivity. rewrite H. destruct (d' (b :: r)) as [[x r']| | |]; cbn [bind]; try reflexivity. rewrite IH. reflexivity. Qed.
Lemma elems_ext {T} (d d' : dec T) r n : same_dec d d' -> decode_elems d r n = decode_elems d' r n.
Proof. intros H. unfold decode_elems. unfold ensure_size. cbv zeta. rewrite (dloop_ext d d' H). reflexivity. Qed.
Lemma vec_ext {T} (d d' : dec T) : same_dec d d' -> same_dec (decode_vec d) (decode_vec d').
Proof. intros H r. unfold decode_vec. destruct (decode_u64 r) as [[n r1]| | |]; cbn [bind]; try reflexivity. apply elems_ext, H. Qed.
Lemma darr_ext {T} (d d' : dec T) : same_dec d d' -> forall n r, darr d n r = darr d' n r.
Proof. intros H. induction n as [|n IH]; intros [|b r]; cbn [darr]; try reflexivity. rewrite H. destruct (d' (b :: r)) as [[x r']| | |]; cbn [bind]; try reflexivity. rewrite IH. reflexivity. Qed.
Lemma dpair_ext {A B} (d d' : dec A) (e e' : dec B) : same_dec d d' -> same_dec e e' -> same_dec (dpair d e) (dpair d' e').
Proof. intros H H' r. unfold dpair. rewrite H. destruct (d' r) as [[k r1]| | |]; cbn [bind]; try reflexivity. rewrite H'. reflexivity. Qed.
Lemma rust_rt_extensional : extensional rust_rt.
Proof.
  constructor; cbn [rt_write_seq rt_write_map rt_write_option rt_write_field rt_write_field_option rt_read_seq rt_read_map rt_read_option rust_rt].
  - intros fn cs cs' H w. f_equal. f_equal. induction H as [|c c' cs cs' Hc _ IH]; [reflexivity|]. cbn [map]. rewrite IH, Hc. reflexivity.
  - intros fn cs cs' H w. f_equal. f_equal. induction H as [|c c' cs cs' [H1 H2] _ IH]; [reflexivity|]. cbn [map]. rewrite IH, H1, H2. reflexivity.
  - intros fn [c|] [c'|] H w; try contradiction; [apply H|reflexivity].
  - intros fn id c c' H w. apply H.
  - intros fn id [c|] [c'|] H w; try contradiction; [apply H|reflexivity].
  - intros fn d d' H r. destruct (str_eqb fn (tx "DecodeVec")); [apply vec_ext, H|]. destruct (str_eqb fn (tx "DecodeHashSet")); [unfold decode_hash_set; rewrite (vec_ext d d' H); reflexivity|].
    destruct (str_eqb fn (tx "DecodeNonZeroVec")); [|destruct (str_eqb fn (tx "DecodeNonZeroHashSet"))].
    + unfold decode_non_zero_vec. destruct (decode_u64 r) as [[n r1]| | |]; cbn [bind]; try reflexivity. rewrite (elems_ext d d' r1 n H). reflexivity.
    + unfold decode_non_zero_hash_set. destruct (decode_u64 r) as [[n r1]| | |]; cbn [bind]; try reflexivity. rewrite (elems_ext d d' r1 n H). reflexivity.
    + unfold decode_array. destruct (decode_u64 r) as [[n r1]| | |]; cbn [bind]; try reflexivity. unfold ensure_size. cbv zeta. rewrite (darr_ext d d' H). reflexivity.
  - intros fn d d' e e' H H' r. destruct (str_eqb fn (tx "DecodeHashMap")).
    + unfold decode_hash_map. rewrite (vec_ext _ _ (dpair_ext d d' e e' H H')). reflexivity.
    + unfold decode_non_zero_hash_map. destruct (decode_u64 r) as [[n r1]| | |]; cbn [bind]; try reflexivity. rewrite (elems_ext _ _ r1 n (dpair_ext d d' e e' H H')). reflexivity.
  - intros fn d d' H r. unfold decode_option. destruct (decode_u8 r) as [[t r1]| | |]; cbn [bind]; try reflexivity. rewrite H. reflexivity.
Qed.
Lemma rust_rt_reads : reads_like_rust (buf_of rust_rt).
Proof.
  constructor; cbn [Go.gd_id Go.gd_prim Go.gd_non_zero_prim Go.gd_seq Go.gd_non_zero_seq Go.gd_map Go.gd_non_zero_map Go.gd_option buf_of]; try reflexivity.
  - intros t H. destruct t as [| | |[]|[]| | | | | | | | | | | | | | | | | | ]; try discriminate H; reflexivity.
  - intros t H H'. destruct t as [| | |[]|[]| | | | | | | | | | | | | | | | | | ]; try discriminate H; try discriminate H'; reflexivity.
  - intros n. change (rt_read_seq rust_rt (tx "Decode" ++ seq_name (Go.SqArray n))) with (@decode_array val (N.to_nat (dec_value (dec_str (N.of_nat n))))). rewrite ParserRound2.dec_value_str, Nnat.Nat2N.id. reflexivity.
Qed.
Lemma rust_rt_writes : writes_like_rust (buf_of rust_rt).
Proof.
  constructor; cbn [Go.gb_prim Go.gb_seq Go.gb_map Go.gb_option Go.gb_end buf_of]; try reflexivity.
  - intros t v H. destruct t as [| | |[]|[]| | | | | | | | | | | | | | | | | | ]; try discriminate H; destruct v; reflexivity.
  - intros k cs bs H. exact (wl_seq _ (proj2 PropGo.C48_ex_runtime) k cs bs H).
  - intros cs bs H. exact (wl_map _ (proj2 PropGo.C48_ex_runtime) cs bs H).
  - intros c b H. exact (wl_some _ (proj2 PropGo.C48_ex_runtime) c b H).
  - exact (wl_none _ (proj2 PropGo.C48_ex_runtime)).
Qed.
Lemma rust_rt_sizes : sizes_match (buf_of rust_rt) (sizes_of rust_rt).
Proof.
  destruct C81_ex_runtime as [_ H2 H3 H4 H5 H6 H7 H8 H9]. constructor; try assumption.
  intros t v. cbn [Go.gb_prim GoSize.gz_prim buf_of sizes_of rt_size rt_write rust_rt]. change (skipn 4 (tx "Size" ++ rt_name t)) with (rt_name t). change (skipn 6 (tx "Encode" ++ rt_name t)) with (rt_name t). destruct (by_name (rt_name t)); reflexivity.
Qed.

(** * A file from source *)
Definition ex_src : str := tx "struct Item {
    id: non_zero<u32> @1,
    tags: vec<string> @2,
    seen: hash_map<u8, bool> @3,
    pos: [i16; 2] @4,
}
struct Sample {
    items: vec<Item> @1,
    best: option<Item> @2,
}
struct Pair((u8, u16) @1)
enum Kind {
    First @1,
    Second(Item @1) @2,
}
".
Definition ex_ds := PropGoClosed.defs_of ex_src.
Definition ex_file : gfile str := match PropGoClosed.made_of ex_src with Some f => f | None => GFile [] [] [] [] end.
Definition ex_env : env := match lower_project [(tx "sample", ex_ds)] with Some E => E | None => [] end.
Definition ex_sub : list (sdef str) := firstn 2 ex_ds.
(** Decide that strings are different. *)
Fixpoint distinct (l : list str) : bool := match l with [] => true | s :: l' => negb (existsb (str_eqb s) l') && distinct l' end.
Lemma distinct_ok l : distinct l = true -> NoDup l.
Proof.
  induction l as [|s l IH]; [constructor|]. cbn [distinct]. rewrite andb_true_iff, negb_true_iff. intros [H1 H2]. constructor; [|auto].
  intros Hin. rewrite (proj2 (existsb_exists _ _)) in H1; [discriminate|]. exists s. split; [exact Hin|]. apply str_eqb_eq. reflexivity.
Qed.
Example C85_ex_program : program (tx "sample") ex_ds ex_file ex_env ex_sub /\ tuple_free ex_sub /\ named_ok ex_sub /\ is_def (tx "sample") ex_ds (tx "Item") 0 /\ is_def (tx "sample") ex_ds (tx "Sample") 1 /\ env_ok ex_env = true.
Proof.
  assert (Hds : exists ds, ds = ex_ds) by (eexists; reflexivity). destruct Hds as [ds Hds]. pose proof Hds as Hds'. vm_compute in Hds'.
  assert (Hsub : ex_sub = firstn 2 ds) by (rewrite Hds; reflexivity). rewrite Hds' in Hsub. cbn [firstn] in Hsub.
  split; [|split; [|split; [|split; [|split]]]].
  - constructor.
    + vm_compute. reflexivity.
    + vm_compute. reflexivity.
    + apply distinct_ok. vm_compute. reflexivity.
    + unfold ex_sub. intros d Hd. rewrite <- (firstn_skipn 2 ex_ds). apply in_or_app. left. exact Hd.
    + rewrite Hsub. repeat apply Forall_cons; try apply Forall_nil; (split; [|apply distinct_ok; vm_compute; reflexivity]); cbn [ss_fields];
        repeat apply Forall_cons; try apply Forall_nil; cbn [sf_ty simple]; try exact I; try (split; exact I); (split; [reflexivity|]; split; [reflexivity|]; eexists _, _; left; reflexivity).
  - rewrite Hsub. intros c n fs [H|[H|[]]]; injection H as _ _ <-; repeat apply Forall_cons; try apply Forall_nil; reflexivity.
  - rewrite Hsub. intros c n fs [H|[H|[]]] _; injection H as _ _ <-; repeat apply Forall_cons; try apply Forall_nil; discriminate.
  - vm_compute. reflexivity.
  - vm_compute. reflexivity.
  - vm_compute. reflexivity.
Qed.

Definition ex_item (n : Z) : val := VRec [VInt n; VList [VBytes (tx "ab"); VBytes []]; VMap [(VInt 1, VBool true)]; VList [VInt (-1); VInt 300]].
Definition ex_zeros : list val := [VNone; VNone; VNone; VNone].
Definition ex_all : val := VRec [VList [ex_item 7; ex_item 8]; VSome (ex_item 9)].
(** The hypotheses of [C85_reads_rust_partial], and the run itself. *)
Example C85_ex_read : extensional rust_rt /\ reads_like_rust (buf_of rust_rt) /\ typed ex_env (TExt 0 []) (ex_item 7) = true /\ prefix_ok ex_env (TExt 0 []) (ex_item 7) = true /\
  (exists fs', nth_error ex_env 0 = Some (DStruct fs') /\ fs_kind fs' <> KUnit /\ forallb (fun f => plain_field (f_ty f)) (fs_list fs') = true) /\
  encode ex_env true (TExt 0 []) (ex_item 7) = [8; 7; 17; 4; 2; 97; 98; 0; 25; 2; 1; 1; 33; 3; 1; 216; 4; 0] /\
  run_decode (g_items ex_file) rust_rt 60 (tx "Item") ex_zeros (encode ex_env true (TExt 0 []) (ex_item 7)) = Ok (ex_item 7, []).
Proof.
  split; [exact rust_rt_extensional|]. split; [exact rust_rt_reads|]. split; [vm_compute; reflexivity|]. split; [vm_compute; reflexivity|].
  split; [eexists; split; [vm_compute; reflexivity|]; split; [discriminate|vm_compute; reflexivity]|]. split; vm_compute; reflexivity.
Qed.
(** A field that is not there. *)
Example C85_ex_missing : run_decode (g_items ex_file) rust_rt 60 (tx "Item") ex_zeros [8; 7; 17; 4; 2; 97; 98; 0; 33; 3; 1; 216; 4; 0] = Err (MissingField 3 (Some (tx "seen"))).
Proof. vm_compute. reflexivity. Qed.
(** [Encode] and [Size] of nested structs. *)
Example C85_ex_write : writes_like_rust (buf_of rust_rt) /\ sizes_match (buf_of rust_rt) (sizes_of rust_rt) /\ typed ex_env (TExt 1 []) ex_all = true /\ no_enum ex_all = true /\ (vdepth ex_all < 60)%nat /\
  length (run_encode (g_items ex_file) rust_rt [] 60 (tx "Sample") ex_all [1; 2]) = 60%nat /\ run_size (g_items ex_file) rust_rt 0 60 (tx "Sample") ex_all = 58%nat.
Proof.
  split; [exact rust_rt_writes|]. split; [exact rust_rt_sizes|]. split; [vm_compute; reflexivity|]. split; [vm_compute; reflexivity|]. split; [apply PeanoNat.Nat.ltb_lt; vm_compute; reflexivity|].
  split; vm_compute; reflexivity.
Qed.
(** The file does not read back what it wrote: the first element of [items] takes the rest of the input. *)
Theorem C85_nested_refuted : exists v, run_decode (g_items ex_file) rust_rt 200 (tx "Sample") [VList []; VNone] (run_encode (g_items ex_file) rust_rt [] 60 (tx "Sample") ex_all []) = v /\ forall r, v <> Ok (ex_all, r).
Proof. eexists. split; [reflexivity|]. intros r. vm_compute. discriminate. Qed.
(** A tuple's [Size] calls a function without parameters with an argument: no meaning, so any result will do. *)
Theorem C85_tuple_size_refuted : forall bad, run_size (g_items ex_file) rust_rt bad 60 (tx "Pair") (VRec [VList [VInt 7; VInt 8]]) = (bad + 2)%nat.
Proof. intros bad. match goal with |- ?x = _ => let y := eval vm_compute in x in change x with y end.
  change (S (bad + 1) = (bad + 2)%nat). lia. Qed.
(** A tuple's [Decode] is a panic of the model: it uses the undeclared names [tuple] and [value]. *)
Theorem C85_tuple_decode_refuted : run_decode (g_items ex_file) rust_rt 60 (tx "Pair") [VNone] (encode ex_env true (TExt 2 []) (VRec [VList [VInt 7; VInt 8]])) = Panic.
Proof. vm_compute. reflexivity. Qed.
Example C85_ex_variant : run_encode (g_items ex_file) rust_rt [5] 60 (tx "Kind_Second") (VRec [ex_item 1]) [9; 9] = [].
Proof. vm_compute. reflexivity. Qed.
Print Assumptions C85_nested_refuted.
Print Assumptions C85_tuple_size_refuted.
Print Assumptions C85_tuple_decode_refuted.
Print Assumptions rust_rt_reads.
