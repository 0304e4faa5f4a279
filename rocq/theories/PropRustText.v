(** Property theorems C91: the functions that mabo-build writes into the Rust file are, read by Rust's grammar, the programs that RustEval.v
    runs and RustTyping.v checks (C69, C70). *)
From Verif Require Import Base Varint Wire Codec Syntax Compiler Lower RustCode RustFile RustRead RustMeans RustReadProofs RustReadProofs2 RustReadProofs3 RustReadProofs4.
From Verif Require RustTokens RustTokensProofs LowerProofs PropRustNames PropGoOut PropProject.
Require Coq.Strings.String.
Import Coq.Strings.String.StringSyntax.
Local Open Scope N_scope.

(** * Specification *)
(** A function in an [impl] block: [#[automatically_derived] impl<..> trait for name<..> .. { attributes fn .. { body } }]. *)
Definition impl_fn (trait sig : list rt) (name : str) (item body : list rt) : Prop :=
  exists params args bounds attrs, item = q "#[automatically_derived]" ++ w "impl" :: params ++ trait ++ w "for" :: W name :: args ++ bounds ++ [G Brc (attrs ++ sig ++ [G Brc body])].
(** A piece of the text, at any depth. *)
Inductive part_of : list rt -> list rt -> Prop :=
| part_here a x b : part_of x (a ++ x ++ b)
| part_in x a d l b : part_of x l -> part_of x (a ++ G d l :: b).
(** The three blocks of a definition. *)
Definition encode_item (bc : bool) (e : entry) : list rt :=
  match e_body e with BStruct fs => encode_struct bc (e_name e) (e_params e) fs | BEnum vs => encode_enum bc (e_name e) (e_params e) vs end.
Definition decode_item (bc : bool) (e : entry) : list rt :=
  match e_body e with BStruct fs => decode_struct bc (e_name e) (e_params e) fs | BEnum vs => decode_enum bc (e_name e) (e_params e) vs end.
Definition size_item (bc : bool) (e : entry) : list rt :=
  match e_body e with BStruct fs => size_struct bc (e_name e) (e_params e) fs | BEnum vs => size_enum bc (e_name e) (e_params e) vs end.
(** The names a definition uses inside: fields, variants, and those of paths. *)
Fixpoint type_names (t : sty) : list str :=
  match t with
  | SPrim _ => []
  | SVec t | SHashSet t | SOption t | SNonZero t | SArray t _ => type_names t
  | SHashMap k v => type_names k ++ type_names v
  | STuple ts => flat_map type_names ts
  | SExternal path n gs => path ++ n :: flat_map type_names gs
  end.
Definition fields_names (fs : sfields) : list str := flat_map (fun f => sf_name f :: type_names (sf_ty f)) (ss_fields fs).
Definition inner_names (e : entry) : list str :=
  match e_body e with BStruct fs => fields_names fs | BEnum vs => flat_map (fun v => sv_name v :: fields_names (sv_fields v)) vs end.
Definition no_keywords (e : entry) : Prop := forall n, In n (inner_names e) -> ~ PropRustNames.reserved n.
Definition variants_of (vs : list svariant) : list (str * fkind) := map (fun v => (sv_name v, lower_kind (ss_kind (sv_fields v)))) vs.
Definition bytes_of (bc : bool) : bytes_type := if bc then BBytes else BVecU8.

Section Spec.
Context {F : Type}.
Variable outs : list (str * list (sdef F)).
Variable bc : bool.
(** What the types in a definition stand for, and how they are written. *)
Definition types_of (e : entry) : sty -> option ty := lower_type (lookup (project_entries outs) (project_uses outs) (e_path e)) (e_params e).
Definition matches_self (e : entry) (body : list xs) (arms : list arm) : Prop :=
  match e_body e with
  | BStruct fs => exists a, arms = [a] /\ struct_fn (types_of e) (data_ty bc) body (lower_kind (ss_kind fs)) a
  | BEnum vs => enum_fn (types_of e) (data_ty bc) body (variants_of vs) arms
  end.
Definition decodes (e : entry) (body : list xs) (f : dfun) : Prop :=
  match e_body e with
  | BStruct fs => decode_fn (types_of e) (data_ty bc) body [] (lower_kind (ss_kind fs)) f
  | BEnum vs => decode_fn (types_of e) (data_ty bc) body (variants_of vs) KUnit f
  end.
End Spec.

(** * Names *)
Lemma plain_ident n : ~ PropRustNames.reserved n -> RustTokens.is_ident n = true.
Proof. intros H. destruct (RustTokens.is_ident n) eqn:E; [reflexivity|]. destruct H. apply PropRustNames.reserved_iff. exact E. Qed.
Lemma ident_segment first n : RustTokens.is_ident n = true -> RustTokens.segment_name first n = true.
Proof. intros H. unfold RustTokens.segment_name. rewrite H. reflexivity. Qed.
Lemma ident_takes n : RustTokens.is_ident n = true -> RustTokens.takes_args n = true.
Proof.
  intros H. unfold RustTokens.takes_args. destruct (RustTokens.one_of _ n) eqn:E; [|reflexivity]. apply PropRustNames.one_of_iff in E.
  repeat (destruct E as [<-|E]; [discriminate H|]). destruct E.
Qed.
Lemma names_path path : forall first n a, (forall x, In x (path ++ [n]) -> ~ PropRustNames.reserved x) -> RustTokensProofs.path_ok first path n a = true.
Proof.
  induction path as [|s path IH]; intros first n a H; cbn [RustTokensProofs.path_ok app] in *.
  - assert (Hn : RustTokens.is_ident n = true) by (apply plain_ident, H; left; reflexivity). rewrite (ident_segment _ _ Hn), (ident_takes _ Hn). destruct a; reflexivity.
  - rewrite ident_segment by (apply plain_ident, H; left; reflexivity). apply IH. intros x Hx. apply H. right. exact Hx.
Qed.
Lemma names_type t : (forall n, In n (type_names t) -> ~ PropRustNames.reserved n) -> RustTokensProofs.ok_ty t = true.
Proof.
  induction t as [p|t IH|k v IHk IHv|t IH|t IH|t IH|ts IH|t n IH|path name gs IH] using LowerProofs.sty_ind2; cbn [type_names RustTokensProofs.ok_ty]; intros H; try (apply IH; exact H).
  - reflexivity.
  - rewrite IHk, IHv; [reflexivity|intros n Hn|intros n Hn]; apply H, in_app_iff; [right|left]; exact Hn.
  - apply forallb_forall. intros t Ht. apply IH; [exact Ht|]. intros n Hn. apply H, in_flat_map. exists t. auto.
  - apply andb_true_iff. split.
    + apply names_path. intros x Hx. apply H. apply in_app_iff in Hx as [Hx|[<-|[]]]; apply in_app_iff; [left; exact Hx|right; left; reflexivity].
    + apply forallb_forall. intros t Ht. apply IH; [exact Ht|]. intros n Hn. apply H, in_app_iff. right. right. apply in_flat_map. exists t. auto.
Qed.
Lemma names_fields fs : fields_code_ok fs = true -> (forall n, In n (fields_names fs) -> ~ PropRustNames.reserved n) -> fields_ok fs.
Proof.
  unfold fields_code_ok, fields_names, fields_ok. intros Hc H. rewrite forallb_forall in Hc. apply Forall_forall. intros f Hf. specialize (Hc f Hf). apply andb_true_iff in Hc as [H1 H2].
  split; [apply plain_ident, H, in_flat_map; exists f; split; [exact Hf|left; reflexivity]|]. split; [exact H1|]. split; [exact H2|].
  apply names_type. intros n Hn. apply H, in_flat_map. exists f. split; [exact Hf|right; exact Hn].
Qed.
Lemma names_variants vs : forallb (fun v => fields_code_ok (sv_fields v)) vs = true -> (forall n, In n (flat_map (fun v => sv_name v :: fields_names (sv_fields v)) vs) -> ~ PropRustNames.reserved n) ->
  Forall variant_ok vs.
Proof.
  intros Hc H. rewrite forallb_forall in Hc. apply Forall_forall. intros v Hv. specialize (Hc v Hv). split.
  - apply plain_ident, H, in_flat_map. exists v. split; [exact Hv|left; reflexivity].
  - apply names_fields; [exact Hc|]. intros n Hn. apply H, in_flat_map. exists v. split; [exact Hv|right; exact Hn].
Qed.

(** * Definitions of a project *)
Definition entry_ok (e : entry) : Prop :=
  match e_body e with BStruct fs => fields_code_ok fs = true | BEnum vs => forallb (fun v => fields_code_ok (sv_fields v)) vs = true end.
Section Entries.
Context {F : Type}.
Lemma entries_ok (d : sdef F) : forall path e, generates d = true -> In e (entries path d) -> entry_ok e.
Proof.
  induction d as [c n ds IH|d Hd] using PropGoOut.sdef_ind2; intros path e Hg He.
  - cbn [entries generates] in *. apply in_flat_map in He as (d & Hd & He). rewrite forallb_forall in Hg. exact (IH d Hd _ e (Hg d Hd) He).
  - destruct d as [c n ds|c n g fs|c n g vs|c n g t|c n t v|segs el]; [destruct (Hd c n ds eq_refl)| | |destruct He|destruct He|destruct He]; (destruct He as [<-|[]]; exact Hg).
Qed.
Lemma part_app x l a b : part_of x l -> part_of x (a ++ l ++ b).
Proof.
  intros [a' y b'|y a' d l' b' H].
  - rewrite <- !app_assoc. rewrite (app_assoc a a'). apply part_here.
  - rewrite <- app_assoc. cbn [app]. rewrite app_assoc. apply part_in. exact H.
Qed.
Lemma part_flat x (f : sdef F -> list rt) ds d : In d ds -> part_of x (f d) -> part_of x (flat_map f ds).
Proof.
  intros Hd Hp. induction ds as [|y ds IH]; [destruct Hd|]. cbn [flat_map]. destruct Hd as [->|Hd].
  - apply (part_app x (f d) [] (flat_map f ds)). exact Hp.
  - pose proof (part_app x _ (f y) [] (IH Hd)) as H. rewrite app_nil_r in H. exact H.
Qed.
Variables (bc : bool) (float_text : F -> str) (unprintable : N -> bool).
Lemma entries_written (d : sdef F) : forall path e, In e (entries path d) ->
  part_of (encode_item bc e ++ decode_item bc e ++ size_item bc e) (def_tokens bc float_text unprintable d).
Proof.
  induction d as [c n ds IH|d Hd] using PropGoOut.sdef_ind2; intros path e He.
  - cbn [entries] in He. apply in_flat_map in He as (d & Hd & He). cbn [def_tokens].
    change (doc_of unprintable c ++ w "pub" :: w "mod" :: W n :: [G Brc (prelude ++ flat_map (def_tokens bc float_text unprintable) ds)])
      with (doc_of unprintable c ++ [w "pub"; w "mod"; W n] ++ G Brc (prelude ++ flat_map (def_tokens bc float_text unprintable) ds) :: []).
    rewrite (app_assoc (doc_of unprintable c) [w "pub"; w "mod"; W n]). apply part_in. pose proof (part_app _ _ prelude [] (part_flat _ (def_tokens bc float_text unprintable) ds d Hd (IH d Hd _ e He))) as H. rewrite app_nil_r in H. exact H.
  - destruct d as [c n ds|c n g fs|c n g vs|c n g t|c n t v|segs el]; [destruct (Hd c n ds eq_refl)| | |destruct He|destruct He|destruct He]; (destruct He as [<-|[]]); cbn [def_tokens];
      [pose proof (part_here (struct_item bc unprintable c n g fs) (encode_item bc (Entry path n g (BStruct fs)) ++ decode_item bc (Entry path n g (BStruct fs)) ++ size_item bc (Entry path n g (BStruct fs))) []) as H
      |pose proof (part_here (enum_item bc unprintable c n g vs) (encode_item bc (Entry path n g (BEnum vs)) ++ decode_item bc (Entry path n g (BEnum vs)) ++ size_item bc (Entry path n g (BEnum vs))) []) as H];
      rewrite app_nil_r in H; exact H.
Qed.
End Entries.
Lemma all_opt_nth {A B} (f : A -> option B) l m i a b : all_opt f l = Some m -> nth_error l i = Some a -> nth_error m i = Some b -> f a = Some b.
Proof.
  revert m i. induction l as [|x l IH]; intros m i H Ha Hb; [destruct i; discriminate|]. cbn [all_opt] in H. destruct (f x) as [y|] eqn:E; [|discriminate]. destruct (all_opt f l) as [m'|]; [|discriminate]. injection H as <-.
  destruct i as [|i]; cbn [nth_error] in *; [congruence|]. exact (IH m' i eq_refl Ha Hb).
Qed.
Lemma impl_of_fn trait name g bound attr sig body : impl_fn trait sig name (impl_of trait name g bound attr (sig ++ [G Brc body])) body.
Proof. exists (params_of g), (params_of g), (where_of bound g), attr. reflexivity. Qed.

(** * The theorems *)
Section Theorems.
Context {F : Type}.
Variables (outs : list (str * list (sdef F))) (E : env).
Hypothesis HE : lower_project outs = Some E.
Hypothesis Hg : forallb (fun o => forallb generates (snd o)) outs = true.
Lemma lowered i e def : nth_error (project_entries outs) i = Some e -> nth_error E i = Some def -> no_keywords e ->
  entry_ok e /\ let look := lookup (project_entries outs) (project_uses outs) (e_path e) in
  match e_body e with
  | BStruct fs => exists fs', def = DStruct fs' /\ lower_fields look (e_params e) fs = Some fs' /\ fields_ok fs
  | BEnum vs => exists vs', def = DEnum vs' /\ all_opt (lower_variant look (e_params e)) vs = Some vs' /\ Forall variant_ok vs
  end.
Proof.
  intros He Hd Hn. assert (Hok : entry_ok e).
  { apply nth_error_In in He. unfold project_entries in He. apply in_flat_map in He as ([nm ds] & Hin & He). unfold schema_entries in He. cbn [fst snd] in He. apply in_flat_map in He as (d & Hd' & He).
    rewrite forallb_forall in Hg. specialize (Hg _ Hin). cbn [snd] in Hg. rewrite forallb_forall in Hg. exact (entries_ok d _ e (Hg d Hd') He). }
  split; [exact Hok|]. pose proof (all_opt_nth _ _ _ _ _ _ HE He Hd) as Hl. unfold lower_entry in Hl. destruct (existsb _ _); [discriminate|]. unfold entry_ok, no_keywords, inner_names in *. cbv zeta.
  destruct (e_body e) as [fs|vs].
  - destruct (lower_fields _ _ fs) as [fs'|] eqn:El; [|discriminate]. injection Hl as <-. exists fs'. split; [reflexivity|]. split; [reflexivity|]. apply names_fields; assumption.
  - destruct (all_opt _ vs) as [vs'|] eqn:El; [|discriminate]. injection Hl as <-. exists vs'. split; [reflexivity|]. split; [reflexivity|]. apply names_variants; assumption.
Qed.
End Theorems.

(** The blocks are in the file of the schema. *)
Theorem C91_written : forall (F : Type) (outs : list (str * list (sdef F))) bc float_text unprintable nm ds e,
  In (nm, ds) outs -> In e (schema_entries (nm, ds)) ->
  part_of (encode_item bc e ++ decode_item bc e ++ size_item bc e) (schema_tokens bc float_text unprintable ds).
Proof.
  intros F outs bc ft up nm ds e _ He. unfold schema_entries in He. cbn [fst snd] in He. apply in_flat_map in He as (d & Hd & He). unfold schema_tokens.
  pose proof (part_app _ _ prelude [] (part_flat _ (def_tokens bc ft up) ds d Hd (entries_written bc ft up d _ e He))) as H. rewrite app_nil_r in H. exact H.
Qed.
Print Assumptions C91_written.

Theorem C91_size : forall (F : Type) (outs : list (str * list (sdef F))) (E : env) bc i e def,
  lower_project outs = Some E -> forallb (fun o => forallb generates (snd o)) outs = true ->
  nth_error (project_entries outs) i = Some e -> nth_error E i = Some def -> no_keywords e ->
  exists tokens body, impl_fn (q "::mabo::buf::Size") (q "fn size(&self) -> usize") (e_name e) (size_item bc e) tokens
    /\ read_body tokens = Some body /\ matches_self outs bc e body (gen_size_def (bytes_of bc) def).
Proof.
  intros F outs E bc i e def HE Hg He Hd Hn. destruct (lowered outs E HE Hg i e def He Hd Hn) as [_ H]. cbv zeta in H. unfold size_item, matches_self. destruct (e_body e) as [fs|vs].
  - destruct H as (fs' & -> & Hl & Hok). destruct (size_struct_reads bc _ _ _ _ Hok Hl) as (body & H1 & H2). eexists _, body. split; [apply impl_of_fn|]. split; [exact H1|].
    eexists. split; [reflexivity|]. rewrite <- (proj1 (lower_fields_kind _ _ _ _ Hl)). exact H2.
  - destruct H as (vs' & -> & Hl & Hok). destruct (size_enum_reads bc _ _ _ _ Hok Hl) as (body & H1 & H2). eexists _, body. split; [apply impl_of_fn|]. split; [exact H1|exact H2].
Qed.
Print Assumptions C91_size.

Theorem C91_encode : forall (F : Type) (outs : list (str * list (sdef F))) (E : env) bc i e def,
  lower_project outs = Some E -> forallb (fun o => forallb generates (snd o)) outs = true ->
  nth_error (project_entries outs) i = Some e -> nth_error E i = Some def -> no_keywords e ->
  exists tokens body, impl_fn (q "::mabo::Encode") (q "fn encode(&self, w: &mut impl ::mabo::BufMut)") (e_name e) (encode_item bc e) tokens
    /\ read_body tokens = Some body /\ matches_self outs bc e body (gen_encode_def (bytes_of bc) def).
Proof.
  intros F outs E bc i e def HE Hg He Hd Hn. destruct (lowered outs E HE Hg i e def He Hd Hn) as [_ H]. cbv zeta in H. unfold encode_item, matches_self. destruct (e_body e) as [fs|vs].
  - destruct H as (fs' & -> & Hl & Hok). destruct (encode_struct_reads bc _ _ _ _ Hok Hl) as (body & H1 & H2). eexists _, body. split; [apply impl_of_fn|]. split; [exact H1|].
    eexists. split; [reflexivity|]. rewrite <- (proj1 (lower_fields_kind _ _ _ _ Hl)). exact H2.
  - destruct H as (vs' & -> & Hl & Hok). destruct (encode_enum_reads bc _ _ _ _ Hok Hl) as (body & H1 & H2). eexists _, body. split; [apply impl_of_fn|]. split; [exact H1|exact H2].
Qed.
Print Assumptions C91_encode.

Theorem C91_decode : forall (F : Type) (outs : list (str * list (sdef F))) (E : env) bc i e def,
  lower_project outs = Some E -> forallb (fun o => forallb generates (snd o)) outs = true ->
  nth_error (project_entries outs) i = Some e -> nth_error E i = Some def -> no_keywords e ->
  exists tokens body, impl_fn (q "::mabo::Decode") (q "fn decode(r: &mut impl ::mabo::Buf) -> ::mabo::buf::Result<Self>") (e_name e) (decode_item bc e) tokens
    /\ read_body tokens = Some body /\ decodes outs bc e body (gen_decode_def (bytes_of bc) def).
Proof.
  intros F outs E bc i e def HE Hg He Hd Hn. destruct (lowered outs E HE Hg i e def He Hd Hn) as [_ H]. cbv zeta in H. unfold decode_item, decodes. destruct (e_body e) as [fs|vs].
  - destruct H as (fs' & -> & Hl & Hok). destruct (decode_struct_reads bc _ _ _ _ Hok Hl) as (body & H1 & H2). eexists _, body. split; [apply impl_of_fn|]. split; [exact H1|].
    rewrite <- (proj1 (lower_fields_kind _ _ _ _ Hl)). exact H2.
  - destruct H as (vs' & -> & Hl & Hok). destruct (decode_enum_reads bc _ _ _ _ KUnit Hok Hl) as (body & H1 & H2). eexists _, body. split; [apply impl_of_fn|]. split; [exact H1|exact H2].
Qed.
Print Assumptions C91_decode.

(** The project of C49_ex: a generic struct, a struct with a point, a list and a list that is not empty, and a struct with one field.  The hypotheses
    hold for each; the [size] function of the second is as follows. *)
Definition plain_names (l : list str) : bool := forallb RustTokens.is_ident l.
Lemma plain_no_keywords e : plain_names (inner_names e) = true -> no_keywords e.
Proof. intros H n Hn Hr. unfold plain_names in H. rewrite forallb_forall in H. specialize (H n Hn). apply PropRustNames.reserved_iff in Hr. congruence. Qed.
Definition good_entries : list entry := project_entries (PropProject.outs_of PropProject.good).
Example C91_ex : exists E, lower_project (PropProject.outs_of PropProject.good) = Some E
  /\ forallb (fun o => forallb generates (snd o)) (PropProject.outs_of PropProject.good) = true
  /\ length good_entries = length E /\ (forall e, In e good_entries -> no_keywords e)
  /\ exists e tokens, nth_error good_entries 1 = Some e
    /\ impl_fn (q "::mabo::buf::Size") (q "fn size(&self) -> usize") [78] (size_item false e) tokens
    /\ tokens = q "let Self { a, b, c, } = self; ::mabo::buf::size_field(1, || { a.size() }) + ::mabo::buf::size_field(2, || { ::mabo::buf::size_vec(b, |v| { v.size() }) }) + ::mabo::buf::size_field(7, || { ::mabo::buf::size_vec(c.get(), |v| { v.size() }) }) + ::mabo::buf::END_MARKER_SIZE".
Proof.
  eexists. split; [reflexivity|]. split; [reflexivity|]. split; [reflexivity|]. split.
  - intros e He. apply plain_no_keywords. cbn in He. repeat (destruct He as [<-|He]; [reflexivity|]). destruct He.
  - eexists _, _. split; [reflexivity|]. split; [exists [], [], [], attr_struct; vm_compute; reflexivity|]. vm_compute. reflexivity.
Qed.
Print Assumptions C91_ex.
