(** Property theorems C67: where validation errors point to. *)
From Verif Require Import Base Syntax Parser ParserSpec Printer Compiler CompilerSpec CompilerProofs CompilerMore Meta Lsp LspSpec LspProofs LspServer SpanParser LspVisit TokenSpec
  NameSpec OutlineSpec SpanProofs SpanTypes SpanDefs SpanSchema SpanLsp SpanPlaced OutlineProofs Diagnose DiagnoseSpec DiagnoseProofs PropParser PropBuild.
Require Coq.Strings.String.
Import Coq.Strings.String.StringSyntax.
Local Open Scope N_scope.

(** Without its locations an error is the one that the other properties speak of. *)
Theorem C67_same_verdict : forall {F} (pick : list str -> nat) (chk : bool) (s : lschema F),
  match lvalidate_schema pick chk s with COk _ => COk tt | CErr (e, _) => CErr e | CPanic => CPanic end = validate_schema pick chk (er_schema s).
Proof. intros F pick chk s. rewrite <- drop_schema. destruct (lvalidate_schema pick chk s) as [[]|[e p]|]; reflexivity. Qed.
Print Assumptions C67_same_verdict.

Lemma er_within {F} (d x : ldef F) ds : In x (all_defs d) -> In d ds -> within (er_def x) (map er_def ds).
Proof.
  revert ds. induction d as [c kw n o e ds' IH|c a kw n g fs|c a kw n g o e vs|c kw n g e t m|c kw n k t e v vl m|kw segs el m] using ldef_ind2; intros ds Hx Hd; cbn [all_defs] in Hx; destruct Hx as [<-|Hx];
    try (apply within_here; apply in_map; exact Hd); try (destruct Hx; fail).
  apply in_flat_map in Hx as (d & Hd' & Hx). eapply within_module; [apply (in_map er_def) in Hd; exact Hd|]. exact (IH d Hd' ds' Hx Hd').
Qed.
Lemma parsed_u32 {F} (pf : str -> option F) src s : text src -> lschema_parse pf src = Some s -> forall d, In d (schema_defs s) -> def_u32 d.
Proof.
  intros Ht Hp d Hd. pose proof (proj1 (lschema_ok pf src Ht)) as E. rewrite Hp in E. cbn [option_map] in E. symmetry in E. pose proof (SchemaOk_u32 _ (C52_well_formed _ pf src _ Ht E)) as Hu.
  apply in_flat_map in Hd as (x & Hx & Hd). pose proof (er_within x d (ls_defs s) Hd Hx) as Hw. specialize (Hu (er_def d)). cbn [er_schema ps_defs] in Hu. split.
  - destruct d as [c kw m o e ds|c a kw m g fs|c a kw m g o e vs|c kw m g e t q|c kw m k t e w vl q|kw segs el q]; try (intros ? []). specialize (Hu (variant_decls (p_map (fun e => er_variant (fst e)) vs)) Hw (or_introl eq_refl)).
    unfold variant_decls in Hu. rewrite p_values_er, !map_map in Hu. cbn [variants_of]. rewrite map_map. exact Hu.
  - intros fs Hf. apply (Hu (field_decls (er_fields fs)) Hw). unfold id_scopes. apply in_app_iff. right. apply in_map. destruct d as [c kw m o e ds|c a kw m g fs'|c a kw m g o e vs|c kw m g e t q|c kw m k t e w vl q|kw segs el q]; try (destruct Hf; fail).
    + destruct Hf as [->|[]]. left. reflexivity.
    + cbn [fields_of variants_of] in Hf. cbn [er_def field_lists]. rewrite p_values_er. apply in_map_iff in Hf as (v & <- & Hv). apply in_map_iff. exists (er_variant v). split; [reflexivity|apply in_map; exact Hv].
Qed.

(** The two items of a duplicate, the unused parameter or the type with the wrong tuple are in the schema as the error says, and
    the locations of the error are where they stand in the source. *)
Theorem C67_report : forall {F} (parse_f64 : str -> option F) (pick : list str -> nat) (chk : bool) (src : str) (s : lschema F) (e : verr) (p : place),
  text src -> lschema_parse parse_f64 src = Some s -> lvalidate_schema pick chk s = CErr (e, p) ->
  report s e p /\ points src e p.
Proof.
  intros F pf pick chk src s e p Ht Hp H. pose proof (schema_report s pick chk (e, p) (parsed_u32 pf src s Ht Hp) H) as Hr. split; [exact Hr|].
  destruct (doc_names pf src s Ht Hp) as [H1 H2]. apply (report_points src s); [|exact H2|exact (doc_nodes pf src s Ht Hp)|exact Hr].
  eapply Forall_impl; [|exact H1]. intros w [Hw _]. exact Hw.
Qed.
Print Assumptions C67_report.

(** The range of the bytes of a location. *)
Definition located (enc : option wenc) (src : str) (l : loc) (r : Lsp.pos * Lsp.pos) : Prop :=
  exists pre t suf, src = pre ++ t ++ suf /\ l = (bytes_len pre, bytes_len (pre ++ t)) /\ r = (end_of enc pre, end_of enc (pre ++ t)).
Lemma located_at enc src i l t : li_new src = Some i -> at_loc src l t -> exists r, expect_range (Index i enc) l = LOk r /\ located enc src l r.
Proof.
  intros Hi Ha. destruct (get_range_at enc src (Index i enc) l t (ex_intro _ i (conj Hi eq_refl)) Ha) as (pre & suf & E & El & Er).
  eexists. split; [unfold expect_range; rewrite Er; reflexivity|]. exists pre, t, suf. auto.
Qed.
Lemma reads_at {A} src l (p : parser A) a : reads src l p a -> exists t, at_loc src l t.
Proof. intros (pre & t & suf & E & El & _). exists t, pre, suf. auto. Qed.

(** The diagnostic for the editor is made without a panic; it covers the second of two items and refers to the first. *)
Theorem C67_diagnostic : forall {F} (parse_f64 : str -> option F) (pick : list str -> nat) (chk : bool) (enc : option wenc) (src : str) (i : line_index) (s : lschema F) (e : verr) (p : place),
  text src -> li_new src = Some i -> lschema_parse parse_f64 src = Some s -> lvalidate_schema pick chk s = CErr (e, p) ->
  exists d, validate_diagnostic (Index i enc) (e, p) = LOk d /\ dg_error d = e
    /\ match p with
       | Two first second => located enc src second (dg_range d) /\ exists r, dg_related d = Some r /\ located enc src first r
       | One declared => located enc src declared (dg_range d) /\ dg_related d = None
       end.
Proof.
  intros F pf pick chk enc src i s e p Ht Hi Hp H. destruct (C67_report pf pick chk src s e p Ht Hp H) as [_ Hpt].
  assert (Hone : forall l, (exists t, at_loc src l t) -> exists r, expect_range (Index i enc) l = LOk r /\ located enc src l r) by (intros l [t Hl]; exact (located_at enc src i l t Hi Hl)).
  assert (Hloc : match p with Two f g => (exists t, at_loc src f t) /\ exists t, at_loc src g t | One l => exists t, at_loc src l t end).
  { destruct e, p; cbn [points] in Hpt; try contradiction; try (destruct Hpt as (H1 & H2 & _); split; eexists; eassumption).
    - destruct Hpt as [[H1|(x1 & H1)] [H2|(x2 & H2)]]; split; try (eexists; eassumption); eapply reads_at; eassumption.
    - destruct Hpt as [[H1|(x1 & H1)] [H2|(x2 & H2)]]; split; try (eexists; eassumption); eapply reads_at; eassumption.
    - destruct Hpt as [[H1|(x1 & H1)] [H2|(x2 & H2)]]; split; try (eexists; eassumption); eapply reads_at; eassumption.
    - eexists. eassumption.
    - destruct Hpt as (fu & t & ts & Hr & _). eapply reads_at. exact Hr. }
  destruct p as [f g|l]; cbn [validate_diagnostic].
  - destruct Hloc as [Hf Hg]. destruct (Hone f Hf) as (rf & Ef & Lf), (Hone g Hg) as (rg & Eg & Lg). rewrite Eg, Ef. cbn [lbind]. eexists. split; [reflexivity|]. split; [reflexivity|]. split; [exact Lg|exists rf; auto].
  - destruct (Hone l Hloc) as (r & Er & Lr). rewrite Er. cbn [lbind]. eexists. split; [reflexivity|]. auto.
Qed.
Print Assumptions C67_diagnostic.

(** Duplicate ids: the second id is not written, so the whole field is marked; duplicate names in a module; a single-element tuple
    inside a vector, where the whole type is marked. *)
Definition C67_show (src : str) : option (cres lverr unit) := option_map (lvalidate_schema (fun _ => 0%nat) true) (lschema_parse (F := unit) (fun _ => None) src).
Example C67_ex :
  (C67_show (tx "struct A { a: u8 @2, b: u8 @1, c: u8 }"), C67_show (tx "struct A(u8) enum A { X }"), C67_show (tx "struct A { a: vec<(u8)> }"))
  = (Some (CErr (DuplicateNamedFieldId 2 (tx "c") (tx "a"), Two (17, 19) (31, 36))),
     Some (CErr (DuplicateNameInModule (tx "A"), Two (7, 8) (18, 19))),
     Some (CErr (TupleSize AmSingle, One (14, 23)))).
Proof. vm_compute. reflexivity. Qed.
