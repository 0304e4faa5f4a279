(** Property theorems C73: the language server's analysis of a document, for every text. *)
From Verif Require Import Base Syntax Parser ParserSpec ParserTotal Compiler CompilerSpec Lsp LspSpec LspProofs LspServer SpanParser NameSpec SpanProofs SpanSchema SpanPlaced SpanLsp OutlineProofs
  ErrParser ErrProofs CompilerSpec Diagnose DiagnoseSpec DiagnoseProofs PropParser PropDiagnose PropBuild PropCompiler PropLsp LspCompile.
Require Coq.Strings.String.
Import Coq.Strings.String.StringSyntax.
Local Open Scope N_scope.

(** The parser returns a schema or an error; which one is the answer of [Schema::parse]; an error is at a place in the text. *)
Lemma reporting {F} (pf : str -> option F) src : text src ->
  match parse_reporting pf src with
  | Some (Parsed s) => schema_parse pf src = Some s
  | Some (Rejected e) => schema_parse pf src = None /\ exists pre suf, src = pre ++ suf /\ leaf_at e = (bytes_len pre, bytes_len pre)
  | None => False
  end.
Proof.
  intros Ht. unfold parse_reporting, schema_parse, ebind. pose proof (f_schema (bytes_len src) pf src) as H. pose proof (C51_parser_total F pf src Ht) as T.
  assert (Hat : forall e r, sfx src r -> er_at e = offs (bytes_len src) r -> shown (er_layer e) -> exists pre suf, src = pre ++ suf /\ leaf_at e = (bytes_len pre, bytes_len pre)).
  { intros e r [g E] Ea [Hs Hs']. exists g, r. split; [exact E|]. assert (bytes_len g = er_at e) as ->. { rewrite Ea. unfold offs. rewrite E, bytes_len_app. lia. }
    unfold leaf_at. destruct (er_layer e); try reflexivity; contradiction. }
  destruct (eparse_schema (bytes_len src) pf src) as [s r|[] e r| |], (parse_schema pf src) as [s' r'| | | |]; cbn in H; try tauto.
  - destruct H as (<- & <- & H). destruct r as [|c r]; cbn; [reflexivity|]. split; [reflexivity|]. destruct H as [g E]. exists g, (c :: r). split; [exact E|].
    cbn [leaf_at from_input er_layer er_at]. assert (bytes_len g = offs (bytes_len src) (c :: r)) as ->; [|reflexivity]. unfold offs. rewrite E, bytes_len_app. lia.
  - destruct H as (H1 & H2 & H3). split; [reflexivity|]. exact (Hat e r H1 H2 H3).
  - destruct H as (H1 & H2 & H3). split; [reflexivity|]. exact (Hat e r H1 H2 H3).
Qed.

(** A text that is not a schema: an empty range at a place in the text, and nothing of the text before that place depends on what comes after
    (C74 says more about the place). *)
Theorem C73_syntax_error : forall {F} (parse_f64 : str -> option F) (pick : list str -> nat) (chk : bool) (enc : option wenc) (src : str) (i : line_index),
  text src -> li_new src = Some i -> schema_parse parse_f64 src = None ->
  exists pre suf message, src = pre ++ suf
    /\ lsp_compile parse_f64 pick chk src (Index i enc) = LOk (BadSyntax (SyntaxDiagnostic (end_of enc pre, end_of enc pre) message)).
Proof.
  intros F pf pick chk enc src i Ht Hi Hp. pose proof (reporting pf src Ht) as H. unfold lsp_compile.
  destruct (parse_reporting pf src) as [[s|e]|]; [congruence| |destruct H]. destruct H as [_ (pre & suf & E & El)].
  assert (Hl : at_loc src (leaf_at e) []) by (exists pre, suf; rewrite app_nil_r; split; [exact E|exact El]).
  destruct (get_range_at enc src (Index i enc) (leaf_at e) [] (ex_intro _ i (conj Hi eq_refl)) Hl) as (pre' & suf' & E' & El' & Er).
  exists pre', suf', (leaf_msg e). split; [exact E'|]. unfold parse_diagnostic, expect_range. rewrite Er. cbn [lbind]. rewrite app_nil_r. reflexivity.
Qed.
Print Assumptions C73_syntax_error.

(** A schema that is valid is the result; one that is not gives the diagnostic of the error that validation finds. *)
Theorem C73_parsed : forall {F} (parse_f64 : str -> option F) (pick : list str -> nat) (chk : bool) (enc : option wenc) (src : str) (i : line_index) (s : pschema F),
  text src -> li_new src = Some i -> schema_parse parse_f64 src = Some s ->
  match validate_schema pick chk s with
  | COk _ => lsp_compile parse_f64 pick chk src (Index i enc) = LOk (Good s)
  | CErr e => exists d first second, lsp_compile parse_f64 pick chk src (Index i enc) = LOk (Invalid d) /\ dg_error d = e
      /\ located enc src second (dg_range d) /\ (forall r, dg_related d = Some r -> located enc src first r)
  | CPanic => lsp_compile parse_f64 pick chk src (Index i enc) = LPanic
  end.
Proof.
  intros F pf pick chk enc src i s Ht Hi Hp. pose proof (reporting pf src Ht) as H. unfold lsp_compile.
  destruct (parse_reporting pf src) as [[s'|e]|]; [|destruct H; congruence|destruct H]. assert (s' = s) as -> by congruence.
  pose proof (proj1 (lschema_ok pf src Ht)) as E. rewrite Hp in E. destruct (lschema_parse pf src) as [ls|] eqn:El; [|discriminate E]. cbn [option_map] in E.
  assert (s = er_schema ls) as Es by congruence. rewrite Es. pose proof (C67_same_verdict pick chk ls) as V. destruct (lvalidate_schema pick chk ls) as [u|[e p]|] eqn:Ev; rewrite <- V.
  - reflexivity.
  - destruct (C67_diagnostic pf pick chk enc src i ls e p Ht Hi El Ev) as (d & Ed & Ee & Hd). rewrite Ed. cbn [lbind].
    destruct p as [f g|l]; [destruct Hd as (H1 & r & H2 & H3); exists d, f, g|destruct Hd as (H1 & H2); exists d, l, l]; repeat split; auto; intros q Hq; congruence.
  - reflexivity.
Qed.
Print Assumptions C73_parsed.

(** The analysis never fails to return: without overflow checks there is no panic at all, with them only for an id 2^32-1. *)
Theorem C73_no_panic : forall {F} (parse_f64 : str -> option F) (pick : list str -> nat) (chk : bool) (enc : option wenc) (src : str) (i : line_index),
  text src -> li_new src = Some i ->
  (exists a, lsp_compile parse_f64 pick chk src (Index i enc) = LOk a)
  \/ (chk = true /\ exists s d decl ids, schema_parse parse_f64 src = Some s /\ CompilerSpec.within d (ps_defs s) /\ In decl (id_scopes d) /\ assigns decl ids /\ In (2 ^ 32 - 1) ids).
Proof.
  intros F pf pick chk enc src i Ht Hi. destruct (schema_parse pf src) as [s|] eqn:Ep.
  - pose proof (C73_parsed pf pick chk enc src i s Ht Hi Ep) as H. destruct (validate_schema pick chk s) as [u|e|] eqn:Ev.
    + left. eauto.
    + left. destruct H as (d & _ & _ & H & _). eauto.
    + right. destruct (C33_id_overflow F pick chk s (SchemaOk_u32 _ (C52_well_formed _ pf src _ Ht Ep)) Ev) as [Hc (d & decl & ids & Hd)].
      split; [exact Hc|]. exists s, d, decl, ids. auto.
  - left. destruct (C73_syntax_error pf pick chk enc src i Ht Hi Ep) as (pre & suf & m & _ & H). eauto.
Qed.
Print Assumptions C73_no_panic.

(** In every session, the analysis kept for a document, which the answers to requests and the published diagnostics are made of, is right for the
    document's current text: it is the parsed schema exactly if the text is a valid schema. *)
Theorem C73_session : forall {F} (parse_f64 : str -> option F) (pick : list str -> nat) (chk chk' : bool) (enc : option wenc) (es : list event)
    (sv : server) (uri : str) (f : file) (s : pschema F),
  run (fun _ src ix => lsp_compile parse_f64 pick chk src ix) chk' (Server enc [] []) es = Some sv ->
  document sv uri = Some f -> text (f_content f) ->
  (Lsp.f_schema f = LOk (Good s) <-> schema_parse parse_f64 (f_content f) = Some s /\ validate_schema pick chk s = COk tt).
Proof.
  intros F pf pick chk chk' enc es sv uri f s Hr Hd Ht. destruct (C50_analysis_current _ chk' enc es sv uri f Hr Hd) as (i & Hi & _ & Hs & _). rewrite Hs.
  split.
  - intros H. destruct (schema_parse pf (f_content f)) as [s'|] eqn:Ep.
    + pose proof (C73_parsed pf pick chk enc _ i s' Ht Hi Ep) as V. destruct (validate_schema pick chk s') as [[]|e|] eqn:Ev.
      * assert (s' = s) as -> by congruence. auto.
      * destruct V as (d & _ & _ & V & _). congruence.
      * congruence.
    + destruct (C73_syntax_error pf pick chk enc _ i Ht Hi Ep) as (pre & suf & m & _ & V). congruence.
  - intros [Ep Ev]. pose proof (C73_parsed pf pick chk enc _ i s Ht Hi Ep) as V. rewrite Ev in V. exact V.
Qed.
Print Assumptions C73_session.

(** Three texts: a valid schema, one with a duplicate name, one with a syntax error in its second line, and the first panic. *)
Definition C73_show (src : str) : option (lres (analysis unit)) := option_map (fun i => lsp_compile (fun _ => None) (fun _ => 0%nat) true src (Index i None)) (li_new src).
Example C73_ex :
  (C73_show (tx "use a;"), C73_show (tx "struct A(u8) enum A { X }"), C73_show (tx "struct A(u8)" ++ [10] ++ tx "struct b(u8)"), C73_show (tx "struct A(u8 @4294967295, u8)"))
  = (Some (LOk (Good (PSchema [] [PImport [tx "a"] None]))),
     Some (LOk (Invalid (Diagnostic (Pos 0 18, Pos 0 19) (DuplicateNameInModule (tx "A")) (Some (Pos 0 7, Pos 0 8))))),
     Some (LOk (BadSyntax (SyntaxDiagnostic (Pos 1 7, Pos 1 7) (Some (tx "Invalid struct name"))))),
     Some LPanic).
Proof. vm_compute. reflexivity. Qed.
