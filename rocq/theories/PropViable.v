(** Property theorems C74: where the syntax error is shown. *)
From Verif Require Import Base Syntax Parser ParserSpec ParserTotal Grammar GrammarSound GrammarComplete Compiler Lsp LspSpec LspProofs SpanParser SpanProofs SpanLsp
  ErrParser ErrProofs ErrViable ErrViableLit ErrViableDef ErrLate PropParser PropGrammar LspCompile.
From Verif Require Import NameSpec OutlineProofs Diagnose.
From Verif Require PropErr.
Require Coq.Strings.String.
Import Coq.Strings.String.StringSyntax.
Local Open Scope N_scope.

(** Every text with the shape of a floating point literal has a value (std's [f64::from_str] accepts all of them). *)
Definition floats_total {F} (parse_f64 : str -> option F) : Prop := forall s neg a b e,
  wsign s neg -> Forall digit a -> a <> [] -> Forall digit b -> b <> [] -> wexponent e -> parse_f64 (s ++ a ++ w "." ++ b ++ e) <> None.
(** [pre] ends with a backslash, "u{" and six hexadecimal digits whose value no character has. *)
Definition hopeless (pre : str) : Prop := exists p h v, pre = p ++ [92; 117; 123] ++ h /\ length h = 6%nat /\ Hex h v /\ ~ scalar v.

Lemma reported {F} (pf : str -> option F) src : floats_total pf -> text src ->
  match parse_reporting pf src with
  | Some (Rejected e) => exists pre suf, src = pre ++ suf /\ leaf_at e = (bytes_len pre, bytes_len pre) /\ (hopeless pre \/ exists t s, text t /\ schema_parse pf (pre ++ t) = Some s)
  | _ => True
  end.
Proof.
  intros Hf Ht. unfold parse_reporting, ebind. pose proof (f_schema (bytes_len src) pf src) as H. pose proof (@schema_err F pf (bytes_len src) Hf src) as He. pose proof (@schema_rest F pf (bytes_len src) Hf src) as Hr.
  assert (Hfin : forall e r, sviable pf src r -> er_at e = offs (bytes_len src) r -> ErrProofs.shown (er_layer e) ->
    exists pre suf, src = pre ++ suf /\ leaf_at e = (bytes_len pre, bytes_len pre) /\ (hopeless pre \/ exists t s, text t /\ schema_parse pf (pre ++ t) = Some s)).
  { intros e r (pre & E & Hv) Ea [Hs Hs']. exists pre, r. split; [exact E|]. split.
    - assert (bytes_len pre = er_at e) as ->. { rewrite Ea. unfold offs. rewrite E, bytes_len_app. lia. } unfold leaf_at. destruct (er_layer e); try reflexivity; contradiction.
    - destruct Hv as [Hv|(t & s & Htt & Hv)]; [left; exact Hv|right]. exists t, s. split; [exact Htt|]. apply C68_accepts; [|exact Hv]. apply Forall_app. split; [|exact Htt]. rewrite E in Ht. apply Forall_app in Ht as [Ht _]. exact Ht. }
  destruct (eparse_schema (bytes_len src) pf src) as [s r|c e r| |] eqn:Es; try exact I.
  - destruct r as [|x r]; [exact I|]. cbn [eeof]. apply (Hfin _ (x :: r)); [exact (Hr _ _ eq_refl)|reflexivity|split; discriminate].
  - destruct c, (parse_schema pf src) as [s' r'| | | |]; cbn in H; try tauto; destruct H as (H1 & H2 & H3); exact (Hfin e r (He _ _ _ eq_refl) H2 H3).
Qed.

(** For every text that is not a schema, the text before the place of the reported syntax error can be continued to a text that is a schema: nothing
    before that place needs to be changed.  The one exception is [hopeless]. *)
Theorem C74_recoverable : forall {F} (parse_f64 : str -> option F) (pick : list str -> nat) (chk : bool) (enc : option wenc) (src : str) (i : line_index),
  floats_total parse_f64 -> text src -> li_new src = Some i -> schema_parse parse_f64 src = None ->
  exists pre suf message, src = pre ++ suf
    /\ lsp_compile parse_f64 pick chk src (Index i enc) = LOk (BadSyntax (SyntaxDiagnostic (end_of enc pre, end_of enc pre) message))
    /\ (hopeless pre \/ exists t s, text t /\ schema_parse parse_f64 (pre ++ t) = Some s).
Proof.
  intros F pf pick chk enc src i Hf Ht Hi Hp. pose proof (PropErr.reporting pf src Ht) as H. pose proof (reported pf src Hf Ht) as H'. unfold lsp_compile.
  destruct (parse_reporting pf src) as [[s|e]|]; [congruence| |destruct H]. destruct H' as (pre & suf & E & El & Hv).
  assert (Hl : at_loc src (leaf_at e) []) by (exists pre, suf; rewrite app_nil_r; split; [exact E|exact El]).
  destruct (get_range_at enc src (Index i enc) (leaf_at e) [] (ex_intro _ i (conj Hi eq_refl)) Hl) as (pre' & suf' & E' & El' & Er).
  exists pre, suf, (leaf_msg e). split; [exact E|]. split; [|exact Hv]. unfold parse_diagnostic, expect_range. rewrite Er. cbn [lbind]. rewrite app_nil_r.
  assert (pre' = pre) as ->; [|reflexivity]. rewrite El in El'. assert (Hlen : bytes_len pre = bytes_len pre') by congruence. clear -E E' Hlen. subst src. cbn [app] in E'.
  revert pre' E' Hlen. induction pre as [|x pre IH]; intros [|y pre'] E' Hlen; [reflexivity| | |]; rewrite ?bytes_len_cons in Hlen.
  - exfalso. change (bytes_len []) with 0 in Hlen. pose proof (len8_pos y). lia.
  - exfalso. change (bytes_len []) with 0 in Hlen. pose proof (len8_pos x). lia.
  - assert (x = y) as -> by (cbn in E'; congruence). f_equal. apply IH; [cbn in E'; congruence|lia].
Qed.
Print Assumptions C74_recoverable.

Lemma prefix_unique (p : str) : forall p' q q', p ++ q = p' ++ q' -> bytes_len p = bytes_len p' -> p = p'.
Proof.
  induction p as [|x p IH]; intros [|y p'] q q' E Hlen; [reflexivity| | |]; rewrite ?bytes_len_cons in Hlen.
  - exfalso. change (bytes_len []) with 0 in Hlen. pose proof (len8_pos y). lia.
  - exfalso. change (bytes_len []) with 0 in Hlen. pose proof (len8_pos x). lia.
  - cbn [app] in E. injection E as -> E. f_equal. apply (IH p' q q' E). lia.
Qed.
Lemma reported_late {F} (pf : str -> option F) p q s : text (p ++ q) -> schema_parse pf p = Some s ->
  match parse_reporting pf (p ++ q) with Some (Rejected e) => exists m suf, p ++ q = (p ++ m) ++ suf /\ leaf_at e = (bytes_len (p ++ m), bytes_len (p ++ m)) | _ => True end.
Proof.
  intros Ht Hp. unfold parse_reporting, ebind. assert (Htp : text p) by (apply Forall_app in Ht as [Ht _]; exact Ht). apply (C68_accepts F pf p s Htp) in Hp.
  pose proof (schema_late pf (bytes_len (p ++ q)) p s q Htp Hp) as H.
  assert (Hfin : forall e r, sfx q r -> er_at e = offs (bytes_len (p ++ q)) r -> ErrProofs.shown (er_layer e) -> exists m suf, p ++ q = (p ++ m) ++ suf /\ leaf_at e = (bytes_len (p ++ m), bytes_len (p ++ m))).
  { intros e r [m E] Ea [Hs Hs']. exists m, r. subst q. split; [rewrite <- app_assoc; reflexivity|]. assert (bytes_len (p ++ m) = er_at e) as ->. { rewrite Ea. unfold offs. rewrite !bytes_len_app. lia. }
    unfold leaf_at. destruct (er_layer e); try reflexivity; contradiction. }
  destruct (eparse_schema (bytes_len (p ++ q)) pf (p ++ q)) as [s' r|c e r| |]; cbn in H; try exact I.
  - destruct r as [|x r]; [exact I|]. cbn [eeof]. apply (Hfin _ (x :: r) H); [reflexivity|split; discriminate].
  - destruct H as (H1 & H2 & H3). exact (Hfin e r H1 H2 H3).
Qed.
(** The place is not too early either: whatever beginning [p] of the text is a schema already, the error is reported behind it. *)
Theorem C74_not_early : forall {F} (parse_f64 : str -> option F) (pick : list str -> nat) (chk : bool) (enc : option wenc) (p q : str) (i : line_index) (s : pschema F),
  text (p ++ q) -> li_new (p ++ q) = Some i -> schema_parse parse_f64 p = Some s -> schema_parse parse_f64 (p ++ q) = None ->
  exists between rest message, q = between ++ rest
    /\ lsp_compile parse_f64 pick chk (p ++ q) (Index i enc) = LOk (BadSyntax (SyntaxDiagnostic (end_of enc (p ++ between), end_of enc (p ++ between)) message)).
Proof.
  intros F pf pick chk enc p q i s Ht Hi Hp Hn. pose proof (PropErr.reporting pf (p ++ q) Ht) as H. pose proof (reported_late pf p q s Ht Hp) as H'. unfold lsp_compile.
  destruct (parse_reporting pf (p ++ q)) as [[s'|e]|]; [congruence| |destruct H]. destruct H' as (m & suf & E & El).
  assert (Hl : at_loc (p ++ q) (leaf_at e) []) by (exists (p ++ m), suf; rewrite app_nil_r; split; [exact E|exact El]).
  destruct (get_range_at enc (p ++ q) (Index i enc) (leaf_at e) [] (ex_intro _ i (conj Hi eq_refl)) Hl) as (pre' & suf' & E' & El' & Er).
  exists m, suf, (leaf_msg e). split; [rewrite <- app_assoc in E; apply app_inv_head in E; exact E|]. unfold parse_diagnostic, expect_range. rewrite Er. cbn [lbind]. rewrite app_nil_r.
  assert (pre' = p ++ m) as ->; [|reflexivity]. rewrite El in El'. symmetry. apply (prefix_unique (p ++ m) pre' suf ([] ++ suf')); [rewrite <- E; exact E'|congruence].
Qed.
Print Assumptions C74_not_early.
(** A schema with a broken definition behind it. *)
Example C74_late_ex : exists s, schema_parse (fun _ : str => Some tt) (tx "struct A { b: u8 @1 }
") = Some s /\ option_map (fun i => lsp_compile (fun _ : str => Some tt) (fun _ => 0%nat) true (tx "struct A { b: u8 @1 }
enum B < { C @1 }") (Index i None)) (li_new (tx "struct A { b: u8 @1 }
enum B < { C @1 }")) = Some (LOk (BadSyntax (SyntaxDiagnostic (end_of None (tx "struct A { b: u8 @1 }
enum B "), end_of None (tx "struct A { b: u8 @1 }
enum B ")) (Some (tx "Failed to parse enum declaration"))))).
Proof. eexists. split; vm_compute; reflexivity. Qed.

(** The exception is real: behind these six digits no text completes the schema, and the error is shown there, at column 31. *)
Definition C74_all : str -> option unit := fun _ => Some tt.
Definition C74_show (src : str) : option (lres (analysis unit)) := option_map (fun i => lsp_compile C74_all (fun _ => 0%nat) true src (Index i None)) (li_new src).
Definition C74_stuck : str := tx "const A: string = " ++ [34] ++ tx "\u{ffffff".
Theorem C74_always_recoverable_refuted :
  C74_show (C74_stuck ++ tx "x}" ++ [34; 59]) = Some (LOk (BadSyntax (SyntaxDiagnostic (end_of None C74_stuck, end_of None C74_stuck) (Some (tx "Failed to parse literal value")))))
  /\ forall t, schema_parse C74_all (C74_stuck ++ t) = None.
Proof.
  split; [vm_compute; reflexivity|].
  assert (K : forall t, parse_schema C74_all (C74_stuck ++ t) = PCut -> schema_parse C74_all (C74_stuck ++ t) = None) by (intros t H; unfold schema_parse; rewrite H; reflexivity).
  intros [|x t]; [vm_compute; reflexivity|]. apply K. clear K. destruct x as [|p]; [lazy; reflexivity|].
  destruct p as [p|p|]; [|lazy; reflexivity..]. destruct p as [p|p|]; [lazy; reflexivity| |lazy; reflexivity].
  do 4 (destruct p as [p|p|]; [|lazy; reflexivity..]). destruct p as [p|p|]; lazy; reflexivity.
Qed.
Print Assumptions C74_always_recoverable_refuted.

(** A text and its completion: the error is shown behind the comma of "struct A { b: hash_map<u8, ". *)
Example C74_ex : C74_show (tx "struct A { b: hash_map<u8, > @1 }") = Some (LOk (BadSyntax (SyntaxDiagnostic (end_of None (tx "struct A { b: hash_map<u8, "), end_of None (tx "struct A { b: hash_map<u8, ")) (Some (tx "Failed to parse type definition")))))
  /\ (exists s, schema_parse C74_all (tx "struct A { b: hash_map<u8, " ++ tx "u8> @1 }") = Some s) /\ floats_total C74_all.
Proof. split; [vm_compute; reflexivity|]. split; [eexists; vm_compute; reflexivity|]. intros s neg a b e _ _ _ _ _ _. discriminate. Qed.
