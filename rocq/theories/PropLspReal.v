(** C86: what the language server answers and publishes in a whole conversation, about the texts the editor shows. *)
From Verif Require Import Base Syntax Parser ParserSpec ParserTotal Compiler CompilerSpec GenProofs Meta Lsp LspSpec LspProofs LspServer SpanParser LspVisit SpanProofs SpanLsp TokenSpec NameSpec OutlineSpec OutlineProofs
  Diagnose DiagnoseSpec PropDiagnose PropSpan ErrParser LspCompile PropErr LspSession SessionProofs PropSession LspReal.
From Verif Require PropCompiler PropParser PropBuild PropLsp.
Require Coq.Strings.String.
Import Coq.Strings.String.StringSyntax.
Local Open Scope N_scope.

(** * Specification *)

(** The texts in a notification are Unicode texts (JSON strings are). *)
Definition event_text (e : event) : Prop :=
  match e with DidOpen _ t => text t | DidChange _ cs => Forall (fun c => text (ch_text c)) cs | _ => True end.
(** A conversation [l] behind the opening, up to a moment when the server waits for nothing: the editor waits for the server (C76), its notifications are a session
    (C45) that leaves it with the documents [ed]; the project files found at the start are known to it. *)
Record talked {V} (p : init) (discover : str -> list (option str * option str)) (l : list (arrival V)) (ed : editor) : Prop := Talked {
  tk_stays : Forall stays l;
  tk_idle : awaits 2 l = Some 0%nat;
  tk_patient : patient 2 l;
  tk_small : small_files (flat_map discover (in_folders p));
  tk_files : forall u t, In (u, Some t) (flat_map discover (in_folders p)) -> text t;
  tk_session : session true (used (chosen p)) (found (flat_map discover (in_folders p))) (events_in l) ed;
  tk_texts : Forall event_text (events_in l)
}.
(** The text is a schema the compiler accepts. *)
Definition accepted {F} (parse_f64 : str -> option F) (pick : list str -> nat) (src : str) (s : pschema F) : Prop :=
  schema_parse parse_f64 src = Some s /\ validate_schema pick false s = COk tt.
(** The editor asks [q], and whatever happens then. *)
Definition then_asks {V} (l : list (arrival V)) (j : rid) (q : query) (l' : list (arrival V)) : list (arrival V) := l ++ Arrives (MRequest j (RqQuery (Some q))) :: l'.

(** * Texts stay texts *)
Lemma text_firstn n s : text s -> text (firstn n s).
Proof. unfold text. intros H. rewrite <- (firstn_skipn n s), Forall_app in H. apply H. Qed.
Lemma text_skipn n s : text s -> text (skipn n s).
Proof. unfold text. intros H. rewrite <- (firstn_skipn n s), Forall_app in H. apply H. Qed.
Lemma changes_text chk ix cs : forall rope rope', text rope -> Forall (fun c => text (ch_text c)) cs -> apply_changes chk ix rope cs = Some rope' -> text rope'.
Proof.
  induction cs as [|c cs IH]; intros rope rope' Hr Hc H; cbn [apply_changes] in H; [congruence|]. inversion Hc as [|c' cs' H1 H2]. subst.
  destruct (convert_range chk ix (ch_range c)) as [[a b]| |]; [|exact (IH _ _ Hr H2 H)|discriminate].
  destruct (byte_to_char rope a) as [a'| |]; cbn [lbind] in H; try discriminate. destruct (byte_to_char rope b) as [b'| |]; cbn [lbind] in H; try discriminate.
  unfold rope_remove in H. destruct (_ && _)%bool; cbn [lbind] in H; try discriminate. unfold rope_insert in H. destruct (_ <=? _)%nat; try discriminate.
  refine (IH _ _ _ H2 H). unfold text. rewrite !Forall_app. split; [apply text_firstn|split; [exact H1|apply text_skipn]]; (apply Forall_app; split; [apply text_firstn, Hr|apply text_skipn, Hr]).
Qed.
Section Texts.
Context {S : Type} (compile : str -> str -> index -> S) (chk : bool).
Definition all_text (sv : @server S) : Prop := forall uri f, document sv uri = Some f -> text (f_content f).
Lemma step_text sv e sv' : all_consistent compile sv -> all_text sv -> event_text e -> step compile chk sv e = Some sv' -> all_text sv'.
Proof.
  intros Hc Ht He Hs uri f Hf. pose proof (step_document compile chk sv e sv' Hs uri) as H. destruct e as [u t|u cs|u|uris]; cbn [event_text] in He.
  - destruct (str_eqb u uri); [|apply (Ht uri); congruence]. destruct H as (g & Hg & Hgt & _). assert (f = g) as -> by congruence. rewrite Hgt. exact He.
  - destruct (str_eqb u uri); [|apply (Ht uri); congruence]. destruct (is_full cs).
    + destruct H as (g & c & -> & Hg & H). assert (f = g) as -> by congruence. apply create_consistent in H as [_ ->]. inversion He; assumption.
    + destruct (document sv uri) as [f0|] eqn:E0; [|congruence]. destruct H as (g & Hg & H). assert (f = g) as -> by congruence. unfold update_file in H.
      destruct (apply_changes chk (f_index f0) (f_rope f0) cs) as [t|] eqn:Ea; [|discriminate]. destruct (li_new t); [|discriminate]. cbn [option_map] in H. apply (f_equal (option_map (f_content (S := S)))) in H. cbn [option_map f_content] in H.
      assert (t = f_content g) as <- by congruence. eapply changes_text; [|exact He|exact Ea]. destruct (Hc uri f0 E0) as [-> _]. exact (Ht uri f0 E0).
  - apply (Ht uri). congruence.
  - destruct (existsb _ uris); [congruence|]. apply (Ht uri). congruence.
Qed.
Lemma run_text es : forall sv sv', all_consistent compile sv -> all_text sv -> Forall event_text es -> run compile chk sv es = Some sv' -> all_text sv'.
Proof.
  induction es as [|e es IH]; cbn [run]; intros sv sv' Hc Ht He H; [assert (sv' = sv) as -> by congruence; exact Ht|]. inversion He as [|e' es' H1 H2]. subst.
  destruct (step compile chk sv e) as [sv1|] eqn:E; [|discriminate]. exact (IH sv1 sv' (step_consistent compile chk sv e sv1 Hc E) (step_text sv e sv1 Hc Ht H1 E) H2 H).
Qed.
Lemma found_in files u t : found files u = Some t -> exists u', In (u', Some t) files.
Proof.
  induction files as [|[x y] files IH]; cbn [found]; [discriminate|]. destruct (found files u) as [t'|].
  - intros H. destruct (IH H) as [u' Hu]. exists u'. right. exact Hu.
  - destruct x as [x|]; [|discriminate]. destruct y as [y|]; [|discriminate]. destruct (str_eqb x u); [|discriminate]. intros H. assert (y = t) as -> by congruence. exists (Some x). left. reflexivity.
Qed.
Lemma initialize_text discover p d : initialize compile discover p = Some d -> (forall u t, In (u, Some t) (flat_map discover (in_folders p)) -> text t) -> all_text d.
Proof.
  intros Hd Ht uri f Hf. destruct (initialize_sync compile discover p d Hd) as (_ & _ & Hs). specialize (Hs uri). rewrite Hf in Hs. cbn [option_map] in Hs. symmetry in Hs.
  destruct (found_in _ _ _ Hs) as [u Hu]. exact (Ht u _ Hu).
Qed.
End Texts.

(** * The handlers do not panic *)
Section Handlers.
Context {F : Type} (pf : str -> option F) (pick : list str -> nat).
Notation compile := (doc_compile pf pick false).
Notation srv := (@server (lres (analysis F))).

Lemma fields_next_some cfg fs : fields_next cfg false fs <> HNextId None.
Proof. unfold fields_next. destruct (show_next_id cfg); [|discriminate]. destruct (simplify_fields false (er_fields fs)) as [s|]; [|discriminate]. unfold next_field_id, succ_u32. destruct (ss_kind s); try discriminate; match goal with |- context [?a =? u32_max] => destruct (a =? u32_max) end; discriminate. Qed.
Lemma variants_next_some cfg vs : variants_next cfg false vs <> HNextId None.
Proof. unfold variants_next. destruct (show_next_id cfg); [|discriminate]. destruct (simplify_variants false 1 _) as [s|]; [|discriminate]. unfold next_variant_id, succ_u32. match goal with |- context [?a =? u32_max] => destruct (a =? u32_max) end; discriminate. Qed.
Lemma find_map_in {A B} (f : A -> option B) l b : find_map f l = Some b -> exists a, In a l /\ f a = Some b.
Proof. induction l as [|a l IH]; cbn [find_map]; [discriminate|]. destruct (f a) eqn:E; [intros H; exists a; split; [left; reflexivity|congruence]|]. intros H. destruct (IH H) as (a' & H1 & H2). exists a'. split; [right; exact H1|exact H2]. Qed.
Lemma fields_hover_safe cfg fs p t l : fields_hover cfg fs p = Some (t, l) -> ht_info t <> HNextId None.
Proof.
  destruct fs as [o c x|o c x|]; try discriminate. cbn [fields_hover]. intros H. apply find_map_in in H as (e & _ & H). destruct (contains _ p); [|discriminate].
  assert (t = HoverText (er_comment (lnf_comment (fst e))) (if show_wire_size cfg then HWireSize (wire_size (simplify_type (er_ty (lnf_ty (fst e))))) else HNone)) as -> by congruence. cbn [ht_info]. destruct (show_wire_size cfg); discriminate.
Qed.
Ltac at_name := match goal with H : Some (HoverText ?c ?i, _) = Some (?t, _) |- _ => assert (t = HoverText c i) as -> by congruence; cbn [ht_info] end.
Lemma def_hover_safe cfg (d : ldef F) p : forall t l, def_hover cfg false d p = Some (t, l) -> ht_info t <> HNextId None.
Proof.
  induction d as [c kw n o e ds IH|c a kw n g fs|c a kw n g o e vs|c kw n g e t m|c kw n k t e v vl m|kw segs el m] using ldef_ind2; intros t' l' H; cbn [def_hover] in H; try (destruct (contains (ln_loc n) p)).
  - at_name. discriminate.
  - apply find_map_in in H as (d & Hd & H). exact (IH d Hd _ _ H).
  - at_name. apply fields_next_some.
  - exact (fields_hover_safe _ _ _ _ _ H).
  - at_name. apply variants_next_some.
  - apply find_map_in in H as (v & _ & H). unfold variant_hover in H. destruct (contains _ p); [at_name; apply fields_next_some|exact (fields_hover_safe _ _ _ _ _ H)].
  - at_name. discriminate.
  - discriminate.
  - at_name. discriminate.
  - discriminate.
  - discriminate.
Qed.
(** Every position: a text, nothing, or an error. *)
Lemma hover_total cfg enc src ix s p : text src -> index_of enc src ix -> lschema_parse pf src = Some s ->
  match hover cfg false ix s p with LOk (Some (t, _)) => ht_info t <> HNextId None | LPanic => False | _ => True end.
Proof.
  intros Ht Hix Hp. unfold hover. assert (Hg : get_offset false ix p <> LPanic).
  { unfold get_offset. destruct Hix as (i & _ & ->). cbn [ix_encoding ix_index]. destruct (match enc with Some e => of_opt (to_utf8 e i p) | None => LOk p end) as [x| |] eqn:E; cbn [lbind]; try discriminate.
    - unfold li_offset. destruct (start_offset i (p_line x)); [|discriminate]. destruct (_ <? _); discriminate.
    - destruct enc as [e|]; [|discriminate]. destruct (to_utf8 e i p); discriminate. }
  destruct (get_offset false ix p) as [o| |]; cbn [lbind]; [|exact I|contradiction].
  destruct (find_map (fun d => def_hover cfg false d o) (ls_defs s)) as [[t l]|] eqn:E; [|exact I].
  assert (Hs : ht_info t <> HNextId None). { apply find_map_in in E as (d & _ & E). exact (def_hover_safe cfg d o t l E). }
  rewrite (find_map_flat (fun d => def_hover cfg false d o) (hit o) (def_entries cfg false) (ls_defs s)) in E by (intros d _; apply def_hover_entries).
  apply find_map_in in E as (e & He & E). unfold hit in E. destruct (contains (ln_loc (fst e)) o); [|discriminate]. assert (l = ln_loc (fst e)) as -> by congruence.
  destruct (entries_places pf src s Ht Hp cfg false) as [places Hpl]. assert (Ha : exists a, at_place src e a).
  { unfold s_entries in Hpl. clear -Hpl He. induction Hpl as [|x a xs l H _ IH]; [destruct He|]. destruct He as [<-|He]; [eauto|exact (IH He)]. }
  destruct Ha as [a Ha]. rewrite (place_range enc src ix Hix e a Ha). cbn [lbind]. exact Hs.
Qed.

(** What a document without errors is. *)
Lemma good_some (sv : srv) uri ix s : all_consistent compile sv -> all_text sv -> good pf sv uri = Some (ix, s) ->
  exists f, document sv uri = Some f /\ text (f_content f) /\ index_of (sv_enc sv) (f_content f) ix /\ lschema_parse pf (f_content f) = Some s.
Proof.
  intros Hc Ht H. unfold good in H. destruct (document sv uri) as [f|] eqn:Ef; [|discriminate]. exists f. split; [reflexivity|]. split; [exact (Ht uri f Ef)|].
  destruct (Hc uri f Ef) as (_ & Hi & _). destruct (f_schema f) as [[x|x|x]| |]; try discriminate. destruct (lschema_parse pf (f_content f)) as [s'|]; [|discriminate]. cbn [option_map] in H.
  assert (ix = f_index f) as -> by congruence. assert (s' = s) as -> by congruence. auto.
Qed.
Lemma respond_total (sv : srv) cfg q : all_consistent compile sv -> all_text sv -> respond pf false sv cfg q <> LPanic.
Proof.
  intros Hc Ht. destruct q as [uri p|uri|uri]; cbn [respond]; destruct (good pf sv uri) as [[ix s]|] eqn:Eg; try discriminate;
    destruct (good_some sv uri ix s Hc Ht Eg) as (f & _ & Htx & Hix & Hp).
  - pose proof (hover_total cfg _ _ ix s p Htx Hix Hp) as H. destruct (hover cfg false ix s p) as [[[[c i] r]|]| |]; cbn [lbind]; try discriminate; [|contradiction]. cbn [ht_info] in H. destruct i as [|[i|]|w]; try discriminate. contradiction.
  - destruct Hix as (i & Hi & ->). destruct (C65_outline pf (sv_enc sv) _ i s Htx Hi Hp) as (l & -> & _). discriminate.
  - destruct Hix as (i & Hi & ->). destruct (C64_tokens pf false (sv_enc sv) _ i s Htx Hi Hp) as (l & -> & _). discriminate.
Qed.
(** The analysis of a document in a consistent state. *)
Lemma good_accepted (sv : srv) uri src ps : all_consistent compile sv -> document sv uri <> None -> option_map (f_content (S := _)) (document sv uri) = Some src -> text src -> accepted pf pick src ps ->
  exists ix s, good pf sv uri = Some (ix, s) /\ index_of (sv_enc sv) src ix /\ lschema_parse pf src = Some s /\ er_schema s = ps.
Proof.
  intros Hc _ Hd Ht [Hp Hv]. destruct (document sv uri) as [f|] eqn:Ef; [|discriminate]. cbn [option_map] in Hd. assert (Hs : f_content f = src) by congruence.
  destruct (Hc uri f Ef) as (_ & Hi & Hsch). rewrite Hs in Hi, Hsch. destruct Hi as (i & Hi & Hx). unfold doc_compile in Hsch. rewrite Hx in Hsch.
  pose proof (C73_parsed pf pick false (sv_enc sv) src i ps Ht Hi Hp) as H. rewrite Hv in H. rewrite H in Hsch.
  pose proof (C63_same_schema pf src Ht) as E. rewrite Hp in E. destruct (lschema_parse pf src) as [s|] eqn:El; [|discriminate E]. cbn [option_map] in E.
  exists (f_index f), s. unfold good. rewrite Ef, Hsch, Hs, El. cbn [option_map]. split; [reflexivity|]. split; [exists i; auto|]. split; [reflexivity|]. congruence.
Qed.
Lemma good_none (sv : srv) uri : all_consistent compile sv -> all_text sv ->
  (forall src ps, option_map (f_content (S := _)) (document sv uri) = Some src -> ~ accepted pf pick src ps) -> good pf sv uri = None.
Proof.
  intros Hc Ht Hn. unfold good. destruct (document sv uri) as [f|] eqn:Ef; [|reflexivity]. destruct (Hc uri f Ef) as (_ & (i & Hi & Hx) & Hs). unfold doc_compile in Hs. rewrite Hx in Hs.
  pose proof (Ht uri f Ef) as Htx. destruct (schema_parse pf (f_content f)) as [ps|] eqn:Ep.
  - pose proof (C73_parsed pf pick false (sv_enc sv) _ i ps Htx Hi Ep) as H. destruct (validate_schema pick false ps) as [[]|e|] eqn:Ev.
    + exfalso. apply (Hn (f_content f) ps eq_refl). split; assumption.
    + destruct H as (d & _ & _ & H & _). rewrite Hs, H. reflexivity.
    + rewrite Hs, H. reflexivity.
  - destruct (C73_syntax_error pf pick false (sv_enc sv) _ i Htx Hi Ep) as (pre & suf & m & _ & H). rewrite Hs, H. reflexivity.
Qed.
End Handlers.

(** * The conversation *)
Section Talk.
Context {F V : Type} (pf : str -> option F) (pick : list str -> nat) (read_settings : V -> option hover_cfg) (null : V) (default : hover_cfg) (discover : str -> list (option str * option str)).
Notation compile := (doc_compile pf pick false).
Notation serve := (serve compile false (respond pf false) read_settings null default discover).
Variables (early : list (arrival V)) (i : rid) (p : init) (pause : list (arrival V)) (ok : bool) (l : list (arrival V)) (ed : editor).
Hypotheses (He : Forall before early) (Hp : Forall silent pause) (Ht : talked p discover l ed).

Lemma talked_state e s o : serve (opened early i p pause ok l) = (e, s, o) ->
  e <> Crash /\ (forall uri, option_map (f_content (S := _)) (document (st_docs s) uri) = ed uri) /\ all_consistent compile (st_docs s) /\ all_text (st_docs s) /\ sv_enc (st_docs s) = used (chosen p)
  /\ exists d, initialize compile discover p = Some d /\ run compile false d (events_in l) = Some (st_docs s).
Proof.
  intros H. destruct Ht as [_ _ Hl Hsm Hf Hses Htx].
  destruct (initialize_some compile discover p Hsm) as [d Hd]. destruct (initialize_sync compile discover p d Hd) as (Hen & Hco & Hsy).
  pose proof (initialize_text compile discover p d Hd Hf) as Hdt.
  destruct (session_ok compile false _ _ _ _ Hses d Hen Hco Hsy) as (sv & Hr & Hs'). destruct (patient_heard l 2 Hl) as [_ Hev]. rewrite <- Hev in Hr.
  assert (Hc : e <> Crash).
  { intros ->. apply (opened_alive_inv compile false (respond pf false) read_settings null default discover (fun sv => all_consistent compile sv /\ all_text sv) event_text early i p pause ok l d He Hp).
    - intros sv0 c q [H1 H2]. exact (respond_total pf pick sv0 c q H1 H2).
    - intros sv0 ev sv1 [H1 H2] H3 H4. split; [exact (step_consistent compile false sv0 ev sv1 H1 H4)|exact (step_text compile false sv0 ev sv1 H1 H2 H3 H4)].
    - split; assumption.
    - rewrite Hev. exact Htx.
    - exact Hd.
    - rewrite Hr. discriminate.
    - rewrite H. reflexivity. }
  destruct (opened_exact _ _ _ _ _ _ _ _ _ _ _ _ _ _ _ _ He Hp H Hc) as (d' & os & Hd' & _ & _ & Hr'). assert (d' = d) as -> by congruence.
  assert (sv = st_docs s) as -> by congruence. rewrite Hev in Hr'. split; [exact Hc|]. split; [exact Hs'|]. split; [exact (run_consistent compile false _ _ _ Hco Hr')|].
  split; [exact (run_text compile false _ _ _ Hco Hdt Htx Hr')|]. split; [rewrite (run_enc compile false _ _ _ Hr'); exact Hen|]. eauto.
Qed.

(** A query behind the conversation. *)
Lemma talked_query q j l' e s o : serve (opened early i p pause ok (then_asks l j q l')) = (e, s, o) ->
  exists e1 s1 o1, serve (opened early i p pause ok l) = (e1, s1, o1) /\
  match respond pf false (st_docs s1) (st_cfg s1) q with
  | LOk a => exists o', o = o1 ++ SResponse j (Result a) :: o'
  | LErr => exists o', o = o1 ++ SResponse j (Failure InternalError) :: o'
  | LPanic => False
  end.
Proof.
  unfold then_asks. intros H. destruct (serve (opened early i p pause ok l)) as [[e1 s1] o1] eqn:E1. exists e1, s1, o1. split; [reflexivity|]. destruct (talked_state _ _ _ E1) as (Hc & _ & Hco & Hte & _).
  pose proof (C77_query_current _ _ _ _ _ _ _ _ _ _ _ _ _ _ _ _ _ _ _ _ _ _ He Hp (tk_stays _ _ _ _ Ht) (tk_idle _ _ _ _ Ht) E1 Hc H) as Hq.
  pose proof (respond_total pf pick (st_docs s1) (st_cfg s1) q Hco Hte) as Hn. destruct (respond pf false (st_docs s1) (st_cfg s1) q); [exact Hq|exact Hq|contradiction].
Qed.
End Talk.

Lemma talked_good {F V} (pf : str -> option F) pick (read_settings : V -> option hover_cfg) null default discover early i p pause ok l ed uri src ps e1 s1 o1 :
  Forall before early -> Forall silent pause -> talked p discover l ed -> ed uri = Some src -> accepted pf pick src ps ->
  serve (doc_compile pf pick false) false (respond pf false) read_settings null default discover (opened early i p pause ok l) = (e1, s1, o1) ->
  exists ix s, good pf (st_docs s1) uri = Some (Index ix (used (chosen p)), s) /\ text src /\ li_new src = Some ix /\ lschema_parse pf src = Some s /\ er_schema s = ps.
Proof.
  intros He Hp Ht Hu Ha H1. destruct (talked_state pf pick read_settings null default discover early i p pause ok l ed He Hp Ht _ _ _ H1) as (_ & Hd & Hco & Hte & Hen & _).
  pose proof (Hd uri) as Hx. rewrite Hu in Hx. assert (Htx : text src). { destruct (document (st_docs s1) uri) as [f|] eqn:Ef; [|discriminate]. pose proof (Hte uri f Ef) as H. cbn [option_map] in Hx. assert (f_content f = src) as <- by congruence. exact H. }
  assert (Hn : document (st_docs s1) uri <> None) by (intros E; rewrite E in Hx; discriminate).
  destruct (good_accepted pf pick (st_docs s1) uri src ps Hco Hn Hx Htx Ha) as (ix & s & Hg & (ix' & Hi & ->) & Hl & Her). rewrite Hen in Hg. exists ix', s. auto.
Qed.

(** * C86: what the editor gets *)

(** Nothing the editor sends makes the server panic: no document, no position, no settings. *)
Theorem C86_no_crash : forall {F V} (parse_f64 : str -> option F) (pick : list str -> nat) (read_settings : V -> option hover_cfg) (null : V) (default : hover_cfg)
    (discover : str -> list (option str * option str)) (early : list (arrival V)) i p pause ok l (ed : editor) e s o,
  Forall before early -> Forall silent pause -> talked p discover l ed ->
  serve (doc_compile parse_f64 pick false) false (respond parse_f64 false) read_settings null default discover (opened early i p pause ok l) = (e, s, o) -> e <> Crash.
Proof. intros F V pf pick read_settings null default discover early i p pause ok l ed e s o He Hp Ht H. exact (proj1 (talked_state pf pick read_settings null default discover early i p pause ok l ed He Hp Ht _ _ _ H)). Qed.
Print Assumptions C86_no_crash.

(** Document symbols: the outline of the schema in the editor's text, in the announced encoding. *)
Theorem C86_symbols : forall {F V} (parse_f64 : str -> option F) (pick : list str -> nat) (read_settings : V -> option hover_cfg) (null : V) (default : hover_cfg)
    (discover : str -> list (option str * option str)) (early : list (arrival V)) i p pause ok l (ed : editor) e1 s1 o1 uri src ps j l' e s o,
  Forall before early -> Forall silent pause -> talked p discover l ed -> ed uri = Some src -> accepted parse_f64 pick src ps ->
  serve (doc_compile parse_f64 pick false) false (respond parse_f64 false) read_settings null default discover (opened early i p pause ok l) = (e1, s1, o1) ->
  serve (doc_compile parse_f64 pick false) false (respond parse_f64 false) read_settings null default discover (opened early i p pause ok (then_asks l j (QSymbols uri) l')) = (e, s, o) ->
  exists syms o', o = o1 ++ SResponse j (Result (ASymbols (Some syms))) :: o' /\ Forall2 (shows (used (chosen p)) src) (map def_outline (ps_defs ps)) syms.
Proof.
  intros F V pf pick read_settings null default discover early i p pause ok l ed e1 s1 o1 uri src ps j l' e s o He Hp Ht Hu Ha H1 H.
  destruct (talked_good pf pick read_settings null default discover early i p pause ok l ed uri src ps e1 s1 o1 He Hp Ht Hu Ha H1) as (ix & sc & Hg & Htx & Hi & Hl & <-).
  destruct (talked_query pf pick read_settings null default discover early i p pause ok l ed He Hp Ht _ _ _ _ _ _ H) as (e2 & s2 & o2 & H2 & Hq). rewrite H1 in H2. injection H2 as <- <- <-.
  cbn [respond] in Hq. rewrite Hg in Hq. destruct (C65_outline pf (used (chosen p)) src ix sc Htx Hi Hl) as (syms & Es & Hs). rewrite Es in Hq. cbn [lbind] in Hq. destruct Hq as [o' Ho]. exists syms, o'. split; assumption.
Qed.
Print Assumptions C86_symbols.

(** Semantic tokens: the words of the editor's text. *)
Theorem C86_tokens : forall {F V} (parse_f64 : str -> option F) (pick : list str -> nat) (read_settings : V -> option hover_cfg) (null : V) (default : hover_cfg)
    (discover : str -> list (option str * option str)) (early : list (arrival V)) i p pause ok l (ed : editor) e1 s1 o1 uri src ps j l' e s o,
  Forall before early -> Forall silent pause -> talked p discover l ed -> ed uri = Some src -> accepted parse_f64 pick src ps ->
  serve (doc_compile parse_f64 pick false) false (respond parse_f64 false) read_settings null default discover (opened early i p pause ok l) = (e1, s1, o1) ->
  serve (doc_compile parse_f64 pick false) false (respond parse_f64 false) read_settings null default discover (opened early i p pause ok (then_asks l j (QTokens uri) l')) = (e, s, o) ->
  exists toks o', o = o1 ++ SResponse j (Result (ATokens (Some toks))) :: o' /\ highlighted (used (chosen p)) [] src (schema_items parse_f64 ps) (decode_tokens (Pos 0 0) toks).
Proof.
  intros F V pf pick read_settings null default discover early i p pause ok l ed e1 s1 o1 uri src ps j l' e s o He Hp Ht Hu Ha H1 H.
  destruct (talked_good pf pick read_settings null default discover early i p pause ok l ed uri src ps e1 s1 o1 He Hp Ht Hu Ha H1) as (ix & sc & Hg & Htx & Hi & Hl & <-).
  destruct (talked_query pf pick read_settings null default discover early i p pause ok l ed He Hp Ht _ _ _ _ _ _ H) as (e2 & s2 & o2 & H2 & Hq). rewrite H1 in H2. injection H2 as <- <- <-.
  cbn [respond] in Hq. rewrite Hg in Hq. destruct (C64_tokens pf false (used (chosen p)) src ix sc Htx Hi Hl) as (toks & Es & Hs). rewrite Es in Hq. cbn [lbind] in Hq. destruct Hq as [o' Ho]. exists toks, o'. split; assumption.
Qed.
Print Assumptions C86_tokens.

(** Hover: the documentation of the name under the cursor, by the settings in force, and nothing elsewhere.  The names are at the places the semantic tokens mark as
    declarations. *)
Theorem C86_hover : forall {F V} (parse_f64 : str -> option F) (pick : list str -> nat) (read_settings : V -> option hover_cfg) (null : V) (default : hover_cfg)
    (discover : str -> list (option str * option str)) (early : list (arrival V)) i p pause ok l (ed : editor) e1 s1 o1 uri src ps,
  Forall before early -> Forall silent pause -> talked p discover l ed -> ed uri = Some src -> accepted parse_f64 pick src ps ->
  serve (doc_compile parse_f64 pick false) false (respond parse_f64 false) read_settings null default discover (opened early i p pause ok l) = (e1, s1, o1) ->
  exists places : list str,
    let enc := used (chosen p) in
    let docs := combine places (schema_docs (st_cfg s1) false ps) in
    Forall2 (fun a d => exists b, src = a ++ fst d ++ b) places (schema_docs (st_cfg s1) false ps)
    /\ (forall j l' e s o toks o',
          serve (doc_compile parse_f64 pick false) false (respond parse_f64 false) read_settings null default discover (opened early i p pause ok (then_asks l j (QTokens uri) l')) = (e, s, o) ->
          o = o1 ++ SResponse j (Result (ATokens (Some toks))) :: o' ->
          declared_ranges (decode_tokens (Pos 0 0) toks) = map (fun d => (end_of enc (fst d), end_of enc (fst d ++ fst (snd d)))) docs)
    /\ forall pre suf j l' e s o, src = pre ++ suf ->
         serve (doc_compile parse_f64 pick false) false (respond parse_f64 false) read_settings null default discover
           (opened early i p pause ok (then_asks l j (QHover uri (end_of enc pre)) l')) = (e, s, o) ->
         (forall a name doc, In (a, (name, doc)) docs -> under pre a name -> exists o', o = o1 ++ SResponse j (Result (AHover (Some (doc, (end_of enc a, end_of enc (a ++ name)))))) :: o')
         /\ ((forall a name doc, In (a, (name, doc)) docs -> ~ under pre a name) -> exists o', o = o1 ++ SResponse j (Result (AHover None)) :: o').
Proof.
  intros F V pf pick read_settings null default discover early i p pause ok l ed e1 s1 o1 uri src ps He Hp Ht Hu Ha H1.
  destruct (talked_good pf pick read_settings null default discover early i p pause ok l ed uri src ps e1 s1 o1 He Hp Ht Hu Ha H1) as (ix & sc & Hg & Htx & Hi & Hl & <-).
  destruct (C66_hover pf (st_cfg s1) false (used (chosen p)) src ix sc Htx Hi Hl) as (places & Hpl & Hdecl & Hh). exists places. cbv zeta in *. split; [exact Hpl|]. split.
  - intros j l' e s o toks o' H Ho. destruct (talked_query pf pick read_settings null default discover early i p pause ok l ed He Hp Ht _ _ _ _ _ _ H) as (e2 & s2 & o2 & H2 & Hq). rewrite H1 in H2. injection H2 as <- <- <-.
    cbn [respond] in Hq. rewrite Hg in Hq. destruct (C64_tokens pf false (used (chosen p)) src ix sc Htx Hi Hl) as (toks' & Es & _). rewrite Es in Hq. cbn [lbind] in Hq. destruct Hq as [o'' Ho'']. rewrite Ho in Ho''. apply app_inv_head in Ho''.
    assert (toks' = toks) as -> by congruence. exact (Hdecl toks Es).
  - intros pre suf j l' e s o Hs H. destruct (Hh pre suf Hs) as [Hin Hout].
    destruct (talked_query pf pick read_settings null default discover early i p pause ok l ed He Hp Ht _ _ _ _ _ _ H) as (e2 & s2 & o2 & H2 & Hq). rewrite H1 in H2. injection H2 as <- <- <-.
    cbn [respond] in Hq. rewrite Hg in Hq. pose proof (hover_total pf (st_cfg s1) (used (chosen p)) src (Index ix (used (chosen p))) sc (end_of (used (chosen p)) pre) Htx (ex_intro _ ix (conj Hi eq_refl)) Hl) as Hn. split.
    + intros a name doc Hd Hun. rewrite (Hin a name doc Hd Hun) in Hq, Hn. cbn [lbind] in Hq. destruct doc as [c inf]. cbn [ht_info] in Hn. destruct inf as [|[n|]|w]; try exact Hq. contradiction.
    + intros Hno. rewrite (Hout Hno) in Hq. exact Hq.
Qed.
Print Assumptions C86_hover.

(** A document the editor does not have, or whose text is not an accepted schema, gets the result null, whatever is asked. *)
Theorem C86_nothing : forall {F V} (parse_f64 : str -> option F) (pick : list str -> nat) (read_settings : V -> option hover_cfg) (null : V) (default : hover_cfg)
    (discover : str -> list (option str * option str)) (early : list (arrival V)) i p pause ok l (ed : editor) e1 s1 o1 uri q j l' e s o,
  Forall before early -> Forall silent pause -> talked p discover l ed ->
  (forall src ps, ed uri = Some src -> ~ accepted parse_f64 pick src ps) ->
  (exists at_, q = QHover uri at_) \/ q = QSymbols uri \/ q = QTokens uri ->
  serve (doc_compile parse_f64 pick false) false (respond parse_f64 false) read_settings null default discover (opened early i p pause ok l) = (e1, s1, o1) ->
  serve (doc_compile parse_f64 pick false) false (respond parse_f64 false) read_settings null default discover (opened early i p pause ok (then_asks l j q l')) = (e, s, o) ->
  exists o', o = o1 ++ SResponse j (Result (match q with QHover _ _ => AHover None | QSymbols _ => ASymbols None | QTokens _ => ATokens None end)) :: o'.
Proof.
  intros F V pf pick read_settings null default discover early i p pause ok l ed e1 s1 o1 uri q j l' e s o He Hp Ht Hno Hq H1 H.
  destruct (talked_state pf pick read_settings null default discover early i p pause ok l ed He Hp Ht _ _ _ H1) as (_ & Hd & Hco & Hte & _).
  assert (Hg : good pf (st_docs s1) uri = None). { apply (good_none pf pick _ _ Hco Hte). intros src ps E. apply Hno. rewrite <- Hd. exact E. }
  destruct (talked_query pf pick read_settings null default discover early i p pause ok l ed He Hp Ht _ _ _ _ _ _ H) as (e2 & s2 & o2 & H2 & Ha). rewrite H1 in H2. injection H2 as <- <- <-.
  destruct Hq as [[x ->]|[->| ->]]; cbn [respond] in Ha; rewrite Hg in Ha; exact Ha.
Qed.
Print Assumptions C86_nothing.

(** Diagnostics. *)
Lemma run_kept {S} (compile : str -> str -> index -> S) chk es : forall sv sv' x, run compile chk sv es = Some sv' -> In x (sv_published sv) -> In x (sv_published sv').
Proof.
  induction es as [|e es IH]; cbn [run]; intros sv sv' x H Hx; [congruence|]. destruct (step compile chk sv e) as [sv1|] eqn:E; [|discriminate]. apply (IH sv1 sv' x H).
  pose proof (step_published compile chk sv e sv1 E) as P. destruct e as [u t|u cs|u|uris].
  - destruct P as (f & _ & ->). right. exact Hx.
  - destruct P as [->|(f & _ & ->)]; [exact Hx|right; exact Hx].
  - rewrite P. exact Hx.
  - rewrite P. exact Hx.
Qed.
Lemma run_appears {S} (compile : str -> str -> index -> S) chk es : forall sv sv' uri f, run compile chk sv es = Some sv' -> document sv uri = None -> document sv' uri = Some f -> exists d, In (uri, d) (sv_published sv').
Proof.
  induction es as [|e es IH]; cbn [run]; intros sv sv' uri f H Hn Hf; [congruence|]. destruct (step compile chk sv e) as [sv1|] eqn:E; [|discriminate].
  destruct (document sv1 uri) as [g|] eqn:Eg; [|exact (IH sv1 sv' uri f H Eg Hf)].
  assert (Hev : (exists t, e = DidOpen uri t) \/ (exists cs, e = DidChange uri cs)).
  { pose proof (step_document compile chk sv e sv1 E uri) as D. destruct e as [u t|u cs|u|uris].
    - destruct (str_eqb u uri) eqn:Eu; [apply str_eqb_eq in Eu; subst u; eauto|congruence].
    - destruct (str_eqb u uri) eqn:Eu; [apply str_eqb_eq in Eu; subst u; eauto|congruence].
    - congruence.
    - destruct (existsb _ uris); congruence. }
  destruct (PropLsp.C50_diagnostics_sent compile chk sv sv1 e uri g E Hev Eg) as [d Hd]. exists d. apply (run_kept compile chk es sv1 sv' _ H). rewrite Hd. left. reflexivity.
Qed.
Lemma run_reported {S} (compile : str -> str -> index -> S) chk es : forall sv sv' uri f, run compile chk sv es = Some sv' -> document sv' uri = Some f ->
  (exists t, In (DidOpen uri t) es) \/ (exists cs, In (DidChange uri cs) es) -> exists d, In (uri, d) (sv_published sv').
Proof.
  intros sv sv' uri f H Hf Hev. assert (He : exists e, In e es /\ ((exists t, e = DidOpen uri t) \/ (exists cs, e = DidChange uri cs))) by (destruct Hev as [[t Ht]|[cs Ht]]; eauto 6).
  destruct He as (e & Hin & He). apply in_split in Hin as (es1 & es2 & ->). rewrite run_app in H. destruct (run compile chk sv es1) as [sv1|]; [|discriminate]. cbn [run] in H.
  destruct (step compile chk sv1 e) as [sv2|] eqn:E; [|discriminate]. destruct (document sv2 uri) as [g|] eqn:Eg; [|exact (run_appears compile chk es2 sv2 sv' uri f H Eg Hf)].
  destruct (PropLsp.C50_diagnostics_sent compile chk sv1 sv2 e uri g E He Eg) as [d Hd]. exists d. apply (run_kept compile chk es2 sv2 sv' _ H). rewrite Hd. left. reflexivity.
Qed.
Lemma last_about {S} (l : list (str * S)) uri d : In (uri, d) l -> exists newer d' older, l = newer ++ (uri, d') :: older /\ forall x, ~ In (uri, x) newer.
Proof.
  induction l as [|[u x] l IH]; [intros []|]. intros H. destruct (str_eqb u uri) eqn:E.
  - apply str_eqb_eq in E. subst u. exists [], x, l. split; [reflexivity|]. intros y [].
  - destruct H as [H|H]; [assert (u = uri) as -> by congruence; rewrite str_eqb_refl in E; discriminate|]. destruct (IH H) as (nw & d' & ol & -> & Hn). exists ((u, x) :: nw), d', ol. split; [reflexivity|].
    intros y [Hy|Hy]; [|exact (Hn y Hy)]. assert (u = uri) as -> by congruence. rewrite str_eqb_refl in E. discriminate.
Qed.

(** For every document the editor has opened or edited, diagnostics have been published, and the last ones tell about its present text: none if it is an accepted schema,
    the error of the compiler otherwise, at a place in that text. *)
Theorem C86_diagnostics : forall {F V} (parse_f64 : str -> option F) (pick : list str -> nat) (read_settings : V -> option hover_cfg) (null : V) (default : hover_cfg)
    (discover : str -> list (option str * option str)) (early : list (arrival V)) i p pause ok l (ed : editor) e s o uri src,
  Forall before early -> Forall silent pause -> talked p discover l ed -> ed uri = Some src ->
  (exists t, In (DidOpen uri t) (events_in l)) \/ (exists cs, In (DidChange uri cs) (events_in l)) ->
  serve (doc_compile parse_f64 pick false) false (respond parse_f64 false) read_settings null default discover (opened early i p pause ok l) = (e, s, o) ->
  exists newer d older, sv_published (st_docs s) = newer ++ (uri, d) :: older /\ (forall x, ~ In (uri, x) newer)
    /\ match schema_parse parse_f64 src with
       | None => exists pre suf message, src = pre ++ suf /\ d = LOk (BadSyntax (SyntaxDiagnostic (end_of (used (chosen p)) pre, end_of (used (chosen p)) pre) message))
       | Some ps => match validate_schema pick false ps with
           | COk _ => d = LOk (Good ps)
           | CErr err => exists dg first second, d = LOk (Invalid dg) /\ dg_error dg = err /\ located (used (chosen p)) src second (dg_range dg) /\ (forall r, dg_related dg = Some r -> located (used (chosen p)) src first r)
           | CPanic => False
           end
       end.
Proof.
  intros F V pf pick read_settings null default discover early i p pause ok l ed e s o uri src He Hp Ht Hu Hev H.
  destruct (talked_state pf pick read_settings null default discover early i p pause ok l ed He Hp Ht _ _ _ H) as (_ & Hd & Hco & Hte & Hen & d0 & Hd0 & Hr).
  pose proof (Hd uri) as Hx. rewrite Hu in Hx. destruct (document (st_docs s) uri) as [f|] eqn:Ef; [|discriminate]. cbn [option_map] in Hx. assert (Hsrc : f_content f = src) by congruence.
  destruct (run_reported _ _ _ _ _ _ _ Hr Ef Hev) as [x Hin]. destruct (last_about _ _ _ Hin) as (newer & d & older & Hpub & Hnew). exists newer, d, older. split; [exact Hpub|]. split; [exact Hnew|].
  assert (Hp0 : published_ok d0).
  { unfold initialize in Hd0. destruct (load _ _ _) as [st0|]; [|discriminate]. cbn [option_map] in Hd0. assert (d0 = Server (used (chosen p)) st0 []) as -> by congruence. intros u x' f' Hf. discriminate. }
  pose proof (run_published _ _ _ _ _ Hp0 Hr) as Hok. assert (Hdf : d = f_schema f).
  { apply (Hok uri); [|exact Ef]. rewrite Hpub. clear -Hnew. induction newer as [|[u x] newer IH]; cbn [app assoc].
    - rewrite str_eqb_refl. reflexivity.
    - destruct (str_eqb u uri) eqn:E; [apply str_eqb_eq in E; subst u; exfalso; exact (Hnew x (or_introl eq_refl))|]. apply IH. intros y Hy. exact (Hnew y (or_intror Hy)). }
  destruct (Hco uri f Ef) as (_ & (ix & Hi & Hix) & Hsch). pose proof (Hte uri f Ef) as Htx. rewrite Hsrc in *. rewrite Hen in Hix. unfold doc_compile in Hsch. rewrite Hix in Hsch. rewrite Hdf, Hsch.
  destruct (schema_parse pf src) as [ps|] eqn:Ep.
  - pose proof (C73_parsed pf pick false (used (chosen p)) src ix ps Htx Hi Ep) as Hv. destruct (validate_schema pick false ps) as [[]|err|] eqn:Ev; [exact Hv| |].
    + destruct Hv as (dg & fi & se & Hq & H1 & H2 & H3). exists dg, fi, se. auto.
    + destruct (C73_no_panic pf pick false (used (chosen p)) src ix Htx Hi) as [[a Hn]|[Hn _]]; [rewrite Hn in Hv|]; discriminate.
  - destruct (C73_syntax_error pf pick false (used (chosen p)) src ix Htx Hi Ep) as (pre & suf & m & H1 & H2). exists pre, suf, m. split; [exact H1|exact H2].
Qed.
Print Assumptions C86_diagnostics.

(** * A conversation *)

(** The editor opens [struct Ax] with a typing error in it, corrects it, and asks about it; another document is broken. *)
Definition ex_uri : str := tx "file:///p/a.mabo".
Definition ex_bad : str := tx "file:///p/b.mabo".
Definition ex_text : str := tx "/// Doc" ++ [10] ++ tx "struct Ax(u32 @1)" ++ [10].
Definition ex_l : list (arrival nat) :=
  [Arrives (MResponse (RNum 1) (Some 3%nat) false); Arrives (MResponse (RNum 2) None false);
   Arrives (MNotification (NtEvent (Some (DidOpen ex_uri (tx "/// Doc" ++ [10] ++ tx "strct Ax(u32 @1)" ++ [10])))));
   Arrives (MNotification (NtEvent (Some (DidChange ex_uri [Change (Some (Pos 1 3, Pos 1 3)) (tx "u")]))));
   Arrives (MNotification (NtEvent (Some (DidOpen ex_bad (tx "struct")))))].
Definition ex_p : init := Init (Some [tx "utf-8"]) [].
Definition ex_cfg : hover_cfg := HoverCfg true false.
Definition ex_pf (_ : str) : option unit := None.
Definition ex_serve := serve (V := nat) (doc_compile ex_pf (fun _ => 0%nat) false) false (respond ex_pf false) (fun v => if Nat.eqb v 3 then Some (HoverCfg true true) else None) 0%nat ex_cfg (fun _ => []).
Definition ex_ask q := snd (ex_serve (opened [] (RNum 0) ex_p [] true (then_asks ex_l (RNum 5) q []))).
Definition ex_ed : editor := fun u => if str_eqb ex_bad u then Some (tx "struct") else if str_eqb ex_uri u then Some ex_text else None.
Example C86_example :
  talked ex_p (fun _ => []) ex_l ex_ed
  /\ (exists ps, accepted ex_pf (fun _ => 0%nat) ex_text ps)
  /\ (forall ps, ~ accepted ex_pf (fun _ => 0%nat) (tx "struct") ps)
  /\ (exists c, last (ex_ask (QHover ex_uri (Pos 1 8))) (SRequest (RNum 0) AskRegister) = SResponse (RNum 5) (Result (AHover (Some (HoverText c (HNextId (Some 2)), (Pos 1 7, Pos 1 9))))))
  /\ last (ex_ask (QHover ex_uri (Pos 1 0))) (SRequest (RNum 0) AskRegister) = SResponse (RNum 5) (Result (AHover None))
  /\ last (ex_ask (QHover ex_uri (Pos 9 0))) (SRequest (RNum 0) AskRegister) = SResponse (RNum 5) (Failure InternalError)
  /\ last (ex_ask (QSymbols ex_bad)) (SRequest (RNum 0) AskRegister) = SResponse (RNum 5) (Result (ASymbols None)).
Proof.
  split; [|split; [|split; [|split; [|split; [|split]]]]].
  - split.
    + repeat constructor.
    + reflexivity.
    + cbn. repeat constructor.
    + intros u t [].
    + intros u t [].
    + change (events_in ex_l) with [DidOpen ex_uri (tx "/// Doc" ++ [10] ++ tx "strct Ax(u32 @1)" ++ [10]); DidChange ex_uri [Change (Some (Pos 1 3, Pos 1 3)) (tx "u")]; DidOpen ex_bad (tx "struct")].
      assert (Hne : forall u v, str_eqb u v = false -> u <> v) by (intros u v H ->; rewrite str_eqb_refl in H; discriminate).
      apply session_cons with (ed' := fun u => if str_eqb ex_uri u then Some (tx "/// Doc" ++ [10] ++ tx "strct Ax(u32 @1)" ++ [10]) else None).
      { intros u. destruct (str_eqb ex_uri u) eqn:E; [apply str_eqb_eq in E; subst u; constructor|apply tr_open_other; auto]. }
      { intros u t. destruct (str_eqb ex_uri u); [|discriminate]. intros H. injection H as <-. reflexivity. }
      apply session_cons with (ed' := fun u => if str_eqb ex_uri u then Some ex_text else None).
      { intros u. destruct (str_eqb ex_uri u) eqn:E; [apply str_eqb_eq in E; subst u|apply tr_change_other; auto]. apply tr_change.
        - right. split; [|exact I]. exists (Pos 1 3), (Pos 1 3). auto.
        - eapply edits_cons; [exact (edit_range None (tx "/// Doc" ++ [10] ++ tx "str") [] (tx "ct Ax(u32 @1)" ++ [10]) (tx "u"))|constructor]. }
      { intros u t. destruct (str_eqb ex_uri u); [|discriminate]. intros H. injection H as <-. reflexivity. }
      apply session_cons with (ed' := ex_ed); [| |constructor]; unfold ex_ed.
      { intros u. destruct (str_eqb ex_bad u) eqn:E'; [apply str_eqb_eq in E'; subst u; constructor|apply tr_open_other; auto]. }
      { intros u t. destruct (str_eqb ex_bad u); [intros H; injection H as <-; reflexivity|]. destruct (str_eqb ex_uri u); [|discriminate]. intros H. injection H as <-. reflexivity. }
    + cbn. repeat constructor; vm_compute; auto.
  - eexists. split; vm_compute; reflexivity.
  - intros ps [H _]. vm_compute in H. discriminate.
  - vm_compute. eauto.
  - vm_compute. reflexivity.
  - vm_compute. reflexivity.
  - vm_compute. reflexivity.
Qed.
Print Assumptions C86_example.
