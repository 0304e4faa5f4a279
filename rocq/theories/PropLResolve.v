(** Property theorems C82: where resolution errors point to. *)
From Verif Require Import Base Syntax Parser ParserSpec Printer Compiler CompilerSpec Resolve ResolveSpec ResolveClaims ResolveProofs Lsp LspSpec LspProofs SpanParser LspVisit TokenSpec
  NameSpec OutlineSpec SpanProofs SpanTypes SpanDefs SpanSchema SpanLsp SpanPlaced OutlineProofs DiagnoseProofs PropParser PropBuild PropResolve LResolve LResolveSpec LResolveProofs LResolveErase.
Require Coq.Strings.String.
Import Coq.Strings.String.StringSyntax.
Local Open Scope N_scope.

(** Every file has the syntax tree of its text. *)
Definition parsed {F} (parse_f64 : str -> option F) (files : list (str * lfile F)) : Prop :=
  forall nm f, In (nm, f) files -> text (snd (lf_source f)) /\ lschema_parse parse_f64 (snd (lf_source f)) = Some (lf_schema f).
(** The missing types may be looked at in any order. *)
Definition reorders (order : list (lext * (lerr * labels)) -> list (lext * (lerr * labels))) : Prop := forall l x, In x (order l) -> In x l.

(** Without its source and locations an error is the one that C35 speaks of. *)
Theorem C82_same_verdict : forall {F} order order' (files : list (str * lfile F)),
  (forall l, map er_missing (order l) = order' (map er_missing l)) ->
  match lresolve_schemas order files with COk _ => COk tt | CErr (_, (e, _)) => CErr e | CPanic => CPanic end
  = resolve_schemas order' (map (fun v => (fst v, er_schema (lf_schema (snd v)))) files).
Proof. intros F order order' files H. exact (er_schemas order order' files H). Qed.
Print Assumptions C82_same_verdict.

Lemma parsed_rooted {F} (pf : str -> option F) files : parsed pf files -> forall nm f, In (nm, f) files -> rooted f.
Proof.
  intros Hp nm f Hin kw segs el semi Hi E. destruct (Hp nm f Hin) as [Ht Hs]. pose proof (proj1 (lschema_ok pf _ Ht)) as Es. rewrite Hs in Es. cbn [option_map] in Es. symmetry in Es.
  pose proof (SchemaOk_rooted _ (C52_well_formed _ pf _ _ Ht Es)) as Hr. apply (in_map er_def) in Hi. cbn [er_schema ps_defs] in Hr. specialize (Hr _ _ Hi). rewrite E in Hr. apply Hr. reflexivity.
Qed.

(** The error is the one of a problem that the files have; its labels are the places of that problem. *)
Theorem C82_report : forall {F} (parse_f64 : str -> option F) order (files : list (str * lfile F)),
  parsed parse_f64 files -> reorders order ->
  lresolve_schemas order files <> CPanic
  /\ forall src e l, lresolve_schemas order files = CErr (src, (e, l)) -> problem files src e l.
Proof.
  intros F pf order files Hp Ho. pose proof (lresolve_schemas_spec files order Ho (parsed_rooted pf files Hp)) as H. split.
  - intros E. rewrite E in H. exact H.
  - intros src e l E. rewrite E in H. exact H.
Qed.
Print Assumptions C82_report.

Section Words.
Context {F : Type}.
Implicit Types (ds : list (ldef F)).
Lemma names_at ds p m : lmodule_at ds p m -> forall w, In w (flat_map def_names m) -> In w (flat_map def_names ds).
Proof.
  induction 1 as [|ds c kw n o e sub p m Hin Hm IH]; intros w Hw; [exact Hw|]. apply in_flat_map. eexists. split; [exact Hin|]. cbn [def_names]. right. exact (IH w Hw).
Qed.
Lemma names_inside x t : inside x t -> forall w, In w (type_names x) -> In w (type_names t).
Proof.
  induction 1 as [|c t Hc H IH]; intros w Hw; [exact Hw|]. specialize (IH w Hw).
  destruct t as [s p|s k kw o cl t|s kw o cl k m v|s o cl [l y b]|s o cl t m n|s path n [[[o cl] [l y b]]|]]; cbn [inner_types type_names] in *.
  - destruct Hc.
  - destruct k; try destruct Hc as [->|[]]; try exact IH. destruct Hc.
  - apply in_app_iff. destruct Hc as [->|[->|[]]]; auto.
  - apply in_map_iff in Hc as (e & <- & He). apply in_punct in He as [He| ->]; apply in_app_iff; [left; apply in_flat_map; eauto|right; exact IH].
  - destruct Hc as [->|[]]. exact IH.
  - apply in_app_iff. right. right. apply in_map_iff in Hc as (e & <- & He). apply in_punct in He as [He| ->]; apply in_app_iff; [left; apply in_flat_map; eauto|right; exact IH].
  - destruct Hc.
Qed.
Lemma names_fields fs t w : In t (field_types_of fs) -> In w (type_names t) -> In w (fields_names fs).
Proof.
  destruct fs as [o c l|o c l|]; cbn [field_types_of fields_names]; intros Ht Hw; [| |destruct Ht]; apply in_map_iff in Ht as (f & <- & Hf); [apply (in_punct_names nfield_names l f Hf)|apply (in_punct_names _ l f Hf)]; cbn; auto.
Qed.
Lemma names_mention (d : ldef F) path name g : mentions d path name g -> In (mention TkType name) (def_names d).
Proof.
  intros (gen & t & s & p & -> & Hi & Hd & _). pose proof (names_inside _ _ Hi (mention TkType name)) as Hw. specialize (Hw ltac:(cbn [type_names]; apply in_app_iff; right; left; reflexivity)).
  destruct d as [ |c a kw n g' fs|c a kw n g' o e vs| | | ]; try contradiction; cbn [def_names]; right; apply in_app_iff; right.
  - destruct Hd as [_ Ht]. exact (names_fields _ _ _ Ht Hw).
  - destruct Hd as (_ & v & Hv & Ht). apply (in_punct_names variant_names vs v Hv). pose proof (names_fields _ _ _ Ht Hw) as H. unfold variant_names. right. exact H.
Qed.
Lemma names_defines ds k n : defines ds k n -> exists w, In w (flat_map def_names ds) /\ lw_name w = n.
Proof.
  intros (d & Hd & H). destruct d as [ |c a kw n' g fs|c a kw n' g o e vs|c kw n' g e t q|c kw n' j t e v vl q| ], k; try contradiction; try (apply proj1 in H); subst; (eexists; split; [apply in_flat_map; eexists; split; [exact Hd|left; reflexivity]|reflexivity]).
Qed.
End Words.

(** What stands in the shown sources at the labels. *)
Section Points.
Context {F : Type} (pf : str -> option F) (files : list (str * lfile F)).
Hypothesis Hp : parsed pf files.
Definition stands (f : lfile F) (n : lname) : Prop := at_loc (snd (lf_source f)) (ln_loc n) (ln_text n).
Lemma word_stands nm f w : In (nm, f) files -> In w (flat_map def_names (body f)) -> stands f (lw_name w).
Proof.
  intros Hin Hw. destruct (Hp nm f Hin) as [Ht Hs]. destruct (doc_names pf _ _ Ht Hs) as [H _]. rewrite Forall_forall in H. apply (H w). exact Hw.
Qed.
Lemma mention_stands nm f p m d path name g : In (nm, f) files -> lmodule_at (body f) p m -> In d m -> mentions d path name g -> stands f name.
Proof.
  intros Hin Hm Hd H. apply (word_stands nm f (mention TkType name) Hin). apply (names_at _ _ _ Hm). apply in_flat_map. exists d. split; [exact Hd|]. exact (names_mention d path name g H).
Qed.
Lemma defines_stands nm f p m k n : In (nm, f) files -> lmodule_at (body f) p m -> defines m k n -> stands f n.
Proof. intros Hin Hm H. apply names_defines in H as (w & Hw & <-). apply (word_stands nm f w Hin). exact (names_at _ _ _ Hm w Hw). Qed.
Lemma import_stands nm f kw segs el semi s : In (nm, f) files -> In (LImport kw segs el semi) (body f) -> In s segs \/ option_map snd el = Some s -> stands f s.
Proof.
  intros Hin Hi [Hs|Hs].
  - apply (word_stands nm f (mention TkNamespace s) Hin). apply in_flat_map. eexists. split; [exact Hi|]. cbn [def_names]. apply in_app_iff. left. apply in_map. exact Hs.
  - destruct el as [[c x]|]; [|discriminate Hs]. injection Hs as ->. apply (word_stands nm f (mention TkType s) Hin). apply in_flat_map. eexists. split; [exact Hi|]. cbn [def_names]. apply in_app_iff. right. left. reflexivity.
Qed.
Lemma lmodule_at_app (ds : list (ldef F)) p m q t : lmodule_at ds p m -> lmodule_at m q t -> lmodule_at ds (p ++ q) t.
Proof. induction 1 as [|ds c kw n o e sub p m Hin Hm IH]; intros H; [exact H|]. cbn. econstructor; [exact Hin|exact (IH H)]. Qed.

Definition points (src : source) (e : rerr) (l : labels) : Prop :=
  exists word, at_loc (snd src) (used_at l) word
    /\ (forall n, word_of e = Some n -> n = word)
    /\ match l with
       | Used _ => True
       | UsedDeclared _ declared => (exists x, e = EImport x) \/ at_loc (snd src) declared word
       | UsedRelated _ other declared => (exists nm f, In (nm, f) files /\ lf_source f = other) /\ at_loc (snd other) declared word
       end.
Lemma problem_points src e l : problem files src e l -> points src e l.
Proof.
  intros [nm f e' l' Hin Hi|nm f at_ m d path name g e' l' Hin Hm Hd Href Hl|nm f at_ m d path name g e' l' e'' l'' Hin Hm Hd Href _ Hr].
  - destruct Hi as [kw root rest el semi Hi Hno|kw root pre s post el semi h t Hi Hh Ht Hno|segs x h t (kw & el & semi & root & rest & Hi & E & -> & Hh & Ht) Hno|segs x h t k n (kw & el & semi & root & rest & Hi & E & -> & Hh & Ht) Hk Hn Hk'].
    + exists (ln_text root). split; [eapply (import_stands nm f); [exact Hin|exact Hi|left; left; reflexivity]|]. split; [cbn; intros n H; injection H as <-; reflexivity|exact I].
    + exists (ln_text s). split; [eapply (import_stands nm f); [exact Hin|exact Hi|left; right; apply in_app_iff; right; left; reflexivity]|]. split; [cbn; intros n H; injection H as <-; reflexivity|exact I].
    + exists (ln_text x). split; [eapply (import_stands nm f); [exact Hin|exact Hi|right; symmetry; exact E]|]. split; [cbn; intros n H; injection H as <-; reflexivity|exact I].
    + exists (ln_text x). split; [eapply (import_stands nm f); [exact Hin|exact Hi|right; symmetry; exact E]|]. split; [discriminate|]. left. eauto.
  - pose proof (mention_stands nm f at_ m d path name g Hin Hm Hd Href) as Hs. exists (ln_text name).
    destruct Hl as [pre s post t Ep Ht Hno|t Ht Hno|t k j n Ht Hk Hn Hk' Hj|t k n Ht Hk Hn Hk']; (split; [exact Hs|]); (split; [cbn; try discriminate; intros n' H; injection H as <-; reflexivity|]); try exact I; right; rewrite <- Hn; exact (defines_stands nm f _ _ _ _ Hin (lmodule_at_app _ _ _ _ _ Hm Ht) Hk).
  - pose proof (mention_stands nm f at_ m d path name g Hin Hm Hd Href) as Hs. exists (ln_text name).
    destruct Hr as [Hno|first more segs s h t Ep Him Hf Hno|segs el h t k j n Him Hpath Hk Hn Hk' Hj|first more segs s h t k n Ep Him Hf Hk Hn Hk']; (split; [exact Hs|]); (split; [cbn; try discriminate; intros n' H; injection H as <-; reflexivity|]); try exact I;
      destruct Him as (kw & el' & semi & root & rest & _ & _ & _ & Hh & Ht); (split; [eauto|rewrite <- Hn; exact (defines_stands _ _ _ _ _ _ Hh Ht Hk)]).
Qed.
End Points.

(** In the shown source the label "used here" marks the name that the error is about, and "declared here" marks the same name: in
    the shown source, or in the source of another file that is shown with it.  Not so for an import of an alias or a constant
    ([C82_import_kind_refuted]). *)
Theorem C82_points_partial : forall {F} (parse_f64 : str -> option F) order (files : list (str * lfile F)) src e l,
  parsed parse_f64 files -> reorders order -> lresolve_schemas order files = CErr (src, (e, l)) ->
  (exists nm f, In (nm, f) files /\ lf_source f = src)
  /\ exists word, at_loc (snd src) (used_at l) word
    /\ (forall n, word_of e = Some n -> n = word)
    /\ match l with
       | Used _ => True
       | UsedDeclared _ declared => (exists x, e = EImport x) \/ at_loc (snd src) declared word
       | UsedRelated _ other declared => (exists nm f, In (nm, f) files /\ lf_source f = other) /\ at_loc (snd other) declared word
       end.
Proof.
  intros F pf order files src e l Hp Ho E. pose proof (proj2 (C82_report pf order files Hp Ho) src e l E) as H. split; [destruct H; eauto|]. exact (problem_points pf files Hp src e l H).
Qed.
Print Assumptions C82_points_partial.

(** * Examples *)
Definition no_floats (_ : str) : option unit := None.
Definition read_file (nm path src : str) : list (str * lfile unit) :=
  match lschema_parse no_floats src with Some s => [(nm, LFile (Some path, src) s)] | None => [] end.
Definition as_is (l : list (lext * (lerr * labels))) := l.
Lemma as_is_reorders : reorders as_is.
Proof. intros l x H. exact H. Qed.
Lemma read_file_parsed nm path src : text src -> parsed no_floats (read_file nm path src).
Proof.
  intros Ht nm' f H. unfold read_file in H. destruct (lschema_parse no_floats src) as [s|] eqn:E; [|destruct H]. destruct H as [H|[]]. injection H as <- <-. split; [exact Ht|exact E].
Qed.
Lemma parsed_app {F} (pf : str -> option F) a b : parsed pf a -> parsed pf b -> parsed pf (a ++ b).
Proof. intros Ha Hb nm f H. apply in_app_iff in H as [H|H]; [exact (Ha nm f H)|exact (Hb nm f H)]. Qed.
Definition ascii_check (src : str) : bool := forallb (fun c => c <? 128) src.
Lemma ascii_text src : ascii_check src = true -> text src.
Proof.
  unfold ascii_check. rewrite forallb_forall. intros H. apply Forall_forall. intros c Hc. specialize (H c Hc). apply N.ltb_lt in H. left. lia.
Qed.

(** A reference with the wrong number of arguments, in the own file. *)
Definition C82_own : list (str * lfile unit) := read_file (tx "own") (tx "own.mabo") (tx "mod m { struct B<T>(T) } struct A { x: option<m::B> }").
Example C82_ex_local : parsed no_floats C82_own
  /\ lresolve_schemas as_is C82_own
     = CErr ((Some (tx "own.mabo"), tx "mod m { struct B<T>(T) } struct A { x: option<m::B> }"), (ELocal (LGenericsCount 1 0), UsedDeclared (49, 50) (15, 16))).
Proof. split; [apply read_file_parsed, ascii_text; reflexivity|vm_compute; reflexivity]. Qed.
(** The same for an imported type: its declaration is shown in its own file. *)
Definition C82_two : list (str * lfile unit) :=
  read_file (tx "a") (tx "a.mabo") (tx "use b::B; struct A { x: B }") ++ read_file (tx "b") (tx "b.mabo") (tx "enum E { X(u8) } struct B<T>(T)").
Example C82_ex_remote : parsed no_floats C82_two
  /\ lresolve_schemas as_is C82_two
     = CErr ((Some (tx "a.mabo"), tx "use b::B; struct A { x: B }"), (ERemote (RGenericsCount 1 0), UsedRelated (24, 25) (Some (tx "b.mabo"), tx "enum E { X(u8) } struct B<T>(T)") (24, 25))).
Proof. split; [apply parsed_app; apply read_file_parsed, ascii_text; reflexivity|vm_compute; reflexivity]. Qed.
(** Missing modules: an import marks the segment, a reference marks the name behind the path. *)
Example C82_ex_module :
  (lresolve_schemas as_is (read_file (tx "a") (tx "a.mabo") (tx "use a::m::n; ")), lresolve_schemas as_is (read_file (tx "a") (tx "a.mabo") (tx "struct A(m::n::B)")))
  = (CErr ((Some (tx "a.mabo"), tx "use a::m::n; "), (EImport (IMissingModule (tx "m") [tx "a"]), Used (7, 8))),
     CErr ((Some (tx "a.mabo"), tx "struct A(m::n::B)"), (ELocal (LMissingModule (tx "m") [tx "a"]), Used (15, 16)))).
Proof. vm_compute. reflexivity. Qed.

Lemma at_loc_bound src l t : at_loc src l t -> snd l <= bytes_len src.
Proof. intros (pre & suf & -> & ->). cbn [snd]. rewrite (app_assoc pre t suf), (bytes_len_app (pre ++ t) suf). lia. Qed.
(** An import of a type alias is reported with the location of the alias in the other file, but shown in the text of the importing
    one: here it lies behind the end of that text. *)
Definition C82_alias : list (str * lfile unit) :=
  read_file (tx "a") (tx "a.mabo") (tx "use b::X;") ++ read_file (tx "b") (tx "b.mabo") (tx "struct B(u8) type X = u8;").
Theorem C82_import_kind_refuted : parsed no_floats C82_alias
  /\ exists u d, lresolve_schemas as_is C82_alias = CErr ((Some (tx "a.mabo"), tx "use b::X;"), (EImport (IInvalidKind DkAlias), UsedDeclared u d))
     /\ (forall word, ~ at_loc (tx "use b::X;") d word) /\ at_loc (tx "struct B(u8) type X = u8;") d (tx "X").
Proof.
  split; [apply parsed_app; apply read_file_parsed, ascii_text; reflexivity|]. exists (7, 8), (18, 19). split; [vm_compute; reflexivity|]. split.
  - intros word H. apply at_loc_bound in H. vm_compute in H. apply H. reflexivity.
  - exists (tx "struct B(u8) type "), (tx " = u8;"). split; reflexivity.
Qed.
Print Assumptions C82_import_kind_refuted.
