(** Property theorems C55 (the build), C49 from source text, C59 (Go output). *)
From Verif Require Import Base Varint Wire Codec CodecSpec SchemaSpec Syntax Parser Printer ParserSpec ParserRound3 PropParser Compiler CompilerSpec CompilerClaims
  CompilerProofs CompilerMore GenProofs Resolve ResolveSpec ResolveClaims ResolveProofs PropCodec PropCompiler PropResolve Lower ProjectSpec PropProject
  Tools ToolsSpec ToolsProofs.
Require Coq.Strings.String.
Import Coq.Strings.String.StringSyntax.
Local Open Scope N_scope.

(** * What parsing guarantees to the compiler *)
Section Parsed.
Context {F : Type}.
Lemma fold_all {A} (P : A -> Prop) (l : list A) : fold_right (fun d Q => P d /\ Q) True l -> forall d, In d l -> P d.
Proof. induction l as [|x l IH]; intros H d []; destruct H; [subst; assumption|apply IH; assumption]. Qed.
Lemma within_ok (ds : list (pdef F)) d : (forall x, In x ds -> DefOk x) -> within d ds -> DefOk d.
Proof.
  intros H Hw. induction Hw as [ds Hin|c n sub ds Hin Hw IH]; [apply H; exact Hin|]. apply IH.
  destruct (H _ Hin) as (_ & _ & Hs). intros x Hx. exact (fold_all _ _ Hs x Hx).
Qed.
Lemma fields_u32 fs : FieldsOk fs -> u32_ids (field_decls fs).
Proof.
  destruct fs as [l|l|]; cbn [FieldsOk field_decls]; intros H e He.
  - apply in_map_iff in He as (f & E & Hf). rewrite Forall_forall in H. destruct (H f Hf) as (_ & _ & _ & _ & Hi). rewrite E in Hi. exact Hi.
  - apply in_map_iff in He as (f & E & Hf). rewrite Forall_forall in H. destruct (H f Hf) as (_ & _ & Hi). rewrite E in Hi. exact Hi.
  - destruct He.
Qed.
Lemma SchemaOk_u32 (s : pschema F) : SchemaOk s -> u32_defs (ps_defs s).
Proof.
  intros [_ H] d decl Hd Hin. assert (Hok : DefOk d) by (eapply within_ok; [|exact Hd]; intros x Hx; rewrite Forall_forall in H; exact (H x Hx)).
  destruct d as [c n ds|c a n g fs|c a n g vs|c n g t|c n t v|segs e]; cbn in Hin; try contradiction.
  - destruct Hin as [<-|[]]. apply fields_u32. apply Hok.
  - destruct Hok as (_ & _ & _ & _ & Hv). rewrite Forall_forall in Hv. destruct Hin as [<-|Hin].
    + intros e He. apply in_map_iff in He as (v & E & Hv'). destruct (Hv v Hv') as (_ & _ & _ & Hi). rewrite E in Hi. exact Hi.
    + apply in_map_iff in Hin as (fs & <- & Hfs). apply in_map_iff in Hfs as (v & <- & Hv'). apply fields_u32. apply (Hv v Hv').
Qed.
Lemma SchemaOk_rooted (s : pschema F) : SchemaOk s -> imports_rooted (ps_defs s).
Proof. intros [_ H] segs e Hin. rewrite Forall_forall in H. destruct (H _ Hin) as (Hs & _). exact Hs. Qed.
End Parsed.

(** * Vocabulary *)

(** The project's files can be read and parsed: [values] are their names and schemas. *)
Definition loaded {F} (parse_f64 : str -> option F) (read : path -> option str) (files : list sfile) (values : list (str * pschema F)) : Prop :=
  Forall2 (fun f v => fst v = f_stem f /\ exists i, read (f_path f) = Some i /\ schema_parse parse_f64 i = Some (snd v)) files values.
(** Rust strings are Unicode. *)
Definition readable (read : path -> option str) : Prop := forall p i, read p = Some i -> text i.
(** All imports and references of the project mean something. *)
Definition resolved {F} (values : list (str * pschema F)) : Prop := forall n ds, In (n, ds) (definitions_of values) ->
  (forall segs e, In (PImport segs e) ds -> import_ok (definitions_of values) segs e) /\
  (forall m path t k, refers ds m path t k ->
     local_ok m path t k \/ (path = [] /\ imported_ok (definitions_of values) ds t k)).
(** No two schema files have the same name (in different directories). *)
Definition distinct_stems (files : list sfile) : Prop := NoDup (map f_stem files).

Section Lemmas.
Context {F : Type} (parse_f64 : str -> option F).
Lemma loaded_fst read files values : loaded parse_f64 read files values -> map fst values = map f_stem files.
Proof. induction 1 as [|f v files vs [H _] HF IH]; [reflexivity|]. cbn [map]. rewrite H, IH. reflexivity. Qed.
Lemma loaded_ok read files values : readable read -> loaded parse_f64 read files values -> forall n s, In (n, s) values -> SchemaOk s.
Proof.
  intros Hr H. induction H as [|f v files vs (_ & i & H1 & H2) HF IH]; intros n s []; [|eapply IH; eassumption].
  subst v. eapply C52_well_formed; [apply (Hr _ _ H1)|exact H2].
Qed.
Lemma loaded_project pick chk read files values : readable read -> distinct_stems files -> loaded parse_f64 read files values ->
  (forall v, In v values -> validate_schema pick chk (snd v) = COk tt) -> project pick chk values.
Proof.
  intros Hr Hd Hl Hv. split; [rewrite (loaded_fst _ _ _ Hl); exact Hd|]. intros n s Hin.
  pose proof (loaded_ok _ _ _ Hr Hl n s Hin) as Hok. split; [exact (Hv _ Hin)|]. split; [apply SchemaOk_u32|apply SchemaOk_rooted]; exact Hok.
Qed.
Lemma loaded_unique read files v1 v2 : loaded parse_f64 read files v1 -> loaded parse_f64 read files v2 -> v1 = v2.
Proof.
  intros H. revert v2. induction H as [|f v files vs (H1 & i & H2 & H3) HF IH]; intros v2 H; inversion H as [|? v' ? vs' (H1' & i' & H2' & H3') HF']; subst; [reflexivity|].
  f_equal; [|apply IH; exact HF']. rewrite H2 in H2'. injection H2' as <-. rewrite H3 in H3'. injection H3' as E.
  destruct v, v'. cbn [fst snd] in *. congruence.
Qed.
Lemma front_loaded pick chk order read files values : front parse_f64 pick chk order read files = COk values ->
  loaded parse_f64 read files values /\ (forall v, In v values -> validate_schema pick chk (snd v) = COk tt) /\ resolve_schemas order values = COk tt.
Proof.
  intros H. apply front_iff in H as [HF Hr]. split; [|split; [|exact Hr]].
  - clear Hr. induction HF as [|f v files vs (H1 & H2 & _) HF IH]; constructor; auto.
  - clear Hr. induction HF as [|f v files vs (_ & _ & H3) HF IH]; intros x []; [subst; exact H3|apply IH; assumption].
Qed.
Lemma loaded_front pick chk order read files values : loaded parse_f64 read files values ->
  (forall v, In v values -> validate_schema pick chk (snd v) = COk tt) -> resolve_schemas order values = COk tt ->
  front parse_f64 pick chk order read files = COk values.
Proof.
  intros Hl Hv Hr. apply front_iff. split; [|exact Hr]. clear Hr. induction Hl as [|f v files vs (H1 & H2) HF IH]; constructor.
  - split; [exact H1|]. split; [exact H2|]. apply Hv. left. reflexivity.
  - apply IH. intros x Hx. apply Hv. right. exact Hx.
Qed.
(** A panic while checking is a panic of the validator or the resolver. *)
Lemma check_all_panic pick chk l : check_all parse_f64 pick chk l = CPanic ->
  exists f i s, In (f, i) l /\ schema_parse parse_f64 i = Some s /\ validate_schema pick chk s = CPanic.
Proof.
  induction l as [|[f i] l IH]; cbn [check_all]; [discriminate|]. destruct (schema_parse parse_f64 i) as [s|] eqn:E; [|discriminate].
  destruct (validate_schema pick chk s) as [[]|e|] eqn:Ev; cbn; [|discriminate|].
  - destruct (check_all parse_f64 pick chk l) as [vs| |]; cbn; try discriminate. intros _. destruct (IH eq_refl) as (f' & i' & s' & H & Hs).
    exists f', i', s'. split; [right; exact H|exact Hs].
  - intros _. exists f, i, s. split; [left; reflexivity|auto].
Qed.
Lemma read_all_panic read files : read_all read files <> CPanic.
Proof.
  induction files as [|f files IH]; cbn [read_all]; [discriminate|]. destruct (read (f_path f)); [|discriminate].
  destruct (read_all read files); cbn; [discriminate|discriminate|contradiction].
Qed.
Lemma front_panic pick chk order read files : readable read -> distinct_stems files -> some_order order ->
  front parse_f64 pick chk order read files = CPanic -> chk = true.
Proof.
  intros Hr Hd Ho. unfold front. destruct (read_all read files) as [l| |] eqn:El; cbn [cbind]; [|discriminate|intros _; exfalso; revert El; apply read_all_panic].
  destruct (check_all parse_f64 pick chk l) as [vs| |] eqn:Ec; cbn [cbind]; [|discriminate|].
  - assert (Hl : front parse_f64 pick chk (fun x => x) read files = COk vs -> True) by trivial. clear Hl.
    assert (Hp : project pick chk vs).
    { apply read_all_ok in El as [<- HF]. apply check_all_ok in Ec. apply (loaded_project pick chk read (map fst l) vs Hr Hd).
      - clear - Ec HF. unfold loaded. induction Ec as [|x v l vs (H1 & H2 & _) HF2 IH]; [constructor|]. inversion HF; subst. cbn [map].
        constructor; [|apply IH; assumption]. split; [exact H1|]. exists (snd x). auto.
      - clear - Ec. induction Ec as [|x v l vs (_ & _ & H3) HF2 IH]; intros y []; [subst; exact H3|apply IH; assumption]. }
    destruct (C35_errors_are_true F pick chk order vs Hp Ho) as [Hn _].
    destruct (resolve_schemas order vs) as [[]| |]; cbn; [discriminate|discriminate|contradiction].
  - intros _. destruct (check_all_panic _ _ _ Ec) as (f & i & s & Hin & Hs & Hv). apply read_all_ok in El as [_ HF]. rewrite Forall_forall in HF.
    specialize (HF _ Hin). cbn [fst snd] in HF. apply (C33_id_overflow F pick chk s); [|exact Hv].
    apply SchemaOk_u32. eapply C52_well_formed; [exact (Hr _ _ HF)|exact Hs].
Qed.
End Lemmas.

(** * C55: the Rust build *)

(** An error in the schemas is found before anything is written, *)
Theorem C55_error_writes_nothing : forall (F : Type) (parse_f64 : str -> option F) pick chk order gen out read files e,
  snd (compile parse_f64 pick chk order gen out read files) = BErr e ->
  fst (compile parse_f64 pick chk order gen out read files) = [].
Proof.
  intros F pf pick chk order gen out read files e. unfold compile. destruct (front pf pick chk order read files) as [values| |]; try reflexivity.
  intros H. exfalso. revert H. induction values as [|[n s] values IH]; cbn [emit]; [discriminate|].
  destruct (simplify_schema chk s) as [o|]; [|discriminate]. destruct (gen o); [|discriminate..].
  destruct (emit chk gen out values) as [ws e']. exact IH.
Qed.
Print Assumptions C55_error_writes_nothing.

(** and it is reported exactly for the projects with a file that cannot be read or parsed, with
    an invalid schema or with an import or reference that means nothing.  (In release builds;
    with overflow checks the build can also panic, see C33.) *)
Theorem C55_rejects_exactly_partial : forall (F : Type) (parse_f64 : str -> option F) pick order gen out read files,
  readable read -> distinct_stems files -> some_order order ->
  (exists e, snd (compile parse_f64 pick false order gen out read files) = BErr e) <->
  ~ exists values, loaded parse_f64 read files values /\ (forall v, In v values -> valid false (ps_defs (snd v))) /\ resolved values.
Proof.
  intros F pf pick order gen out read files Hr Hd Ho. split.
  - intros (e & H) (values & Hl & Hv & Hres).
    assert (Hval : forall v, In v values -> validate_schema pick false (snd v) = COk tt).
    { intros [n s] Hin. apply validate_schema_exact; [|exact (Hv _ Hin)]. apply SchemaOk_u32. exact (loaded_ok pf _ _ _ Hr Hl n s Hin). }
    assert (Hp : project pick false values) by (eapply loaded_project; eassumption).
    assert (Hrs : resolve_schemas order values = COk tt) by (apply (C35_resolution_exact_partial F pick false order values Hp Ho); exact Hres).
    pose proof (loaded_front pf pick false order read files values Hl Hval Hrs) as E.
    pose proof (C55_error_writes_nothing F pf pick false order gen out read files e H) as _.
    unfold compile in H. rewrite E in H. clear - H. revert H. induction values as [|[n s] values IH]; cbn [emit]; [discriminate|].
    destruct (simplify_schema false s) as [o|]; [|discriminate]. destruct (gen o); [|discriminate..].
    destruct (emit false gen out values) as [ws e']. exact IH.
  - intros Hno. unfold compile. destruct (front pf pick false order read files) as [values|e|] eqn:E.
    + exfalso. apply Hno. exists values. destruct (front_loaded pf _ _ _ _ _ _ E) as (Hl & Hv & Hres). split; [exact Hl|].
      assert (Hp : project pick false values) by (eapply loaded_project; eassumption). split.
      * intros [n s] Hin. apply (validate_schema_exact pick); [|exact (Hv _ Hin)]. apply SchemaOk_u32. exact (loaded_ok pf _ _ _ Hr Hl n s Hin).
      * exact (proj1 (C35_resolution_exact_partial F pick false order values Hp Ho) Hres).
    + exists e. reflexivity.
    + exfalso. apply (front_panic pf pick false order read files Hr Hd Ho) in E. discriminate.
Qed.
Print Assumptions C55_rejects_exactly_partial.

(** After a successful build of differently named files there is, for each, the code of its
    schema, and no other file was touched. *)
Theorem C55_outputs_partial : forall (F : Type) (parse_f64 : str -> option F) pick chk order gen out read files (disk disk' : path -> option str),
  distinct_stems files ->
  let '(ws, e) := compile parse_f64 pick chk order gen out read files in
  e = BDone -> after ws disk disk' ->
  (forall f, In f files -> exists i s o code, read (f_path f) = Some i /\ schema_parse parse_f64 i = Some s
     /\ simplify_schema chk s = Some o /\ gen o = GCode code /\ disk' (out ++ [f_stem f ++ tx ".rs"]) = Some code)
  /\ forall q, (forall f, In f files -> q <> out ++ [f_stem f ++ tx ".rs"]) -> disk' q = disk q.
Proof.
  intros F pf pick chk order gen out read files disk disk' Hd. destruct (compile pf pick chk order gen out read files) as [ws e] eqn:E.
  intros -> Ha. split.
  - unfold compile in E. destruct (front pf pick chk order read files) as [values| |] eqn:Ef; try discriminate.
    destruct (front_loaded pf _ _ _ _ _ _ Ef) as (Hl & _ & _). apply emit_done in E.
    assert (Hn : NoDup (map fst ws)).
    { assert (Em : map fst ws = map (rs_path out) (map f_stem files)).
      { rewrite <- (loaded_fst pf _ _ _ Hl). clear - E. induction E as [|v w vs ws [H _] HF IH]; [reflexivity|]. cbn [map]. rewrite H, IH. reflexivity. }
      rewrite Em. clear - Hd. unfold distinct_stems in Hd. induction (map f_stem files) as [|x l IH]; cbn [map]; [constructor|].
      inversion Hd; subst. constructor; [|apply IH; assumption]. intros Hin. apply in_map_iff in Hin as (y & Hy & Hin). apply rs_path_inj in Hy. subst. contradiction. }
    assert (HE : forall f, In f files -> exists i s o code, read (f_path f) = Some i /\ schema_parse pf i = Some s
       /\ simplify_schema chk s = Some o /\ gen o = GCode code /\ In (rs_path out (f_stem f), code) ws).
    { clear - Hl E. revert ws E. induction Hl as [|f v files vs (H1 & i & H2 & H3) HF IH]; intros ws E g Hg; [destruct Hg|].
      inversion E as [|? w ? ws' (G2 & o & G3 & G4) HF']; subst. destruct Hg as [<-|Hg].
      - exists i, (snd v), o, (snd w). repeat (split; [assumption|]). left. destruct w as [q c]. cbn [fst snd] in *. rewrite G2, H1. reflexivity.
      - destruct (IH ws' HF' g Hg) as (i' & s' & o' & code & K1 & K2 & K3 & K4 & K5). exists i', s', o', code. repeat (split; [assumption|]). right. exact K5. }
    intros f Hf. destruct (HE f Hf) as (i & s & o & code & K1 & K2 & K3 & K4 & K5). exists i, s, o, code. repeat (split; [assumption|]).
    apply (Ha (rs_path out (f_stem f))). apply nodup_last; assumption.
  - intros q Hq. apply (Ha q). intros c Hc. assert (Hin : In (q, c) (fst (compile pf pick chk order gen out read files))) by (rewrite E; exact Hc).
    apply compile_paths in Hin as (f & Hf & ->). exact (Hq f Hf eq_refl).
Qed.
Print Assumptions C55_outputs_partial.

(** Wherever the build is stopped, every file but one is as before or complete; the schemas are
    untouched, and the next complete build leaves the same files as if it had not been stopped. *)
Theorem C55_stopped : forall (F : Type) (parse_f64 : str -> option F) pick chk order gen out files (disk disk' : path -> option str),
  let build d := compile parse_f64 pick chk order gen out d files in
  stopped (fst (build disk)) disk disk' ->
  (exists p, forall q, q <> p -> disk' q = disk q \/ exists code, In (q, code) (fst (build disk)) /\ disk' q = Some code)
  /\ build disk' = build disk
  /\ forall d1 d2, after (fst (build disk)) disk d1 -> after (fst (build disk')) disk' d2 -> forall q, d2 q = d1 q.
Proof.
  intros F pf pick chk order gen out files disk disk' build H. split; [apply stopped_whole; exact H|].
  assert (E : build disk' = build disk).
  { unfold build, compile. rewrite (front_ext pf pick chk order disk disk'); [reflexivity|].
    intros f _. apply (stopped_other _ _ _ _ H). intros c Hc. apply compile_paths in Hc as (g & _ & Hg).
    pose proof (ends_ne _ _ _ _ (mabo_ends f) (rs_ends out (f_stem g)) Hg). discriminate. }
  split; [exact E|]. rewrite E. intros d1 d2 H1 H2 q. rewrite (after_run _ _ _ H1), (after_run _ _ _ H2). apply run_forget.
  intros q' Hq'. exact (stopped_other _ _ _ _ H Hq').
Qed.
Print Assumptions C55_stopped.

(** Building again changes nothing. *)
Theorem C55_rebuild : forall (F : Type) (parse_f64 : str -> option F) pick chk order gen out files (disk d1 d2 : path -> option str),
  let build d := compile parse_f64 pick chk order gen out d files in
  after (fst (build disk)) disk d1 -> after (fst (build d1)) d1 d2 -> snd (build d1) = snd (build disk) /\ forall q, d2 q = d1 q.
Proof.
  intros F pf pick chk order gen out files disk d1 d2 build H1 H2.
  assert (Hs : stopped (fst (build disk)) disk d1) by (exists (fst (build disk)), []; split; [symmetry; apply app_nil_r|left; exact H1]).
  destruct (C55_stopped F pf pick chk order gen out files disk d1 Hs) as (_ & E & H). split; [unfold build; rewrite E; reflexivity|].
  apply (H d1 d2 H1 H2).
Qed.
Print Assumptions C55_rebuild.

(** Two files with the same name: the build succeeds, and the code of the first is lost. *)
Definition same_name_files : list sfile := [File [tx "a"] (tx "x"); File [tx "b"] (tx "x")].
Definition same_name_disk : path -> option str := fun p =>
  if path_eqb p [tx "a"; tx "x.mabo"] then Some (tx "struct A(u8)") else
  if path_eqb p [tx "b"; tx "x.mabo"] then Some (tx "struct B(u16)") else None.
Theorem C55_same_name_refuted : forall (F : Type) (parse_f64 : str -> option F) pick chk gen out,
  let a := ([], [SStruct [] (tx "A") [] (SFields SKUnnamed [SField [] (tx "n0") (SPrim PrU8) 1])]) in
  let b := ([], [SStruct [] (tx "B") [] (SFields SKUnnamed [SField [] (tx "n0") (SPrim PrU16) 1])]) in
  forall code_a code_b, gen a = GCode code_a -> gen b = GCode code_b ->
  let '(ws, e) := compile parse_f64 pick chk (fun l => l) gen out same_name_disk same_name_files in
  e = BDone /\ forall disk', after ws same_name_disk disk' ->
    disk' (out ++ [tx "x.rs"]) = Some code_b /\ forall q, q <> out ++ [tx "x.rs"] -> disk' q = same_name_disk q.
Proof.
  intros F pf pick chk gen out a b code_a code_b Ha Hb.
  assert (E : compile pf pick chk (fun l => l) gen out same_name_disk same_name_files
              = ([(out ++ [tx "x.rs"], code_a); (out ++ [tx "x.rs"], code_b)], BDone)).
  { assert (Ef : front pf pick chk (fun l => l) same_name_disk same_name_files
       = COk [(tx "x", PSchema [] [PStruct [] [] (tx "A") None (FUnnamed (Punct [] (UField (PPrim PrU8) None) false))]);
              (tx "x", PSchema [] [PStruct [] [] (tx "B") None (FUnnamed (Punct [] (UField (PPrim PrU16) None) false))])])
      by (vm_compute; destruct chk; reflexivity).
    unfold compile. rewrite Ef. cbn [emit].
    assert (E1 : simplify_schema chk (PSchema (F := F) [] [PStruct [] [] (tx "A") None (FUnnamed (Punct [] (UField (PPrim PrU8) None) false))]) = Some a)
      by (destruct chk; reflexivity).
    assert (E2 : simplify_schema chk (PSchema (F := F) [] [PStruct [] [] (tx "B") None (FUnnamed (Punct [] (UField (PPrim PrU16) None) false))]) = Some b)
      by (destruct chk; reflexivity).
    rewrite E1, E2, Ha, Hb. reflexivity. }
  rewrite E. split; [reflexivity|]. intros disk' H. split.
  - apply (H _). apply (last_write_here [_] []). intros p c' [].
  - intros q Hq. apply (H q). intros c [Hc|[Hc|[]]]; injection Hc as Hc _; symmetry in Hc; contradiction.
Qed.
Print Assumptions C55_same_name_refuted.

(** * C49 from source text *)

(** A project that is built from its source files is one the compiler's theorems are about; so
    under the same conditions (C49_project_compiles_partial) the code compiles and its codecs
    round-trip.  [gen] is any code generator that panics where the modelled one does. *)
Theorem C49_source_partial : forall (F : Type) (parse_f64 : str -> option F) pick chk order gen out read files,
  readable read -> distinct_stems files -> some_order order ->
  (forall o, forallb generates (snd o) = false -> gen o = GPanic) ->
  snd (compile parse_f64 pick chk order gen out read files) = BDone ->
  exists values outs, loaded parse_f64 read files values /\ simplified chk values outs
  /\ ((forall nm ds, In (nm, ds) (definitions_of values) ->
         hidden_ok ds /\ nested_local ds /\ unshadowed ds /\ prelude_free ds /\ field_ids_fit ds) ->
      exists E, lower_project outs = Some E /\ wf_schema (arities outs) E = true /\ env_ok E = true
        /\ forall root t v rest, typed E t v = true -> prefix_ok E t v = true -> lenN (encode E root t v) < 2 ^ 64 ->
             decode E root t (encode E root t v ++ rest) = Ok (v, rest)).
Proof.
  intros F pf pick chk order gen out read files Hr Hd Ho Hg Hdone. unfold compile in Hdone.
  destruct (front pf pick chk order read files) as [values| |] eqn:Ef; try discriminate.
  destruct (front_loaded pf _ _ _ _ _ _ Ef) as (Hl & Hv & Hres). exists values.
  assert (Hp : project pick chk values) by (eapply loaded_project; eassumption).
  destruct (emit chk gen out values) as [ws e] eqn:Ee. cbn [snd] in Hdone. subst e. apply emit_done in Ee.
  assert (HO : exists outs : list (str * list (sdef F)), simplified chk values outs /\ forall o, In o outs -> forallb generates (snd o) = true).
  { assert (Hok : forall n s, In (n, s) values -> SchemaOk s) by (apply (loaded_ok pf _ _ _ Hr Hl)).
    clear - Ee Hg Hok. induction Ee as [|[n s] w vs ws (H1 & [c o] & H2 & H3) HF IH]; [exists []; split; [constructor|intros o []]|].
    destruct IH as (outs & I1 & I2); [intros n' s' Hin; apply (Hok n' s'); right; exact Hin|]. cbn [fst snd] in *.
    exists ((n, o) :: outs). split.
    - constructor; [|exact I1]. cbn [fst snd]. split; [reflexivity|]. rewrite H2.
      destruct (simplify_schema_compiled chk s c o (SchemaOk_u32 s (Hok n s (or_introl eq_refl))) H2) as [-> _]. reflexivity.
    - intros o' [<-|Ho']; [|apply I2; exact Ho']. cbn [snd]. destruct (forallb generates o) eqn:E; [reflexivity|].
      specialize (Hg (c, o) E). congruence. }
  destruct HO as (outs & Hs & Hgen). exists outs. split; [exact Hl|]. split; [exact Hs|]. intros Hc.
  destruct (C49_project_compiles_partial F pick chk order values outs Hp Ho Hres Hs Hgen) as (E & H1 & H2 & H3).
  { intros nm ds Hin. destruct (Hc nm ds Hin) as (K1 & K2 & K3 & K4 & _). auto. }
  assert (Hok : env_ok E = true) by (apply H3; intros nm ds Hin; apply (Hc nm ds Hin)).
  exists E. split; [exact H1|]. split; [exact H2|]. split; [exact Hok|]. intros root t v rest. apply C14_roundtrip_partial. exact Hok.
Qed.
Print Assumptions C49_source_partial.

(** A project meeting the hypotheses of C55 and of [C49_source_partial]: the two schemas of C49_ex,
    as text. *)
Definition good_disk : path -> option str := fun p =>
  if path_eqb p [tx "m.mabo"] then Some (tx "use s::P;
mod i { struct K<T>(T @3, option<T>) }
struct N { a: P, b: vec<i::K<u8>>, c: non_zero<vec<i::K<u8>>> @7, }
") else
  if path_eqb p [tx "s.mabo"] then Some (pr_schema (fun _ : unit => []) (fun _ => true) (PSchema [] [PropResolve.point])) else None.
Definition good_files : list sfile := [File [] (tx "m"); File [] (tx "s")].
(** Generated code stands for itself. *)
Definition gen0 (o : comment * list (sdef unit)) : gres :=
  if forallb generates (snd o) then GCode (flat_map (fun d => match item_name d with Some n => n | None => [] end) (snd o)) else GPanic.
Lemma good_readable : readable good_disk.
Proof.
  intros p i. unfold good_disk. destruct (path_eqb p [tx "m.mabo"]); [intros H; injection H as <-; apply tx_text; reflexivity|].
  destruct (path_eqb p [tx "s.mabo"]); [|discriminate]. intros H. injection H as <-.
  apply Forall_forall. intros c Hc. assert (Hb : forallb (fun c => c <? 256) (pr_schema (fun _ : unit => []) (fun _ => true) (PSchema [] [PropResolve.point])) = true) by reflexivity.
  rewrite forallb_forall in Hb. specialize (Hb c Hc). unfold scalar. apply N.ltb_lt in Hb. lia.
Qed.
Example C55_ex :
  readable good_disk /\ distinct_stems good_files
  /\ compile (fun _ => None) pick0 true same gen0 [tx "out"] good_disk good_files
     = ([([tx "out"; tx "m.rs"], tx "iN"); ([tx "out"; tx "s.rs"], tx "P")], BDone)
  /\ loaded (fun _ => None) good_disk good_files good.
Proof.
  split; [exact good_readable|]. split; [repeat constructor; cbn; intuition discriminate|]. split; [vm_compute; reflexivity|].
  constructor; [split; [reflexivity|]; eexists; (split; [vm_compute; reflexivity|vm_compute; reflexivity])|].
  constructor; [split; [reflexivity|]; eexists; (split; [vm_compute; reflexivity|vm_compute; reflexivity])|]. constructor.
Qed.
Example C55_ex_reject : snd (compile (fun _ : str => None (A := unit)) pick0 true same gen0 [] good_disk [File [] (tx "m")])
  = BErr (FResolve (EImport (IMissingSchema [115]))).
Proof. vm_compute. reflexivity. Qed.
(** Stopped while writing the second file. *)
Example C55_ex_stopped : stopped [([tx "out"; tx "m.rs"], tx "iN"); ([tx "out"; tx "s.rs"], tx "Point")] good_disk
  (put (put good_disk [tx "out"; tx "m.rs"] (tx "iN")) [tx "out"; tx "s.rs"] (tx "Po")).
Proof.
  exists [([tx "out"; tx "m.rs"], tx "iN")], [([tx "out"; tx "s.rs"], tx "Point")]. split; [reflexivity|]. right.
  exists [tx "out"; tx "s.rs"], (tx "Point"), (tx "Po"), (tx "int"), []. split; [reflexivity|]. split; [reflexivity|].
  exact (run_after [([tx "out"; tx "m.rs"], tx "iN"); ([tx "out"; tx "s.rs"], tx "Po")] good_disk).
Qed.
