(** Property theorems C59: the files of the Go generator. *)
From Verif Require Import Base Syntax Parser Printer ParserSpec PropParser Compiler CompilerSpec CompilerClaims
  CompilerProofs CompilerMore GenProofs Resolve ResolveSpec PropCompiler PropResolve Tools ToolsSpec ToolsProofs PropBuild.
Require Coq.Strings.String.
Import Coq.Strings.String.StringSyntax.
Local Open Scope N_scope.

(** The module of a simplified schema reached by a path of module names, and its comment. *)
Inductive smodule_at {F} : list (sdef F) -> list str -> comment -> list (sdef F) -> Prop :=
| sat_last ds c n sub : In (SModule c n sub) ds -> smodule_at ds [n] c sub
| sat_sub ds c n sub p c' m : In (SModule c n sub) ds -> smodule_at sub p c' m -> smodule_at ds (n :: p) c' m.

Section Go.
Context {F : Type}.
Variables (go_text : str -> comment -> list (sdef F) -> str).

(** Names of modules, one level. *)
Definition module_names (ds : list (sdef F)) : list str :=
  flat_map (fun d => match d with SModule _ n _ => [n] | _ => [] end) ds.
(** Unique at every level. *)
Inductive modules_unique : list (sdef F) -> Prop :=
| mu ds : NoDup (module_names ds) -> (forall c n sub, In (SModule c n sub) ds -> modules_unique sub) -> modules_unique ds.

Section Ind.
Variable P : sdef F -> Prop.
Hypothesis HM : forall c n ds, (forall d, In d ds -> P d) -> P (SModule c n ds).
Hypothesis HO : forall d, (forall c n ds, d <> SModule c n ds) -> P d.
Fixpoint sdef_ind2 (d : sdef F) : P d.
Proof.
  destruct d as [c n ds|c n g fs|c n g vs|c n g t|c n t v|segs e]; try (apply HO; discriminate).
  apply HM. induction ds as [|x ds IH]; intros d Hd; [destruct Hd|]. destruct Hd as [<-|Hd]; [apply sdef_ind2|apply IH; exact Hd].
Defined.
End Ind.

(** All files of a definition lie in the directory of its module. *)
Lemma go_module_prefix d : forall parent q c, In (q, c) (go_module go_text parent d) ->
  exists c' n ds rest, d = SModule c' n ds /\ q = parent ++ n :: rest /\ rest <> [].
Proof.
  induction d as [c n ds IH|d Hd] using sdef_ind2; intros parent q c0 Hin.
  - cbn [go_module] in Hin. exists c, n, ds. destruct Hin as [Hin|Hin].
    + injection Hin as <- <-. exists [n ++ lit_str ".go"]. split; [reflexivity|]. split; [reflexivity|discriminate].
    + apply in_flat_map in Hin as (x & Hx & Hin). destruct (IH x Hx _ _ _ Hin) as (c' & n' & ds' & rest & _ & -> & Hr).
      exists (n' :: rest). split; [reflexivity|]. split; [rewrite <- app_assoc; reflexivity|discriminate].
  - destruct d; try contradiction. exfalso. eapply Hd. reflexivity.
Qed.
Lemma go_flat_nodup ds : forall parent, NoDup (module_names ds) ->
  (forall d, In d ds -> forall parent, NoDup (map fst (go_module go_text parent d))) ->
  NoDup (map fst (flat_map (go_module go_text parent) ds)).
Proof.
  intros parent. induction ds as [|d ds IH]; intros Hn Hall; [constructor|]. cbn [flat_map]. rewrite map_app.
  assert (Hds : NoDup (module_names ds)) by (unfold module_names in *; cbn [flat_map] in Hn; destruct d; cbn [app] in Hn; try exact Hn; inversion Hn; assumption).
  assert (H2 : NoDup (map fst (flat_map (go_module go_text parent) ds))) by (apply IH; [exact Hds|intros x Hx; apply Hall; right; exact Hx]).
  assert (H1 : NoDup (map fst (go_module go_text parent d))) by (apply Hall; left; reflexivity).
  assert (Hdis : forall q, In q (map fst (go_module go_text parent d)) -> ~ In q (map fst (flat_map (go_module go_text parent) ds))).
  { intros q Hq Hq'. apply in_map_iff in Hq as ([q1 c1] & <- & Hq). apply in_map_iff in Hq' as ([q2 c2] & E & Hq'). cbn [fst] in E. subst q2.
    apply in_flat_map in Hq' as (x & Hx & Hq').
    destruct (go_module_prefix _ _ _ _ Hq) as (ca & na & da & ra & -> & Ea & _).
    destruct (go_module_prefix _ _ _ _ Hq') as (cb & nb & db & rb & -> & Eb & _).
    cbn [fst] in *. rewrite Ea in Eb. apply app_inv_head in Eb. injection Eb as <- _.
    unfold module_names in Hn. cbn [flat_map app] in Hn. inversion Hn as [|? ? Hni _]; subst. apply Hni. apply in_flat_map. exists (SModule cb na db). split; [exact Hx|left; reflexivity]. }
  clear - H1 H2 Hdis. induction (map fst (go_module go_text parent d)) as [|q l IHl]; [exact H2|]. cbn [app]. inversion H1; subst. constructor.
  - intros Hin. apply in_app_or in Hin as [Hin|Hin]; [contradiction|]. exact (Hdis q (or_introl eq_refl) Hin).
  - apply IHl; [assumption|]. intros x Hx. apply Hdis. right. exact Hx.
Qed.
Lemma go_module_nodup d : forall parent, match d with SModule _ _ ds => modules_unique ds | _ => True end ->
  NoDup (map fst (go_module go_text parent d)).
Proof.
  induction d as [c n ds IH|d Hd] using sdef_ind2; intros parent Hu.
  - inversion Hu as [? Hn Hall]; subst. cbn [go_module map fst]. constructor.
    + intros Hin. apply in_map_iff in Hin as ([q c'] & E & Hin). cbn [fst] in E. subst q. apply in_flat_map in Hin as (x & _ & Hin).
      destruct (go_module_prefix _ _ _ _ Hin) as (c1 & n1 & d1 & r & _ & E & Hr). rewrite <- app_assoc in E. apply app_inv_head in E.
      cbn [app] in E. injection E as _ <-. contradiction.
    + apply go_flat_nodup; [exact Hn|]. intros x Hx p. apply IH; [exact Hx|]. destruct x; try exact I. eapply Hall. exact Hx.
  - destruct d; try exact (NoDup_nil _). exfalso. eapply Hd. reflexivity.
Qed.
Lemma go_schema_nodup package out o : modules_unique (snd o) -> NoDup (map fst (go_schema go_text package out o)).
Proof.
  intros Hu. inversion Hu as [? Hn Hall]; subst. unfold go_schema. cbn [map fst]. constructor.
  - intros Hin. apply in_map_iff in Hin as ([q c'] & E & Hin). cbn [fst] in E. subst q. apply in_flat_map in Hin as (x & _ & Hin).
    destruct (go_module_prefix _ _ _ _ Hin) as (c1 & n1 & d1 & r & _ & E & Hr). rewrite <- app_assoc in E. apply app_inv_head in E.
    cbn [app] in E. injection E as _ <-. contradiction.
  - apply go_flat_nodup; [exact Hn|]. intros x Hx p. apply go_module_nodup. destruct x; try exact I. eapply Hall. exact Hx.
Qed.
Lemma go_module_in ds p c m : smodule_at ds p c m -> forall parent,
  In (parent ++ p ++ [last p [] ++ lit_str ".go"], go_text (last p []) c m) (flat_map (go_module go_text parent) ds).
Proof.
  induction 1 as [ds c n sub Hin|ds c n sub p c' m Hin Hm IH]; intros parent; apply in_flat_map; eexists; (split; [exact Hin|]); cbn [go_module].
  - left. reflexivity.
  - right. specialize (IH (parent ++ [n])). rewrite <- app_assoc in IH.
    replace (last (n :: p) []) with (last p (@nil N)) by (destruct p; [inversion Hm|reflexivity]). exact IH.
Qed.
End Go.

(** Validation makes module names unique, and simplification keeps them. *)
Section Names.
Context {F : Type}.
Lemma Forall2_in_r {A B} (R : A -> B -> Prop) l l' b : Forall2 R l l' -> In b l' -> exists a, In a l /\ R a b.
Proof. induction 1 as [|x y l l' H HF IH]; intros []; [subst; exists x; split; [left; reflexivity|exact H]|]. destruct (IH H0) as (a & Ha & Hr). exists a. split; [right; exact Ha|exact Hr]. Qed.
Lemma all_opt_forall2 {A B} (f : A -> option B) l l' : all_opt f l = Some l' -> Forall2 (fun a b => f a = Some b) l l'.
Proof.
  revert l'. induction l as [|a l IH]; intros l' H; cbn in H; [injection H as <-; constructor|].
  destruct (f a) as [b|] eqn:E; [|discriminate]. destruct (all_opt f l) as [l1|]; [|discriminate]. injection H as <-. constructor; auto.
Qed.
Lemma simplify_is_module chk (d : pdef F) c n sub : simplify_definition chk d = Some (SModule c n sub) ->
  exists ds, d = PModule c n ds /\ all_opt (simplify_definition chk) ds = Some sub.
Proof.
  destruct d as [c1 n1 ds1|c1 a1 n1 g1 fs1|c1 a1 n1 g1 vs1|c1 n1 g1 t1|c1 n1 t1 v1|segs e]; cbn [simplify_definition]; intros Hd;
    try discriminate; try (destruct (simplify_fields chk fs1); discriminate); try (destruct (simplify_variants chk 1 (p_values vs1)); discriminate).
  destruct (all_opt (simplify_definition chk) ds1) as [l|] eqn:E; [|discriminate]. cbn in Hd. injection Hd as <- <- <-. eauto.
Qed.
Lemma module_names_introduced chk (ds : list (pdef F)) out : Forall2 (fun a b => simplify_definition chk a = Some b) ds out ->
  forall n, In n (module_names out) -> In n (introduced ds).
Proof.
  induction 1 as [|d o ds out Hd HF IH]; intros n Hn; [destruct Hn|]. unfold module_names in Hn. cbn [flat_map] in Hn.
  unfold introduced. cbn [flat_map]. apply in_or_app. apply in_app_or in Hn as [Hn|Hn]; [left|right; apply IH; exact Hn].
  destruct o; try contradiction. apply simplify_is_module in Hd as (ds' & -> & _). exact Hn.
Qed.
Lemma nodup_tail {A} (l l' : list A) : NoDup (l ++ l') -> NoDup l'.
Proof. induction l as [|x l IH]; [trivial|]. cbn [app]. intros H. inversion H; auto. Qed.
Lemma simplify_modules chk (ds : list (pdef F)) out : Forall2 (fun a b => simplify_definition chk a = Some b) ds out ->
  NoDup (introduced ds) -> NoDup (module_names out).
Proof.
  induction 1 as [|d o ds out Hd HF IH]; intros Hn; [constructor|]. unfold introduced in Hn. cbn [flat_map] in Hn.
  specialize (IH (nodup_tail _ _ Hn)). unfold module_names. cbn [flat_map]. destruct o; try exact IH. cbn [app]. constructor; [|exact IH].
  intros Hc. apply (module_names_introduced chk ds out HF) in Hc. apply simplify_is_module in Hd as (ds' & -> & _). cbn in Hn. inversion Hn; contradiction.
Qed.
(** Definitions with unique names at every level. *)
Definition names_unique (ds : list (pdef F)) : Prop :=
  NoDup (introduced ds) /\ forall c n sub, within (PModule c n sub) ds -> NoDup (introduced sub).
Lemma simplify_unique chk (d : sdef F) : forall ds' c n sub, d = SModule c n sub ->
  all_opt (simplify_definition chk) ds' = Some sub -> names_unique ds' -> modules_unique sub.
Proof.
  induction d as [c n ds IH|d Hd] using sdef_ind2; intros ds' c' n' sub E H Hu; [|exfalso; eapply Hd; exact E].
  injection E as <- <- <-. apply all_opt_forall2 in H. destruct Hu as [Hu1 Hu2]. constructor; [eapply simplify_modules; eassumption|].
  intros c1 n1 sub Hin. destruct (Forall2_in_r _ _ _ _ H Hin) as (d & Hd & Hs). apply simplify_is_module in Hs as (ds1 & -> & Hs).
  eapply (IH _ Hin); [reflexivity|exact Hs|]. split; [eapply Hu2; constructor; exact Hd|].
  intros c2 n2 sub2 Hw. eapply Hu2. eapply within_module; eassumption.
Qed.
End Names.

(** * C59 *)
(** A project of one schema file: there is a file for the root and one for every module, each
    with its own content, in the directory given by its path; nothing else is written. *)
Theorem C59_single_schema_partial : forall (F : Type) (parse_f64 : str -> option F) pick chk order go_text package out read f (disk disk' : path -> option str),
  readable read ->
  let '(ws, e) := go_main parse_f64 pick chk order go_text package out read [f] in
  e = BDone -> after ws disk disk' ->
  exists i s c ds, read (f_path f) = Some i /\ schema_parse parse_f64 i = Some s /\ simplify_schema chk s = Some (c, ds)
  /\ disk' (out ++ [package; package ++ tx ".go"]) = Some (go_text package [] ds)
  /\ (forall p c m, smodule_at ds p c m -> disk' (out ++ [package] ++ p ++ [last p [] ++ tx ".go"]) = Some (go_text (last p []) c m))
  /\ (forall q, (forall p, q <> out ++ [package] ++ p ++ [last p package ++ tx ".go"]) -> disk' q = disk q).
Proof.
  intros F pf pick chk order go_text package out read f disk disk' Hr.
  destruct (go_main pf pick chk order go_text package out read [f]) as [ws e] eqn:E. intros -> Ha.
  unfold go_main in E. destruct (front pf pick chk order read [f]) as [values| |] eqn:Ef; try discriminate.
  destruct (front_loaded pf _ _ _ _ _ _ Ef) as (Hl & Hv & _). inversion Hl as [|? [n s] ? vs (H1 & i & H2 & H3) HF]; subst. inversion HF; subst.
  cbn [fst snd] in *. cbn [go_emit] in E. destruct (simplify_schema chk s) as [[c ds]|] eqn:Es; [|discriminate].
  injection E as <-. rewrite app_nil_r in Ha. exists i, s, c, ds. split; [exact H2|]. split; [exact H3|]. split; [exact Es|].
  assert (Hval : valid chk (ps_defs s)).
  { apply (validate_schema_exact pick); [apply SchemaOk_u32; eapply C52_well_formed; [exact (Hr _ _ H2)|exact H3]|]. apply (Hv (n, s)). left. reflexivity. }
  assert (Hu : modules_unique ds).
  { unfold simplify_schema in Es. destruct (all_opt (simplify_definition chk) (ps_defs s)) as [l|] eqn:El; [|discriminate]. cbn in Es. injection Es as <- <-.
    eapply (simplify_unique chk (SModule [] [] l)); [reflexivity|exact El|]. destruct Hval as [V1 V2]. split; [exact V1|].
    intros c' n' sub Hw. destruct (V2 _ Hw) as (Hns & _). apply Hns. cbn. left. reflexivity. }
  pose proof (go_schema_nodup go_text package out (c, ds) Hu) as Hn.
  split; [|split].
  - apply (Ha _). apply nodup_last; [exact Hn|]. left. reflexivity.
  - intros p c' m Hm. apply (Ha _). apply nodup_last; [exact Hn|]. right. cbn [snd].
    pose proof (go_module_in go_text ds p c' m Hm (out ++ [package])) as Hin. rewrite <- app_assoc in Hin. exact Hin.
  - intros q Hq. apply (Ha q). intros c' [Hc|Hc].
    + injection Hc as <- _. apply (Hq []). reflexivity.
    + cbn [snd] in Hc. assert (Hp : exists p, q = (out ++ [package]) ++ p ++ [last p package ++ tx ".go"]).
      { clear - Hc. revert Hc. generalize (out ++ [package]) as parent.
        assert (G : forall d parent, In (q, c') (go_module go_text parent d) -> exists p, q = parent ++ p ++ [last p package ++ tx ".go"]).
        { induction d as [c n l IH|d Hd] using sdef_ind2; intros parent Hin.
          - cbn [go_module] in Hin. destruct Hin as [Hin|Hin]; [injection Hin as <- _; exists [n]; reflexivity|].
            apply in_flat_map in Hin as (x & Hx & Hin). destruct (IH x Hx _ Hin) as (p & ->). exists (n :: p). rewrite <- app_assoc. cbn [app].
            destruct p as [|y p]; [exfalso|reflexivity]. destruct (go_module_prefix go_text _ _ _ _ Hin) as (c1 & n1 & d1 & r & _ & Er & Hr).
            rewrite <- !app_assoc in Er. apply app_inv_head in Er. cbn [app] in Er. injection Er as _ Er. subst r. contradiction.
          - destruct d; try contradiction. exfalso. eapply Hd. reflexivity. }
        intros parent Hin. apply in_flat_map in Hin as (x & _ & Hin). exact (G x parent Hin). }
      destruct Hp as (p & ->). apply (Hq p). rewrite <- app_assoc. reflexivity.
Qed.
Print Assumptions C59_single_schema_partial.

(** Refuted for projects with several files: all their roots are written to the one file of the
    package, and only the definitions of the last survive. *)
Theorem C59_last_schema_wins_refuted : forall (F : Type) (parse_f64 : str -> option F) pick chk order go_text package out read files f (disk disk' : path -> option str),
  let '(ws, e) := go_main parse_f64 pick chk order go_text package out read (files ++ [f]) in
  e = BDone -> after ws disk disk' ->
  exists i s c ds, read (f_path f) = Some i /\ schema_parse parse_f64 i = Some s /\ simplify_schema chk s = Some (c, ds)
  /\ disk' (out ++ [package; package ++ tx ".go"]) = Some (go_text package [] ds).
Proof.
  intros F pf pick chk order go_text package out read files f disk disk'.
  destruct (go_main pf pick chk order go_text package out read (files ++ [f])) as [ws e] eqn:E. intros -> Ha.
  unfold go_main in E. destruct (front pf pick chk order read (files ++ [f])) as [values| |] eqn:Ef; try discriminate.
  destruct (front_loaded pf _ _ _ _ _ _ Ef) as (Hl & _ & _). clear Ef. unfold loaded in Hl. apply Forall2_app_inv_l in Hl as (vs & l & _ & Hl & ->).
  inversion Hl as [|? [n s] ? ? (H1 & i & H2 & H3) HF]; subst. inversion HF; subst. cbn [fst snd] in *.
  exists i, s. destruct (simplify_schema chk s) as [[c ds]|] eqn:Es.
  - exists c, ds. split; [exact H2|]. split; [exact H3|]. split; [reflexivity|].
    assert (HE : exists ws1, ws = ws1 ++ go_schema go_text package out (c, ds)).
    { clear Ha. revert ws E. induction vs as [|[n1 s1] vs IH]; intros ws E; cbn [app go_emit] in E.
      - rewrite Es in E. injection E as <-. exists []. rewrite app_nil_r. reflexivity.
      - destruct (simplify_schema chk s1) as [o|]; [|discriminate]. destruct (go_emit chk go_text package out (vs ++ [(n, s)])) as [ws' e'].
        injection E as <- ->. destruct (IH ws' eq_refl) as (ws1 & ->). exists (go_schema go_text package out o ++ ws1). rewrite app_assoc. reflexivity. }
    destruct HE as (ws1 & ->). apply (Ha _). constructor. intros p c' Hin ->. cbn [snd] in Hin. apply in_flat_map in Hin as (x & _ & Hin).
    destruct (go_module_prefix go_text _ _ _ _ Hin) as (c1 & n1 & d1 & r & _ & Er & Hr). rewrite <- app_assoc in Er. apply app_inv_head in Er.
    cbn [app] in Er. injection Er as _ <-. contradiction.
  - exfalso. clear Ha. revert ws E. induction vs as [|[n1 s1] vs IH]; intros ws E; cbn [app go_emit] in E; [rewrite Es in E; discriminate|].
    destruct (simplify_schema chk s1) as [o|]; [|discriminate]. destruct (go_emit chk go_text package out (vs ++ [(n, s)])) as [ws' e'] eqn:E'.
    injection E as _ ->. exact (IH ws' eq_refl).
Qed.
Print Assumptions C59_last_schema_wins_refuted.

(** Two files and a module. *)
Example C59_ex :
  let go_text (n : str) (_ : comment) (ds : list (sdef unit)) := n ++ [58] ++ flat_map (fun d => match item_name d with Some n => n | None => [] end) ds in
  go_main (fun _ => None) pick0 true same go_text (tx "pkg") [tx "out"] good_disk good_files
  = ([([tx "out"; tx "pkg"; tx "pkg.go"], tx "pkg:iN"); ([tx "out"; tx "pkg"; tx "i"; tx "i.go"], tx "i:K");
      ([tx "out"; tx "pkg"; tx "pkg.go"], tx "pkg:P")], BDone)
  /\ exists ds, smodule_at ds [tx "i"] [] [SStruct (F := unit) [] (tx "K") [] (SFields SKUnit [])].
Proof. split; [vm_compute; reflexivity|]. eexists [SModule [] (tx "i") _]. constructor. left. reflexivity. Qed.
