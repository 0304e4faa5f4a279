(** Proofs for C82. *)
From Verif Require Import Base Syntax Parser Compiler Resolve ResolveProofs Lsp SpanParser NameSpec SpanProofs SpanTypes SpanLsp DiagnoseProofs LResolve LResolveSpec.
Local Open Scope N_scope.

Section Problems.
Context {F : Type}.
Implicit Types (ds : list (ldef F)).

Lemma lget_insert n (l : list (str * lmod F)) e :
  lget_mod n (linsert_mod l e) = if str_eqb (fst e) n then Some (snd e) else lget_mod n l.
Proof.
  unfold linsert_mod. induction l as [|[k m] l IH]; cbn [filter app lget_mod fst].
  - destruct e as [k m]. reflexivity.
  - destruct (str_eqb k (fst e)) eqn:E; cbn [negb].
    + rewrite IH. apply str_eqb_eq in E. subst k. destruct (str_eqb (fst e) n); reflexivity.
    + cbn [app lget_mod]. rewrite IH. destruct (str_eqb k n) eqn:E2; [|reflexivity].
      apply str_eqb_eq in E2. subst k. destruct (str_eqb (fst e) n) eqn:E3; [|reflexivity].
      apply str_eqb_eq in E3. subst n. rewrite str_eqb_refl in E. discriminate.
Qed.
Lemma in_linsert x (l : list (str * lmod F)) e : In x (linsert_mod l e) -> In x l \/ x = e.
Proof. unfold linsert_mod. rewrite in_app_iff, filter_In. intros [[H _]|[H|[]]]; auto. Qed.

Lemma lmodule_of_some src p (d : ldef F) e : lmodule_of src p d = Some e ->
  exists c kw n o k sub, d = LModule c kw n o k sub /\ e = (ln_text n, lmodule_tree src (ln_text n) p sub).
Proof. destruct d; cbn; try discriminate. intros H. injection H as <-. do 6 eexists. split; reflexivity. Qed.

Definition lstep (acc : list (str * lmod F)) (o : option (str * lmod F)) := match o with Some e => linsert_mod acc e | None => acc end.
Lemma lget_fold src p n ds : forall acc,
  match lget_mod n (fold_left lstep (map (lmodule_of src p) ds) acc) with
  | Some m => lget_mod n acc = Some m \/ exists c kw x o k sub, In (LModule c kw x o k sub) ds /\ ln_text x = n /\ m = lmodule_tree src n p sub
  | None => lget_mod n acc = None /\ no_such_module n ds
  end.
Proof.
  induction ds as [|d ds IH]; intros acc; cbn [map fold_left].
  - destruct (lget_mod n acc); [left; reflexivity|]. split; [reflexivity|intros c kw x o k sub []].
  - specialize (IH (lstep acc (lmodule_of src p d))). destruct (lget_mod n (fold_left lstep _ _)) as [m|].
    + destruct IH as [IH|(c & kw & x & o & k & sub & Hin & Hx & ->)]; [|right; do 6 eexists; split; [right; exact Hin|auto]].
      destruct (lmodule_of src p d) as [e|] eqn:E; cbn [lstep] in IH; [|left; exact IH].
      apply lmodule_of_some in E as (c & kw & x & o & k & sub & -> & ->). rewrite lget_insert in IH. cbn [fst snd] in IH.
      destruct (str_eqb (ln_text x) n) eqn:E2; [|left; exact IH]. apply str_eqb_eq in E2. subst n. right. exists c, kw, x, o, k, sub. split; [left; reflexivity|]. split; [reflexivity|]. congruence.
    + destruct IH as [IH Hno]. destruct (lmodule_of src p d) as [e|] eqn:E; cbn [lstep] in IH.
      * apply lmodule_of_some in E as (c & kw & x & o & k & sub & -> & ->). rewrite lget_insert in IH. cbn [fst snd] in IH.
        destruct (str_eqb (ln_text x) n) eqn:E2; [discriminate|]. split; [exact IH|]. intros c' kw' x' o' k' sub' [H|H]; [injection H as <- <- <- <- <- <-; intros Hx; rewrite Hx, str_eqb_refl in E2; discriminate|exact (Hno _ _ _ _ _ _ H)].
      * split; [exact IH|]. intros c' kw' x' o' k' sub' [->|H]; [discriminate E|exact (Hno _ _ _ _ _ _ H)].
Qed.
Lemma lget_collect src p n ds :
  match lget_mod n (lcollect (map (lmodule_of src p) ds)) with
  | Some m => exists c kw x o k sub, In (LModule c kw x o k sub) ds /\ ln_text x = n /\ m = lmodule_tree src n p sub
  | None => no_such_module n ds
  end.
Proof.
  pose proof (lget_fold src p n ds []) as H. unfold lcollect. fold lstep. destruct (lget_mod n (fold_left lstep _ [])); [|apply H]. destruct H as [H|H]; [discriminate H|exact H].
Qed.
Lemma in_lcollect src p ds k m : In (k, m) (lcollect (map (lmodule_of src p) ds)) ->
  exists c kw x o e sub, In (LModule c kw x o e sub) ds /\ k = ln_text x /\ m = lmodule_tree src k p sub.
Proof.
  unfold lcollect. fold lstep.
  assert (G : forall ds acc, In (k, m) (fold_left lstep (map (lmodule_of src p) ds) acc) -> In (k, m) acc \/ exists c kw x o e sub, In (LModule c kw x o e sub) ds /\ k = ln_text x /\ m = lmodule_tree src k p sub).
  { clear ds. induction ds as [|d ds IH]; intros acc H; cbn [map fold_left] in H; [left; exact H|].
    apply IH in H as [H|(c & kw & x & o & e & sub & Hin & H)]; [|right; do 6 eexists; split; [right; exact Hin|exact H]].
    destruct (lmodule_of src p d) as [y|] eqn:E; cbn [lstep] in H; [|left; exact H]. apply in_linsert in H as [H|H]; [left; exact H|]. subst y.
    apply lmodule_of_some in E as (c & kw & x & o & e & sub & -> & E). injection E as -> ->. right. do 6 eexists. split; [left; reflexivity|auto]. }
  intros H. apply G in H as [[]|H]. exact H.
Qed.

Lemma lwalk_spec {E} (miss : str -> list str -> E) used src path : forall nm p ds,
  match lwalk miss used (lmodule_tree src nm p ds) path with
  | COk m => exists nm' p' t, lmodule_at ds (texts path) t /\ m = lmodule_tree src nm' p' t /\ p' ++ [nm'] = p ++ nm :: texts path
  | CErr (e, l) => exists pre s post t, path = pre ++ s :: post /\ lmodule_at ds (texts pre) t /\ no_such_module (ln_text s) t
      /\ e = miss (ln_text s) (p ++ nm :: texts pre) /\ l = Used (used s)
  | CPanic => False
  end.
Proof.
  induction path as [|n path IH]; intros nm p ds; cbn [lwalk].
  - exists nm, p, ds. split; [constructor|]. auto.
  - unfold lmodule_tree. cbn [lm_modules lm_path]. pose proof (lget_collect src (p ++ [nm]) (ln_text n) ds) as H. destruct (lget_mod (ln_text n) _) as [m|].
    + destruct H as (c & kw & x & o & k & sub & Hin & Hx & ->). specialize (IH (ln_text n) (p ++ [nm]) sub). destruct (lwalk miss used _ path) as [m|[e l]|].
      * destruct IH as (nm' & p' & t & H1 & -> & H2). exists nm', p', t. split; [cbn [texts map]; rewrite <- Hx; econstructor; eassumption|]. split; [reflexivity|]. rewrite H2, <- app_assoc. reflexivity.
      * destruct IH as (pre & s & post & t & -> & H1 & H2 & H3 & H4). exists (n :: pre), s, post, t. split; [reflexivity|]. split; [cbn [texts map]; rewrite <- Hx; econstructor; eassumption|].
        split; [exact H2|]. split; [|exact H4]. rewrite H3, <- app_assoc. reflexivity.
      * exact IH.
    + exists [], n, path, ds. split; [reflexivity|]. split; [constructor|]. auto.
Qed.

Lemma len_values {A} (p : punct A) : p_len p = length (p_values p).
Proof. apply p_len_length. Qed.
Lemma lext_args_arguments g : lext_args g = arguments g.
Proof. destruct g as [[? g]|]; [apply len_values|reflexivity]. Qed.
Lemma in_decls dc ds : In dc (flat_map ldecl_of ds) <-> defines ds (ld_kind dc) (ld_name dc).
Proof.
  rewrite in_flat_map. unfold defines. split; intros (d & Hd & H); exists d; (split; [exact Hd|]).
  - destruct d as [ | ? ? ? ? [g|] | ? ? ? ? [g|] | | | ]; cbn in H; try contradiction; destruct H as [<-|[]]; cbn; try split; try reflexivity; apply len_values.
  - destruct dc as [k n]. cbn in H. destruct d as [ | ? ? ? ? [g|] | ? ? ? ? [g|] | | | ], k; try contradiction; try destruct H as [? ?]; try subst; cbn; rewrite ?len_values; left; reflexivity.
Qed.
Lemma lfind_spec n ds : match lfind_decl n (flat_map ldecl_of ds) with
  | Some dc => ln_text (ld_name dc) = n /\ defines ds (ld_kind dc) (ld_name dc)
  | None => no_such_definition n ds
  end.
Proof.
  unfold lfind_decl. destruct (find _ _) as [dc|] eqn:E.
  - apply find_some in E as [H1 H2]. apply str_eqb_eq in H2. split; [exact H2|]. apply in_decls. exact H1.
  - intros k x Hx Hn. pose proof (find_none _ _ E (LDecl k x)) as H. cbn [ld_name] in H. rewrite Hn, str_eqb_refl in H. discriminate H. apply in_decls. exact Hx.
Qed.

Lemma llocal_spec src nm p ds path name g :
  match lresolve_local (lmodule_tree src nm p ds) (path, name, g) with
  | COk _ => True
  | CErr (e, l) => local_problem (p ++ [nm]) ds (map fst path) name g e l
  | CPanic => False
  end.
Proof.
  unfold lresolve_local. pose proof (lwalk_spec LMissingModule (fun _ => ln_loc name) src (map fst path) nm p ds) as H.
  destruct (lwalk _ _ _ _) as [m|[e l]|]; cbn [cbind]; [| |exact H].
  - destruct H as (nm' & p' & t & Ht & -> & Hp). unfold lmodule_tree at 1 2. cbn [lm_types lm_path]. pose proof (lfind_spec (ln_text name) t) as Hf.
    destruct (lfind_decl _ _) as [[k n]|].
    + cbn [ld_name ld_kind] in *. destruct Hf as [Hn Hd]. destruct k as [j|j| |]; try (eapply P_kind; eauto; fail);
        (destruct (Nat.eqb_spec j (lext_args g)) as [E|E]; [exact I|rewrite lext_args_arguments in *; eapply P_count; eauto]).
    + rewrite Hp. change (p ++ nm :: texts (map fst path)) with (p ++ [nm] ++ texts (map fst path)). rewrite app_assoc. eapply P_definition; eassumption.
  - destruct H as (pre & s & post & t & H1 & H2 & H3 & -> & ->). change (p ++ nm :: texts pre) with (p ++ [nm] ++ texts pre). rewrite app_assoc. eapply P_module; eassumption.
Qed.

(** * The missing types *)
Lemma in_punct {A} (l : list A) x b e : In e (p_values (Punct l x b)) <-> In e l \/ e = x.
Proof. unfold p_values. cbn. rewrite in_app_iff. cbn. intuition. Qed.
Lemma lexternals_inside t : forall path name g, In (path, name, g) (lexternals t) -> exists s, inside (LTExt s path name g) t.
Proof.
  induction t as [s p|s k kw o c t IH|s kw o c k m v IHk IHv|s o c l x b Hl Hx|s o c t m n IH|s path n|s path n [o c] l x b Hl Hx] using lty_ind2; intros path' name g H; cbn [lexternals] in H.
  - destruct H.
  - destruct k; try (apply IH in H as [s' H]; exists s'; eapply inside_inner; [left; reflexivity|exact H]). destruct H.
  - apply in_app_iff in H as [H|H]; [apply IHk in H as [s' H]|apply IHv in H as [s' H]]; exists s'; (eapply inside_inner; [|exact H]); [left; reflexivity|right; left; reflexivity].
  - apply in_app_iff in H as [H|H].
    + apply in_flat_map in H as (e & He & H). apply (Hl e He) in H as [s' H]. exists s'. eapply inside_inner; [|exact H]. apply in_map. apply in_punct. left. exact He.
    + apply Hx in H as [s' H]. exists s'. eapply inside_inner; [|exact H]. apply in_map. apply in_punct. right. reflexivity.
  - apply IH in H as [s' H]. exists s'. eapply inside_inner; [left; reflexivity|exact H].
  - destruct H as [H|[]]. injection H as <- <- <-. exists s. constructor.
  - destruct H as [H|H]; [injection H as <- <- <-; exists s; constructor|]. apply in_app_iff in H as [H|H].
    + apply in_flat_map in H as (e & He & H). apply (Hl e He) in H as [s' H]. exists s'. eapply inside_inner; [|exact H]. cbn [inner_types]. apply in_map. apply in_punct. left. exact He.
    + apply Hx in H as [s' H]. exists s'. eapply inside_inner; [|exact H]. cbn [inner_types]. apply in_map. apply in_punct. right. reflexivity.
Qed.
Lemma lis_generic_spec path name g gen : lis_generic (path, name, g) gen = false ->
  ~ (map fst path = [] /\ g = None /\ exists ps x, gen = Some ps /\ In x (p_values ps) /\ ln_text (fst x) = ln_text name).
Proof.
  unfold lis_generic. intros H (Hp & -> & ps & x & -> & Hx & E). destruct path as [|a path]; [|discriminate Hp].
  assert (X : existsb (fun p => str_eqb (ln_text (fst p)) (ln_text name)) (p_values ps) = true) by (apply existsb_exists; exists x; split; [exact Hx|rewrite E; apply str_eqb_refl]).
  congruence.
Qed.
Lemma lmissing_in_inv (m : lmod F) gen t e x : In (e, x) (lmissing_in m gen t) -> In e (lexternals t) /\ lis_generic e gen = false /\ lresolve_local m e = CErr x.
Proof.
  unfold lmissing_in. intros H. apply in_flat_map in H as (e' & He & H). destruct (lis_generic e' gen) eqn:Eg; [destruct H|].
  destruct (lresolve_local m e') eqn:Er; try contradiction. destruct H as [H|[]]. injection H as <- <-. auto.
Qed.
Lemma lmissing_fields_inv (m : lmod F) gen fs e x : In (e, x) (lmissing_fields m gen fs) -> exists t, In t (field_types_of fs) /\ In (e, x) (lmissing_in m gen t).
Proof.
  destruct fs as [o c l|o c l|]; cbn [lmissing_fields field_types_of]; try contradiction; intros H; apply in_flat_map in H as (f & Hf & H); eexists; (split; [|exact H]); apply in_map_iff; eexists; (split; [reflexivity|exact Hf]).
Qed.
Lemma lmissing_def_inv (m : lmod F) d path name g x : In ((path, name, g), x) (lmissing_def m d) -> mentions d (map fst path) name g /\ lresolve_local m (path, name, g) = CErr x.
Proof.
  assert (G : forall gen t, In ((path, name, g), x) (lmissing_in m gen t) -> lresolve_local m (path, name, g) = CErr x /\ exists s, inside (LTExt s path name g) t
     /\ ~ (map fst path = [] /\ g = None /\ exists ps x, gen = Some ps /\ In x (p_values ps) /\ ln_text (fst x) = ln_text name)).
  { intros gen t H. apply lmissing_in_inv in H as (H1 & H2 & H3). split; [exact H3|]. apply lexternals_inside in H1 as [s H1]. exists s. split; [exact H1|]. apply lis_generic_spec. exact H2. }
  destruct d as [ |c a kw n gen fs|c a kw n gen o cl vs| | |]; cbn [lmissing_def]; try contradiction; intros H.
  - apply lmissing_fields_inv in H as (t & Ht & H). apply G in H as (H & s & Hs & Hg). split; [|exact H]. exists gen, t, s, path. auto.
  - apply in_flat_map in H as (v & Hv & H). apply lmissing_fields_inv in H as (t & Ht & H). apply G in H as (H & s & Hs & Hg). split; [|exact H]. exists gen, t, s, path. split; [reflexivity|]. split; [exact Hs|]. split; [|exact Hg]. split; [reflexivity|eauto].
Qed.

Lemma ldefs_ind (P : list (ldef F) -> Prop) : (forall ds, (forall c kw n o e sub, In (LModule c kw n o e sub) ds -> P sub) -> P ds) -> forall ds, P ds.
Proof.
  intros H ds. apply H. intros c kw n o e sub Hin.
  assert (G : forall d : ldef F, match d with LModule _ _ _ _ _ ds => P ds | _ => True end).
  { clear Hin. induction d as [c' kw' n' o' e' ds' IH|c' a' kw' n' g' fs|c' a' kw' n' g' o' e' vs|c' kw' n' g' e' t' m'|c' kw' n' k' t' e' v' vl' m'|kw' segs el m'] using ldef_ind2; try exact I.
    apply H. intros c1 kw1 n1 o1 e1 sub1 Hin. exact (IH _ Hin). }
  exact (G (LModule c kw n o e sub)).
Qed.
Lemma lmissing_inv src ds : forall nm p path name g e l, In ((path, name, g), (e, l)) (lresolve_module_types (lmodule_tree src nm p ds)) ->
  exists at_ m d, lmodule_at ds at_ m /\ In d m /\ mentions d (map fst path) name g /\ local_problem (p ++ nm :: at_) m (map fst path) name g e l.
Proof.
  induction ds as [ds IH] using ldefs_ind. intros nm p path name g e l H. unfold lmodule_tree in H at 1. cbn [lresolve_module_types] in H. fold (lmodule_tree src nm p ds) in H.
  apply in_app_iff in H as [H|H]; apply in_flat_map in H.
  - destruct H as (d & Hd & H). apply lmissing_def_inv in H as [H1 H2]. exists [], ds, d. split; [constructor|]. split; [exact Hd|]. split; [exact H1|].
    pose proof (llocal_spec src nm p ds path name g) as Hl. rewrite H2 in Hl. exact Hl.
  - destruct H as ([k m] & Hk & H). apply in_lcollect in Hk as (c & kw & x & o & en & sub & Hin & -> & ->). cbn [snd] in H.
    apply (IH _ _ _ _ _ _ Hin) in H as (at_ & m & d & H1 & H2 & H3 & H4). exists (ln_text x :: at_), m, d. split; [econstructor; eassumption|]. split; [exact H2|]. split; [exact H3|].
    rewrite <- app_assoc in H4. exact H4.
Qed.

(** * Imports *)
Variable files : list (str * lfile F).
Definition ltrees : list (str * lmod F) := map (fun v => (fst v, lresolve_types (fst v) (snd v))) files.
Lemma lget_trees n : match lget_mod n ltrees with
  | Some m => exists f, In (n, f) files /\ m = lmodule_tree (lf_source f) n [] (body f)
  | None => forall f, ~ In (n, f) files
  end.
Proof.
  unfold ltrees. induction files as [|[k f] l IH]; cbn [map lget_mod fst snd]; [intros f []|]. destruct (str_eqb k n) eqn:E.
  - apply str_eqb_eq in E. subst k. exists f. split; [left; reflexivity|reflexivity].
  - destruct (lget_mod n _) as [m|].
    + destruct IH as (g & H & ->). exists g. split; [right; exact H|reflexivity].
    + intros g [H|H]; [injection H as -> _; rewrite str_eqb_refl in E; discriminate|exact (IH g H)].
Qed.

(** What a resolved import is. *)
Definition lstands (f : lfile F) (r : lrimport F) : Prop :=
  match r with
  | LRIModule m => exists segs s h t p, imports_from files f (segs ++ [s]) None h t /\ m = lmodule_tree (lf_source h) (ln_text s) p t /\ p ++ [ln_text s] = texts (segs ++ [s])
  | LRIType src n j => exists segs x h t k, imports_from files f segs (Some x) h t /\ src = lf_source h /\ defines t k n /\ ln_text n = ln_text x /\ (k = DkStruct j \/ k = DkEnum j)
  end.
Lemma lone_import_spec (f : lfile F) kw segs el semi : In (LImport kw segs el semi) (body f) -> segs <> [] ->
  match lresolve_one_import ltrees (segs, option_map snd el) with
  | COk r => lstands f r
  | CErr (e, l) => import_problem files f e l
  | CPanic => False
  end.
Proof.
  intros Hin Hne. destruct segs as [|root rest]; [contradiction|]. clear Hne. unfold lresolve_one_import. cbn [fst].
  pose proof (lget_trees (ln_text root)) as Hr. destruct (lget_mod _ _) as [m|]; [|eapply P_no_schema; eassumption].
  destruct Hr as (g & Hg & ->). unfold lresolve_import.
  assert (Hw : match (if (length (root :: rest) <? 2)%nat then COk (lmodule_tree (lf_source g) (ln_text root) [] (body g)) else lwalk IMissingModule ln_loc (lmodule_tree (lf_source g) (ln_text root) [] (body g)) (skipn 1 (root :: rest))) with
    | COk m => exists nm' p' t, lmodule_at (body g) (texts rest) t /\ m = lmodule_tree (lf_source g) nm' p' t /\ p' ++ [nm'] = texts (root :: rest)
    | CErr (e, l) => import_problem files f e l
    | CPanic => False end).
  { destruct (length (root :: rest) <? 2)%nat eqn:E.
    - destruct rest as [|x rest]; [|discriminate E]. exists (ln_text root), [], (body g). split; [constructor|]. auto.
    - cbn [skipn]. pose proof (lwalk_spec IMissingModule ln_loc (lf_source g) rest (ln_text root) [] (body g)) as H. destruct (lwalk _ _ _ _) as [m|[e l]|]; [|  |exact H].
      + exact H.
      + destruct H as (pre & s & post & t & -> & H1 & H2 & -> & ->). eapply P_no_module; eassumption. }
  destruct (if (length (root :: rest) <? 2)%nat then _ else _) as [m|[e l]|]; cbn [cbind]; [|exact Hw|exact Hw].
  destruct Hw as (nm' & p' & t & Ht & -> & Hp).
  assert (Him : imports_from files f (root :: rest) (option_map snd el) g t) by (do 5 eexists; split; [exact Hin|]; auto).
  destruct el as [[c x]|]; cbn [option_map snd] in *.
  - unfold lmodule_tree. cbn [lm_types lm_path lm_schema]. pose proof (lfind_spec (ln_text x) t) as Hf. destruct (lfind_decl _ _) as [[k n]|].
    + destruct Hf as [Hn Hd]. cbn [ld_name ld_kind] in *. destruct k as [j|j| |]; cbn [lstands].
      * exists (root :: rest), x, g, t, (DkStruct j). auto 10.
      * exists (root :: rest), x, g, t, (DkEnum j). auto 10.
      * eapply P_import_kind; eauto.
      * eapply P_import_kind; eauto.
    + rewrite Hp. eapply P_no_definition; eassumption.
  - cbn [lstands]. destruct (exists_last (l := root :: rest)) as (segs & s & E); [discriminate|]. exists segs, s, g, t, p'. rewrite E in *. split; [exact Him|].
    unfold texts in Hp |- *. rewrite map_app in *. cbn [map] in *. apply app_inj_tail in Hp as [-> ->]. split; reflexivity.
Qed.

(** Every import of a tree the parser makes names a schema. *)
Definition rooted (f : lfile F) : Prop := forall kw segs el semi, In (LImport kw segs el semi) (body f) -> segs <> [].
(** The imports stand for what they import, in order. *)
Definition limports_ok (f : lfile F) (rs : list (lrimport F)) : Prop :=
  (forall r, In r rs -> lstands f r)
  /\ (forall kw segs c x semi, In (LImport kw segs (Some (c, x)) semi) (body f) -> exists src n j, In (LRIType src n j) rs /\ ln_text n = ln_text x)
  /\ (forall kw segs s semi, In (LImport kw (segs ++ [s]) None semi) (body f) -> exists m, In (LRIModule m) rs /\ lm_name m = ln_text s).
Lemma lone_import_type segs x r : lresolve_one_import ltrees (segs, Some x) = COk r -> exists src n j, r = LRIType src n j /\ ln_text n = ln_text x.
Proof.
  unfold lresolve_one_import. cbn [fst]. destruct segs as [|root rest]; [discriminate|]. destruct (lget_mod _ _) as [m|]; [|discriminate]. unfold lresolve_import.
  destruct (if (length (root :: rest) <? 2)%nat then _ else _) as [m'|?|]; cbn [cbind]; try discriminate. destruct (lfind_decl _ _) as [[k n]|] eqn:E; [|discriminate]. cbn [ld_kind ld_name].
  unfold lfind_decl in E. apply find_some in E as [_ E]. apply str_eqb_eq in E. destruct k; intros H; try discriminate H; injection H as <-; eauto.
Qed.
Lemma lone_import_module (f : lfile F) kw segs s semi r : In (LImport kw (segs ++ [s]) None semi) (body f) -> lresolve_one_import ltrees (segs ++ [s], None) = COk r -> exists m, r = LRIModule m /\ lm_name m = ln_text s.
Proof.
  intros Hin H. pose proof (lone_import_spec f kw (segs ++ [s]) None semi Hin) as Hs. cbn [option_map] in Hs. rewrite H in Hs. specialize (Hs ltac:(destruct segs; discriminate)).
  unfold lresolve_one_import in H. cbn [fst] in H. destruct (segs ++ [s]) as [|root rest] eqn:Es; [discriminate|]. pose proof (lget_trees (ln_text root)) as Hr. destruct (lget_mod _ _) as [m|]; [|discriminate].
  destruct Hr as (g & Hg & ->). unfold lresolve_import in H. destruct (length (root :: rest) <? 2)%nat eqn:El.
  - destruct rest as [|? ?]; [|discriminate El]. cbn [cbind] in H. injection H as <-. exists (lmodule_tree (lf_source g) (ln_text root) [] (body g)). split; [reflexivity|]. cbn.
    destruct segs as [|? [|? ?]]; try discriminate Es. injection Es as ->. reflexivity.
  - cbn [skipn] in H. pose proof (lwalk_spec IMissingModule ln_loc (lf_source g) rest (ln_text root) [] (body g)) as Hw. destruct (lwalk _ _ _ _) as [m|[e l]|]; cbn [cbind] in H; try discriminate H.
    destruct Hw as (nm' & p' & t & _ & -> & Hp). injection H as <-. eexists. split; [reflexivity|]. cbn. cbn [app] in Hp. change (ln_text root :: texts rest) with (texts (root :: rest)) in Hp. rewrite <- Es in Hp.
    unfold texts in Hp. rewrite map_app in Hp. cbn [map] in Hp. apply app_inj_tail in Hp as [_ ->]. reflexivity.
Qed.
Lemma lcollect_imports_spec (f : lfile F) : rooted f -> forall l, (forall i, In i l -> exists kw el semi, In (LImport kw (fst i) el semi) (body f) /\ snd i = option_map snd el) ->
  match lcollect_imports ltrees l with
  | COk rs => (forall r, In r rs -> lstands f r) /\ (forall i, In i l -> exists r, lresolve_one_import ltrees i = COk r /\ In r rs)
  | CErr (e, lb) => import_problem files f e lb
  | CPanic => False
  end.
Proof.
  intros Hroot. induction l as [|[segs el] l IH]; intros Hl; cbn [lcollect_imports]; [split; intros ? []|].
  destruct (Hl _ (or_introl eq_refl)) as (kw & el' & semi & Hin & E). cbn [fst snd] in *. subst el.
  pose proof (lone_import_spec f kw segs el' semi Hin (Hroot _ _ _ _ Hin)) as H1. destruct (lresolve_one_import _ _) as [r|[e lb]|] eqn:E1; cbn [cbind]; [|exact H1|exact H1].
  specialize (IH (fun i Hi => Hl i (or_intror Hi))). destruct (lcollect_imports _ l) as [rs|[e lb]|]; cbn [cbind]; [|exact IH|exact IH].
  destruct IH as [IH1 IH2]. split; [intros r' [<-|Hr]; auto|]. intros i [<-|Hi]; [exists r; split; [exact E1|left; reflexivity]|]. destruct (IH2 i Hi) as (r' & ? & ?). exists r'. split; [assumption|right; assumption].
Qed.
Lemma in_limports ds segs el : In (segs, el) (flat_map limport_of ds) <-> exists kw el' semi, In (LImport kw segs el' semi) ds /\ el = option_map snd el'.
Proof.
  rewrite in_flat_map. split.
  - intros (d & Hd & H). destruct d; cbn in H; try contradiction. destruct H as [H|[]]. injection H as <- <-. eauto.
  - intros (kw & el' & semi & H & ->). eexists. split; [exact H|left; reflexivity].
Qed.
Lemma lmodule_imports_spec f nm : rooted f ->
  match lresolve_module_imports (lresolve_types nm f) ltrees with
  | COk rs => limports_ok f rs
  | CErr (e, l) => import_problem files f e l
  | CPanic => False
  end.
Proof.
  intros Hroot. unfold lresolve_module_imports, lresolve_types, lmodule_tree. cbn [lm_imports]. fold (body f).
  pose proof (lcollect_imports_spec f Hroot (flat_map limport_of (body f))) as H.
  assert (Hl : forall i, In i (flat_map limport_of (body f)) -> exists kw el semi, In (LImport kw (fst i) el semi) (body f) /\ snd i = option_map snd el).
  { intros [segs el] Hi. apply in_limports in Hi. exact Hi. }
  specialize (H Hl). destruct (lcollect_imports _ _) as [rs|[e l]|]; [|exact H|exact H]. destruct H as [H1 H2]. split; [exact H1|]. split.
  - intros kw segs c x semi Hin. destruct (H2 (segs, Some x)) as (r & Hr & Hi); [apply in_limports; exists kw, (Some (c, x)), semi; auto|].
    destruct (lone_import_type _ _ _ Hr) as (src & n & j & -> & Hn). eauto.
  - intros kw segs s semi Hin. destruct (H2 (segs ++ [s], None)) as (r & Hr & Hi); [apply in_limports; exists kw, None, semi; auto|].
    destruct (lone_import_module f _ _ _ _ _ Hin Hr) as (m & -> & Hn). eauto.
Qed.

Lemma lremotely_spec f rs path name g err lb : limports_ok f rs ->
  match lresolve_type_remotely ((path, name, g), (err, lb)) rs with
  | COk _ => True
  | CErr (ELocal e, l) => e = err /\ l = lb
  | CErr (ERemote e, l) => remote_problem files f (map fst path) name g e l
  | CErr (EImport _, _) => False
  | CPanic => False
  end.
Proof.
  intros (H1 & H2 & H3). unfold lresolve_type_remotely. destruct rs as [|r0 rs0] eqn:Ers; [split; reflexivity|]. rewrite <- Ers in *. clear Ers r0 rs0.
  destruct path as [|[first c] path].
  - unfold lfind_type_import. destruct (find _ rs) as [[m|src x j]|] eqn:E.
    + apply find_some in E as [_ E]. discriminate E.
    + apply find_some in E as [Hin E]. apply str_eqb_eq in E. destruct (H1 _ Hin) as (segs & y & h & t & k & Him & -> & Hd & Hx & Hk).
      destruct (Nat.eqb_spec j (lext_args g)) as [Ej|Ej]; [exact I|]. rewrite lext_args_arguments in *. eapply P_remote_count; eauto. cbn [map]. exists y. split; [reflexivity|congruence].
    + apply P_no_import. cbn [map]. intros kw segs c x semi Hin Hx. destruct (H2 _ _ _ _ _ Hin) as (src & n & j & Hr & Hn). pose proof (find_none _ _ E _ Hr) as Hf. cbn beta iota in Hf.
      rewrite Hn, Hx, str_eqb_refl in Hf. discriminate.
  - cbn [fst]. unfold lfind_module_import. destruct (find _ rs) as [[m|src x j]|] eqn:E.
    + apply find_some in E as [Hin E]. apply str_eqb_eq in E. destruct (H1 _ Hin) as (segs & s & h & t & p & Him & -> & Hp). cbn [lm_name lmodule_tree] in E.
      unfold lresolve_remote. cbn [fst]. unfold lmodule_tree at 1. cbn [lm_name]. rewrite E, str_eqb_refl. cbn [cbind]. unfold lmodule_tree at 1. cbn [lm_types].
      pose proof (lfind_spec (ln_text name) t) as Hf. destruct (lfind_decl _ _) as [[k n]|].
      * destruct Hf as [Hn Hd]. cbn [ld_name ld_kind] in *. destruct k as [j|j| |].
        -- destruct (Nat.eqb_spec j (lext_args g)) as [Ej|Ej]; cbn [map_err cbind on_fst fst snd]; [split; reflexivity|]. rewrite lext_args_arguments in *. eapply P_remote_count; eauto. cbn [map fst]. split; [reflexivity|eauto].
        -- destruct (Nat.eqb_spec j (lext_args g)) as [Ej|Ej]; cbn [map_err cbind on_fst fst snd]; [split; reflexivity|]. rewrite lext_args_arguments in *. eapply P_remote_count; eauto. cbn [map fst]. split; [reflexivity|eauto].
        -- cbn [map_err cbind on_fst fst snd]. eapply P_remote_kind; eauto. reflexivity.
        -- cbn [map_err cbind on_fst fst snd]. eapply P_remote_kind; eauto. reflexivity.
      * cbn [map_err cbind on_fst fst snd]. unfold lmodule_tree. cbn [lm_path]. rewrite <- E, Hp. eapply P_remote_definition; eauto. reflexivity.
    + apply find_some in E as [_ E]. discriminate E.
    + assert (X : remote_problem files f (map fst ((first, c) :: path)) name g (RMissingImport (texts (map fst ((first, c) :: path))) (ln_text name)) (Used (ln_loc name))).
      { apply P_no_import. cbn [map fst]. intros kw segs s semi Hin Hs. destruct (H3 _ _ _ _ Hin) as (m & Hr & Hn). pose proof (find_none _ _ E _ Hr) as Hf. cbn beta iota in Hf.
        rewrite Hn, Hs, str_eqb_refl in Hf. discriminate. }
      unfold texts in X. rewrite map_map in X. exact X.
Qed.

Lemma each_err {A E} (f : A -> cres E unit) l e : each f l = CErr e -> exists x, In x l /\ f x = CErr e.
Proof. induction l as [|x l IH]; cbn; [discriminate|]. destruct (f x) as [|?|] eqn:E1; cbn [cbind]; try discriminate; [intros H; apply IH in H as (y & Hy & H); eauto|]. intros H. injection H as ->. eauto. Qed.
Lemma each_panic {A E} (f : A -> cres E unit) l : each f l = CPanic -> exists x, In x l /\ f x = CPanic.
Proof. induction l as [|x l IH]; cbn; [discriminate|]. destruct (f x) as [|?|] eqn:E1; cbn [cbind]; try discriminate; [intros H; apply IH in H as (y & Hy & H); eauto|]. eauto. Qed.

Lemma lresolve_one_spec order nm f : (forall l x, In x (order l) -> In x l) -> In (nm, f) files -> rooted f ->
  match lresolve_one order ltrees (lresolve_types nm f) with
  | COk _ => True
  | CErr (e, l) => problem files (lf_source f) e l
  | CPanic => False
  end.
Proof.
  intros Ho Hin Hr. unfold lresolve_one. pose proof (lmodule_imports_spec f nm Hr) as Hi. destruct (lresolve_module_imports _ _) as [rs|[e l]|]; cbn [map_err cbind on_fst fst snd].
  - assert (G : forall x, In x (order (lresolve_module_types (lresolve_types nm f))) ->
       match lresolve_type_remotely x rs with COk _ => True | CErr (e, l) => problem files (lf_source f) e l | CPanic => False end).
    { intros [[[path name] g] [e l]] H. apply Ho in H. pose proof (lmissing_inv _ _ _ _ _ _ _ _ _ H) as (at_ & m & d & H1 & H2 & H3 & H4). pose proof (lremotely_spec f rs path name g e l Hi) as Hs.
      destruct (lresolve_type_remotely _ _) as [|[[e'|e'|e'] l']|]; try exact Hs; try exact I.
      - destruct Hs as [-> ->]. eapply P_local; eassumption.
      - destruct Hs.
      - eapply P_remote; eassumption. }
    destruct (each _ _) as [|[e l]|] eqn:E; [exact I| |].
    + apply each_err in E as (x & Hx & E). specialize (G _ Hx). rewrite E in G. exact G.
    + apply each_panic in E as (x & Hx & E). specialize (G _ Hx). rewrite E in G. exact G.
  - eapply P_import; eassumption.
  - exact Hi.
Qed.
Lemma lresolve_schemas_spec order : (forall l x, In x (order l) -> In x l) -> (forall nm f, In (nm, f) files -> rooted f) ->
  match lresolve_schemas order files with
  | COk _ => True
  | CErr (src, (e, l)) => problem files src e l
  | CPanic => False
  end.
Proof.
  intros Ho Hr. unfold lresolve_schemas. fold ltrees. destruct (each _ _) as [|[src [e l]]|] eqn:E; [exact I| |].
  - apply each_err in E as ([nm f] & Hx & E). cbn [fst snd] in E. pose proof (lresolve_one_spec order nm f Ho Hx (Hr _ _ Hx)) as H. destruct (lresolve_one _ _ _) as [|[e' l']|]; cbn [map_err] in E; try discriminate E.
    injection E as <- <- <-. exact H.
  - apply each_panic in E as ([nm f] & Hx & E). cbn [fst snd] in E. pose proof (lresolve_one_spec order nm f Ho Hx (Hr _ _ Hx)) as H. destruct (lresolve_one _ _ _) as [|[e' l']|]; cbn [map_err] in E; try discriminate E. exact H.
Qed.
End Problems.
