(** Without the locations, the resolver of LResolve.v is the one of Resolve.v. *)
From Verif Require Import Base Syntax Parser Compiler Resolve ResolveProofs Lsp SpanParser SpanProofs SpanTypes SpanLsp NameSpec DiagnoseProofs LResolve LResolveSpec LResolveProofs.
Local Open Scope N_scope.

Definition er_args (g : option ((loc * loc) * lpunct lty)) : option (punct pty) := option_map (fun x => p_map (fun e => er_ty (fst e)) (snd x)) g.
Definition er_ext (e : lext) : ext := let '(path, name, g) := e in (map (fun x => ln_text (fst x)) path, ln_text name, er_args g).
Definition er_missing (x : lext * (lerr * labels)) : ext * lerr := (er_ext (fst x), fst (snd x)).
(** A result without the labels of its error. *)
Definition no_labels {E L A B} (f : A -> B) (r : cres (E * L) A) : cres E B :=
  match r with COk a => COk (f a) | CErr (e, _) => CErr e | CPanic => CPanic end.

Lemma flat_map_er {A A' B B'} (f : A -> list B) (f' : A' -> list B') (ea : A -> A') (eb : B -> B') l :
  (forall x, In x l -> f' (ea x) = map eb (f x)) -> flat_map f' (map ea l) = map eb (flat_map f l).
Proof.
  induction l as [|x l IH]; intros H; cbn; [reflexivity|]. rewrite map_app, H by (left; reflexivity). f_equal. apply IH. intros y Hy. apply H. right. exact Hy.
Qed.
Lemma er_externals t : externals (er_ty t) = map er_ext (lexternals t).
Proof.
  induction t as [s p|s k kw o c t IH|s kw o c k m v IHk IHv|s o c l x b Hl Hx|s o c t m n IH|s path n|s path n [o c] l x b Hl Hx] using lty_ind2; cbn [er_ty externals lexternals]; try reflexivity.
  - destruct k; cbn [er_ty externals lexternals]; try exact IH. reflexivity.
  - rewrite map_app, IHk, IHv. reflexivity.
  - rewrite map_app, Hx. f_equal. apply (flat_map_er (fun e => lexternals (fst e)) externals (fun e => er_ty (fst e))). intros e He. apply Hl. exact He.
  - exact IH.
  - cbn [map er_ext]. unfold er_args. cbn [option_map snd p_map]. f_equal. rewrite map_app, Hx. f_equal. apply (flat_map_er (fun e => lexternals (fst e)) externals (fun e => er_ty (fst e))). intros e He. apply Hl. exact He.
Qed.
Lemma er_ext_args g : ext_args (er_args g) = lext_args g.
Proof. destruct g as [[s g]|]; [|reflexivity]. cbn. apply p_len_map. Qed.

Section Erase.
Context {F : Type}.
Implicit Types (ds : list (ldef F)).

Definition er_decl (d : ldecl) : decl := Decl (ld_kind d) (ln_text (ld_name d)).
Definition er_import (i : limport) : list str * option str := (map ln_text (fst i), option_map ln_text (snd i)).
Fixpoint er_mod (m : lmod F) : rmod F :=
  match m with
  | LMod n _ p i t subs ds => RMod n p (map er_import i) (map er_decl t) (map (fun e => (fst e, er_mod (snd e))) subs) (map er_def ds)
  end.
Definition er_entry (e : str * lmod F) : str * rmod F := (fst e, er_mod (snd e)).
Definition er_rimport (r : lrimport F) : rimport F := match r with LRIModule m => RIModule (er_mod m) | LRIType _ n k => RIType (ln_text n) k end.

Lemma er_m_modules m : m_modules (er_mod m) = map er_entry (lm_modules m).
Proof. destruct m. reflexivity. Qed.
Lemma er_m_path m : m_path (er_mod m) = lm_path m.
Proof. destruct m. reflexivity. Qed.
Lemma er_m_name m : m_name (er_mod m) = lm_name m.
Proof. destruct m. reflexivity. Qed.
Lemma er_m_types m : m_types (er_mod m) = map er_decl (lm_types m).
Proof. destruct m. reflexivity. Qed.
Lemma er_m_imports m : m_imports (er_mod m) = map er_import (lm_imports m).
Proof. destruct m. reflexivity. Qed.

Lemma er_get n (l : list (str * lmod F)) : get_mod n (map er_entry l) = option_map er_mod (lget_mod n l).
Proof. induction l as [|[k m] l IH]; cbn [map get_mod lget_mod er_entry fst snd]; [reflexivity|]. destruct (str_eqb k n); [reflexivity|exact IH]. Qed.
Lemma er_insert l e : map er_entry (linsert_mod l e) = insert_mod (map er_entry l) (er_entry e).
Proof.
  unfold linsert_mod, insert_mod. rewrite map_app. cbn [map]. f_equal. induction l as [|x l IH]; cbn [filter map]; [reflexivity|].
  change (fst (er_entry x)) with (fst x). change (fst (er_entry e)) with (fst e). destruct (negb _); cbn [map]; [f_equal|]; exact IH.
Qed.
Lemma er_collect l : map er_entry (lcollect l) = collect (map (option_map er_entry) l).
Proof.
  unfold lcollect, collect. change (@nil (str * rmod F)) with (map er_entry []). generalize (@nil (str * lmod F)) as acc. induction l as [|o l IH]; intros acc; cbn [fold_left map]; [reflexivity|].
  rewrite IH. f_equal. destruct o as [e|]; cbn [option_map]; [apply er_insert|reflexivity].
Qed.
Lemma er_decls ds : flat_map decl_of (map er_def ds) = map er_decl (flat_map ldecl_of ds).
Proof. apply flat_map_er. intros [ | ? ? ? ? [g|] | ? ? ? ? [g|] | | | ] _; cbn [er_def decl_of ldecl_of map er_decl ld_kind ld_name er_generics option_map count lcount]; rewrite ?p_len_map; reflexivity. Qed.
Lemma er_imports ds : flat_map import_of (map er_def ds) = map er_import (flat_map limport_of ds).
Proof. apply flat_map_er. intros [ | | | | |kw segs [[c x]|] semi] _; reflexivity. Qed.
Lemma er_module_of src (d : ldef F) : forall p, module_of p (er_def d) = option_map er_entry (lmodule_of src p d).
Proof.
  induction d as [c kw n o e ds IH|c a kw n g fs|c a kw n g o e vs|c kw n g e t m|c kw n k t e v vl m|kw segs el m] using ldef_ind2; intros p; try reflexivity.
  cbn [er_def module_of lmodule_of option_map]. f_equal. unfold er_entry at 1. cbn [fst snd er_mod]. f_equal. rewrite er_imports, er_decls. f_equal.
  change (collect (map (module_of (p ++ [ln_text n])) (map er_def ds)) = map er_entry (lcollect (map (lmodule_of src (p ++ [ln_text n])) ds))).
  rewrite er_collect, !map_map. f_equal. apply map_ext_in. intros x Hx. apply IH. exact Hx.
Qed.
Lemma er_tree src n p ds : er_mod (lmodule_tree src n p ds) = module_tree n p (map er_def ds).
Proof.
  unfold lmodule_tree, module_tree. cbn [er_mod]. rewrite er_imports, er_decls. f_equal.
  change (map er_entry (lcollect (map (lmodule_of src (p ++ [n])) ds)) = collect (map (module_of (p ++ [n])) (map er_def ds))).
  rewrite er_collect, !map_map. f_equal. apply map_ext. intros x. symmetry. apply er_module_of.
Qed.

Lemma er_walk {E} (miss : str -> list str -> E) used path : forall m, walk miss (er_mod m) (map ln_text path) = no_labels er_mod (lwalk miss used m path).
Proof.
  induction path as [|n path IH]; intros m; cbn [map walk lwalk]; [reflexivity|]. rewrite er_m_modules, er_get. destruct (lget_mod _ _) as [m'|]; cbn [option_map]; [apply IH|]. rewrite er_m_path. reflexivity.
Qed.
Lemma er_find n l : find_decl n (map er_decl l) = option_map er_decl (lfind_decl n l).
Proof. unfold find_decl, lfind_decl. induction l as [|d l IH]; cbn [map find]; [reflexivity|]. change (d_name (er_decl d)) with (ln_text (ld_name d)). destruct (str_eqb _ _); [reflexivity|exact IH]. Qed.

Lemma er_local m e : resolve_local (er_mod m) (er_ext e) = no_labels (fun x => x) (lresolve_local m e).
Proof.
  destruct e as [[path name] g]. unfold resolve_local, lresolve_local, er_ext. rewrite <- map_map, (er_walk _ (fun _ => ln_loc name)). destruct (lwalk _ _ _ _) as [m'|[e l]|]; cbn [no_labels cbind]; try reflexivity.
  rewrite er_m_types, er_find, er_m_path, er_ext_args. destruct (lfind_decl _ _) as [[k n]|]; cbn [option_map er_decl d_kind ld_kind ld_name]; [|reflexivity]. destruct k; try reflexivity; destruct (_ =? _)%nat; reflexivity.
Qed.
Lemma er_import_ok m i : resolve_import (er_mod m) (er_import i) = no_labels er_rimport (lresolve_import m i).
Proof.
  destruct i as [segs el]. unfold resolve_import, lresolve_import, er_import. cbn [fst snd]. rewrite map_length, skipn_map.
  assert (H : (if (length segs <? 2)%nat then COk (er_mod m) else walk IMissingModule (er_mod m) (map ln_text (skipn 1 segs))) = no_labels er_mod (if (length segs <? 2)%nat then COk m else lwalk IMissingModule ln_loc m (skipn 1 segs))).
  { destruct (length segs <? 2)%nat; [reflexivity|]. apply er_walk. }
  rewrite H. destruct (if (length segs <? 2)%nat then COk m else _) as [m'|[e l]|]; cbn [no_labels cbind]; try reflexivity. destruct el as [n|]; cbn [option_map]; [|reflexivity].
  rewrite er_m_types, er_find, er_m_path. destruct (lfind_decl _ _) as [[k x]|]; cbn [option_map er_decl d_kind d_name ld_kind ld_name]; [|reflexivity]. destruct k; reflexivity.
Qed.
Lemma er_remote m e : resolve_remote (er_mod m) (er_ext e) = no_labels (fun x => x) (lresolve_remote m e).
Proof.
  destruct e as [[path name] g]. unfold resolve_remote, lresolve_remote, er_ext.
  assert (H : match map (fun x => ln_text (fst x)) path with
     | first :: _ => if str_eqb first (m_name (er_mod m)) then COk (er_mod m) else walk RMissingModule (er_mod m) (map (fun x => ln_text (fst x)) path)
     | [] => walk RMissingModule (er_mod m) (map (fun x => ln_text (fst x)) path) end
     = no_labels er_mod (match path with
         | first :: _ => if str_eqb (ln_text (fst first)) (lm_name m) then COk m else lwalk RMissingModule (fun _ => ln_loc name) m (map fst path)
         | [] => lwalk RMissingModule (fun _ => ln_loc name) m (map fst path) end)).
  { rewrite er_m_name. rewrite <- (map_map fst ln_text path), (er_walk _ (fun _ => ln_loc name)). destruct path as [|x path]; cbn [map]; [reflexivity|]. destruct (str_eqb _ _); reflexivity. }
  rewrite H. clear H. set (r := match path with [] => _ | _ => _ end). destruct r as [m'|[e l]|]; cbn [no_labels cbind]; try reflexivity.
  rewrite er_m_types, er_find, er_m_path, er_ext_args. destruct (lfind_decl _ _) as [[k n]|]; cbn [option_map er_decl d_kind ld_kind ld_name]; [|reflexivity]. destruct k; try reflexivity; destruct (_ =? _)%nat; reflexivity.
Qed.

Lemma er_is_generic e g : is_generic (er_ext e) (er_generics g) = lis_generic e g.
Proof.
  destruct e as [[path name] a]. unfold is_generic, lis_generic, er_ext. destruct path as [|x path]; cbn [map]; [|reflexivity]. destruct a as [a|]; cbn [er_args option_map]; [reflexivity|].
  destruct g as [g|]; cbn [er_generics option_map]; [|reflexivity]. rewrite p_values_er, map_map. induction (p_values g) as [|y l IH]; cbn [map existsb]; [reflexivity|]. rewrite IH. reflexivity.
Qed.
Lemma er_missing_in m g t : missing_in (er_mod m) (er_generics g) (er_ty t) = map er_missing (lmissing_in m g t).
Proof.
  unfold missing_in, lmissing_in. rewrite er_externals. apply flat_map_er. intros e _. rewrite er_is_generic, er_local. destruct (lis_generic e g); [reflexivity|]. destruct (lresolve_local m e) as [|[x l]|]; reflexivity.
Qed.
Lemma er_missing_fields m g fs : flat_map (missing_in (er_mod m) (er_generics g)) (field_types (er_fields fs)) = map er_missing (lmissing_fields m g fs).
Proof.
  destruct fs as [o c l|o c l|]; cbn [er_fields field_types lmissing_fields]; [| |reflexivity]; rewrite p_values_er, !map_map.
  - apply (flat_map_er (fun f => lmissing_in m g (lnf_ty (fst f))) _ (fun f => er_ty (lnf_ty (fst f)))). intros f _. apply er_missing_in.
  - apply (flat_map_er (fun f => lmissing_in m g (luf_ty (fst f))) _ (fun f => er_ty (luf_ty (fst f)))). intros f _. apply er_missing_in.
Qed.
Lemma er_missing_def m d : missing_def (er_mod m) (er_def d) = map er_missing (lmissing_def m d).
Proof.
  destruct d as [ |c a kw n g fs|c a kw n g o e vs| | | ]; cbn [er_def missing_def lmissing_def]; try reflexivity; [apply er_missing_fields|].
  rewrite p_values_er, map_map. apply (flat_map_er (fun v => lmissing_fields m g (lv_fields (fst v))) _ (fun v => er_variant (fst v))). intros v _. apply er_missing_fields.
Qed.
Lemma er_module_types src ds : forall nm p, resolve_module_types (er_mod (lmodule_tree src nm p ds)) = map er_missing (lresolve_module_types (lmodule_tree src nm p ds)).
Proof.
  induction ds as [ds IH] using ldefs_ind. intros nm p. unfold lmodule_tree at 2. cbn [lresolve_module_types]. fold (lmodule_tree src nm p ds). rewrite map_app. unfold lmodule_tree at 1. cbn [er_mod resolve_module_types]. fold er_entry.
  f_equal.
  - change (flat_map (missing_def (er_mod (lmodule_tree src nm p ds))) (map er_def ds) = map er_missing (flat_map (lmissing_def (lmodule_tree src nm p ds)) ds)).
    apply flat_map_er. intros d _. apply er_missing_def.
  - apply (flat_map_er (fun p => lresolve_module_types (snd p)) (fun p => resolve_module_types (snd p)) er_entry). intros [k m] Hk. apply in_lcollect in Hk as (c & kw & x & o & e & sub & Hin & -> & ->). exact (IH _ _ _ _ _ _ Hin _ _).
Qed.

Lemma er_one_import schemas i : resolve_one_import (map er_entry schemas) (er_import i) = no_labels er_rimport (lresolve_one_import schemas i).
Proof.
  destruct i as [segs el]. unfold resolve_one_import, lresolve_one_import, find_schema. cbn [er_import fst]. destruct segs as [|root rest]; cbn [map]; [reflexivity|]. rewrite er_get. destruct (lget_mod _ _) as [m|]; cbn [option_map]; [|reflexivity].
  apply (er_import_ok m (root :: rest, el)).
Qed.
Lemma er_collect_imports schemas l : collect_imports (map er_entry schemas) (map er_import l) = no_labels (map er_rimport) (lcollect_imports schemas l).
Proof.
  induction l as [|i l IH]; cbn [map collect_imports lcollect_imports]; [reflexivity|]. rewrite er_one_import. destruct (lresolve_one_import _ _) as [r|[e lb]|]; cbn [no_labels cbind]; try reflexivity.
  rewrite IH. destruct (lcollect_imports _ _) as [rs|[e lb]|]; reflexivity.
Qed.
Lemma er_find_module n l : find_module_import n (map er_rimport l) = option_map er_mod (lfind_module_import n l).
Proof.
  unfold find_module_import, lfind_module_import. induction l as [|[m|s x k] l IH]; cbn [map find er_rimport]; [reflexivity| |exact IH]. rewrite er_m_name. destruct (str_eqb _ _); [reflexivity|exact IH].
Qed.
Lemma er_find_type n l : find_type_import n (map er_rimport l) = option_map snd (lfind_type_import n l).
Proof.
  unfold find_type_import, lfind_type_import. induction l as [|[m|s x k] l IH]; cbn [map find er_rimport]; [reflexivity|exact IH|]. destruct (str_eqb _ _); [reflexivity|exact IH].
Qed.
Lemma er_remotely t imports : resolve_type_remotely (er_missing t) (map er_rimport imports) = no_labels (fun x => x) (lresolve_type_remotely t imports).
Proof.
  destruct t as [[[path name] g] [err l]]. unfold resolve_type_remotely, lresolve_type_remotely, er_missing. cbn [fst snd er_ext].
  destruct imports as [|r0 rs] eqn:E; [reflexivity|]. change (map er_rimport (r0 :: rs)) with (er_rimport r0 :: map er_rimport rs). cbv iota. change (er_rimport r0 :: map er_rimport rs) with (map er_rimport (r0 :: rs)). rewrite <- E. clear E r0 rs.
  destruct path as [|[first c] path]; cbn [map fst].
  - rewrite er_find_type, er_ext_args. destruct (lfind_type_import _ _) as [[[s x] k]|]; cbn [option_map snd]; [|reflexivity]. destruct (_ =? _)%nat; reflexivity.
  - rewrite er_find_module. destruct (lfind_module_import _ _) as [m|]; cbn [option_map]; [|reflexivity]. pose proof (er_remote m ((first, c) :: path, name, g)) as H. cbn [er_ext map fst] in H. rewrite H.
    destruct (lresolve_remote _ _) as [|[e lb]|]; reflexivity.
Qed.
Lemma er_each {A A' E L} (f : A -> cres (E * L) unit) (f' : A' -> cres E unit) (ea : A -> A') l :
  (forall x, f' (ea x) = no_labels (fun x => x) (f x)) -> each f' (map ea l) = no_labels (fun x => x) (each f l).
Proof. intros H. induction l as [|x l IH]; cbn [map each]; [reflexivity|]. rewrite H. destruct (f x) as [u|[e lb]|]; cbn [no_labels cbind]; [exact IH| |]; reflexivity. Qed.

Definition er_files (values : list (str * lfile F)) : list (str * pschema F) := map (fun v => (fst v, er_schema (lf_schema (snd v)))) values.
Lemma er_schemas order order' (values : list (str * lfile F)) : (forall l, map er_missing (order l) = order' (map er_missing l)) ->
  match lresolve_schemas order values with COk _ => COk tt | CErr (_, (e, _)) => CErr e | CPanic => CPanic end = resolve_schemas order' (er_files values).
Proof.
  intros Ho. unfold lresolve_schemas, resolve_schemas, er_files. rewrite map_map. cbn [fst snd]. set (ms := map (fun v => (fst v, lresolve_types (fst v) (snd v))) values).
  assert (Hms : map (fun v : str * lfile F => (fst v, resolve_types (fst v) (er_schema (lf_schema (snd v))))) values = map er_entry ms).
  { unfold ms. rewrite map_map. apply map_ext. intros [n f]. unfold er_entry, lresolve_types, resolve_types. cbn [fst snd er_schema ps_defs]. rewrite er_tree. reflexivity. }
  rewrite Hms.
  assert (Hone : forall n f, resolve_one order' (map er_entry ms) (er_mod (lresolve_types n f)) = no_labels (fun x => x) (lresolve_one order ms (lresolve_types n f))).
  { intros n f. unfold resolve_one, lresolve_one, resolve_module_imports, lresolve_module_imports. rewrite er_m_imports, er_collect_imports. destruct (lcollect_imports _ _) as [rs|[e l]|]; cbn [no_labels map_err cbind]; try reflexivity.
    unfold lresolve_types at 1. rewrite er_module_types, <- Ho. apply er_each. intros x. apply er_remotely. }
  assert (Hl : forall l : list (str * lfile F), match each (fun v => map_err (pair (lf_source (snd v))) (lresolve_one order ms (lresolve_types (fst v) (snd v)))) l with COk _ => COk tt | CErr (_, (e, _)) => CErr e | CPanic => CPanic end
     = each (fun v => resolve_one order' (map er_entry ms) (snd v)) (map er_entry (map (fun v => (fst v, lresolve_types (fst v) (snd v))) l))).
  { induction l as [|[n f] l IH]; cbn [map each er_entry fst snd]; [reflexivity|]. rewrite Hone. destruct (lresolve_one _ _ _) as [[]|[e lb]|]; cbn [map_err no_labels cbind]; [exact IH| |]; reflexivity. }
  unfold ms at 2. exact (Hl values).
Qed.
End Erase.
