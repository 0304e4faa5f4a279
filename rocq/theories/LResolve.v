(** Type resolution with source locations: crates/mabo-compiler/src/resolve.

    Resolve.v again, over the located syntax tree of SpanParser.v and with the files whose text the errors show;
    [LResolveProofs.v] proves that without the locations the results are those of Resolve.v. *)
From Verif Require Import Base Syntax Parser Compiler Resolve Lsp SpanParser.
Local Open Scope N_scope.

(** miette [NamedSource]: the path of a schema (none is shown as [<unknown>]) and its text. *)
Definition source := (option str * str)%type.
(** mabo-parser lib.rs [Schema]: path, source text and definitions. *)
Record lfile (F : Type) := LFile { lf_source : source; lf_schema : lschema F }.
Arguments LFile {F} lf_source lf_schema.
Arguments lf_source {F} l.
Arguments lf_schema {F} l.

(** resolve/error.rs L125-318: the labels of an error.  [used] and, if the declaration is a label of the same diagnostic,
    [declared] are shown in the text of the schema the error is reported for; a related declaration brings its own source. *)
Inductive labels :=
| Used (used : loc)
| UsedDeclared (used declared : loc)
| UsedRelated (used : loc) (other : source) (declared : loc).

(** An external type: path, name and type arguments. *)
Definition lext := (list (lname * loc) * lname * option ((loc * loc) * lpunct lty))%type.
(** [ty.generics.as_ref().map_or(0, Punctuated::len)] *)
Definition lext_args (g : option ((loc * loc) * lpunct lty)) : nat := match g with Some (_, ts) => p_len ts | None => 0 end.
(** resolve/mod.rs L457-504 [visit_externals]. *)
Fixpoint lexternals (t : lty) : list lext :=
  match t with
  | LTPrim _ _ | LTOne _ KNonZero _ _ _ _ => []
  | LTOne _ _ _ _ _ t | LTArray _ _ _ t _ _ => lexternals t
  | LTMap _ _ _ _ k _ v => lexternals k ++ lexternals v
  | LTTuple _ _ _ (Punct l x _) => flat_map (fun e => lexternals (fst e)) l ++ lexternals (fst x)
  | LTExt _ path name g =>
      (path, name, g) ::
      match g with
      | Some (_, Punct l x _) => flat_map (fun e => lexternals (fst e)) l ++ lexternals (fst x)
      | None => []
      end
  end.

(** resolve/mod.rs L94-107 [Declaration]. *)
Record ldecl := LDecl { ld_kind : dkind; ld_name : lname }.
Definition limport := (list lname * option lname)%type.

Section LResolve.
Context {F : Type}.

(** resolve/mod.rs L75-90 [Module]; of the schema only what errors show. *)
Inductive lmod := LMod (name : str) (schema : source) (path : list str) (imports : list limport)
  (types : list ldecl) (modules : list (str * lmod)) (definitions : list (ldef F)).
Definition lm_name (m : lmod) : str := let 'LMod n _ _ _ _ _ _ := m in n.
Definition lm_schema (m : lmod) : source := let 'LMod _ s _ _ _ _ _ := m in s.
Definition lm_path (m : lmod) : list str := let 'LMod _ _ p _ _ _ _ := m in p.
Definition lm_imports (m : lmod) : list limport := let 'LMod _ _ _ i _ _ _ := m in i.
Definition lm_types (m : lmod) : list ldecl := let 'LMod _ _ _ _ t _ _ := m in t.
Definition lm_modules (m : lmod) : list (str * lmod) := let 'LMod _ _ _ _ _ s _ := m in s.

(** [HashMap::get], [HashMap::insert]. *)
Fixpoint lget_mod (n : str) (l : list (str * lmod)) : option lmod :=
  match l with
  | [] => None
  | (k, m) :: l' => if str_eqb k n then Some m else lget_mod n l'
  end.
Definition linsert_mod (l : list (str * lmod)) (e : str * lmod) : list (str * lmod) :=
  filter (fun p => negb (str_eqb (fst p) (fst e))) l ++ [e].

(** [generics.as_ref().map_or(0, |g| g.types.len())] *)
Definition lcount (g : option lgenerics) : nat := match g with Some g => p_len g | None => 0 end.

(** resolve/mod.rs L423-452: the loop over the definitions of a module. *)
Definition ldecl_of (d : ldef F) : list ldecl :=
  match d with
  | LStruct _ _ _ n g _ => [LDecl (DkStruct (lcount g)) n]
  | LEnum _ _ _ n g _ _ _ => [LDecl (DkEnum (lcount g)) n]
  | LAlias _ _ n _ _ _ _ => [LDecl DkAlias n]
  | LConst _ _ n _ _ _ _ _ _ => [LDecl DkConst n]
  | LModule _ _ _ _ _ _ | LImport _ _ _ _ => []
  end.
Definition limport_of (d : ldef F) : list limport :=
  match d with LImport _ segs e _ => [(segs, option_map snd e)] | _ => [] end.
Definition lcollect (l : list (option (str * lmod))) : list (str * lmod) :=
  fold_left (fun acc o => match o with Some e => linsert_mod acc e | None => acc end) l [].

(** resolve/mod.rs L397-453 [visit_module_tree]. *)
Fixpoint lmodule_of (s : source) (path : list str) (d : ldef F) : option (str * lmod) :=
  match d with
  | LModule _ _ n _ _ ds =>
      Some (ln_text n, LMod (ln_text n) s (path ++ [ln_text n]) (flat_map limport_of ds) (flat_map ldecl_of ds)
                 (lcollect (map (lmodule_of s (path ++ [ln_text n])) ds)) ds)
  | _ => None
  end.
Definition lmodule_tree (s : source) (name : str) (path : list str) (ds : list (ldef F)) : lmod :=
  LMod name s (path ++ [name]) (flat_map limport_of ds) (flat_map ldecl_of ds)
    (lcollect (map (lmodule_of s (path ++ [name])) ds)) ds.
(** resolve/mod.rs L389-391 [resolve_types]. *)
Definition lresolve_types (name : str) (f : lfile F) : lmod := lmodule_tree (lf_source f) name [] (ls_defs (lf_schema f)).

(** The [try_fold] over path segments; [used n] is the location given for the segment [n]. *)
Fixpoint lwalk {E} (miss : str -> list str -> E) (used : lname -> loc) (m : lmod) (path : list lname) : cres (E * labels) lmod :=
  match path with
  | [] => COk m
  | n :: p => match lget_mod (ln_text n) (lm_modules m) with
              | Some m' => lwalk miss used m' p
              | None => CErr (miss (ln_text n) (lm_path m), Used (used n))
              end
  end.
Definition lfind_decl (n : str) (l : list ldecl) : option ldecl := find (fun d => str_eqb (ln_text (ld_name d)) n) l.

(** resolve/mod.rs L133-176 [resolve_local]: also for a missing module the location is the one of the type's name. *)
Definition lresolve_local (m : lmod) (e : lext) : cres (lerr * labels) unit :=
  let '(path, name, g) := e in
  cbind (lwalk LMissingModule (fun _ => ln_loc name) m (map fst path)) (fun m' =>
  match lfind_decl (ln_text name) (lm_types m') with
  | None => CErr (LMissingDefinition (ln_text name) (lm_path m'), Used (ln_loc name))
  | Some d =>
      match ld_kind d with
      | DkStruct k | DkEnum k =>
          if (k =? lext_args g)%nat then COk tt
          else CErr (LGenericsCount k (lext_args g), UsedDeclared (ln_loc name) (ln_loc (ld_name d)))
      | k => CErr (LInvalidKind k, UsedDeclared (ln_loc name) (ln_loc (ld_name d)))
      end
  end).

(** resolve/mod.rs L124-131 [ResolvedImport]. *)
Inductive lrimport := LRIModule (m : lmod) | LRIType (schema : source) (name : lname) (generics : nat).

(** resolve/mod.rs L178-230 [resolve_import]: here the location is the one of the segment. *)
Definition lresolve_import (m : lmod) (i : limport) : cres (ierr * labels) lrimport :=
  let '(segs, el) := i in
  cbind (if (length segs <? 2)%nat then COk m else lwalk IMissingModule ln_loc m (skipn 1 segs)) (fun m' =>
  match el with
  | None => COk (LRIModule m')
  | Some n =>
      match lfind_decl (ln_text n) (lm_types m') with
      | None => CErr (IMissingDefinition (ln_text n) (lm_path m'), Used (ln_loc n))
      | Some d =>
          match ld_kind d with
          | DkStruct k | DkEnum k => COk (LRIType (lm_schema m) (ld_name d) k)
          | k => CErr (IInvalidKind k, UsedDeclared (ln_loc n) (ln_loc (ld_name d)))
          end
      end
  end).

(** resolve/mod.rs L232-314 [resolve_remote]. *)
Definition lresolve_remote (m : lmod) (e : lext) : cres (remerr * labels) unit :=
  let '(path, name, g) := e in
  cbind (match path with
         | first :: _ => if str_eqb (ln_text (fst first)) (lm_name m) then COk m
                         else lwalk RMissingModule (fun _ => ln_loc name) m (map fst path)
         | [] => lwalk RMissingModule (fun _ => ln_loc name) m (map fst path)
         end) (fun m' =>
  match lfind_decl (ln_text name) (lm_types m') with
  | None => CErr (RMissingDefinition (ln_text name) (lm_path m'), Used (ln_loc name))
  | Some d =>
      match ld_kind d with
      | DkStruct k | DkEnum k =>
          if (k =? lext_args g)%nat then COk tt
          else CErr (RGenericsCount k (lext_args g), UsedRelated (ln_loc name) (lm_schema m) (ln_loc (ld_name d)))
      | k => CErr (RInvalidKind k, UsedRelated (ln_loc name) (lm_schema m) (ln_loc (ld_name d)))
      end
  end).

(** resolve/mod.rs L326-332 [is_generic]. *)
Definition lis_generic (e : lext) (g : option lgenerics) : bool :=
  match e with
  | ([], n, None) => match g with Some g => existsb (fun p => str_eqb (ln_text (fst p)) (ln_text n)) (p_values g) | None => false end
  | _ => false
  end.
(** resolve/mod.rs L334-346 [resolve]. *)
Definition lmissing_in (m : lmod) (g : option lgenerics) (t : lty) : list (lext * (lerr * labels)) :=
  flat_map (fun e => if lis_generic e g then []
                     else match lresolve_local m e with CErr x => [(e, x)] | _ => [] end) (lexternals t).
(** resolve/mod.rs L348-367 [resolve_fields], L369-381. *)
Definition lmissing_fields (m : lmod) (g : option lgenerics) (fs : lfields) : list (lext * (lerr * labels)) :=
  match fs with
  | LFNamed _ _ l => flat_map (fun f => lmissing_in m g (lnf_ty (fst f))) (p_values l)
  | LFUnnamed _ _ l => flat_map (fun f => lmissing_in m g (luf_ty (fst f))) (p_values l)
  | LFUnit => []
  end.
Definition lmissing_def (m : lmod) (d : ldef F) : list (lext * (lerr * labels)) :=
  match d with
  | LStruct _ _ _ _ g fs => lmissing_fields m g fs
  | LEnum _ _ _ _ g _ _ vs => flat_map (fun v => lmissing_fields m g (lv_fields (fst v))) (p_values vs)
  | _ => []
  end.
(** resolve/mod.rs L322-387 [resolve_module_types].  The order in which submodules are visited is left to [schemas]. *)
Fixpoint lresolve_module_types (m : lmod) : list (lext * (lerr * labels)) :=
  match m with
  | LMod _ _ _ _ _ subs ds =>
      flat_map (lmissing_def m) ds ++ flat_map (fun p => lresolve_module_types (snd p)) subs
  end.

(** resolve/mod.rs L506-526 [resolve_module_imports]. *)
Definition lresolve_one_import (schemas : list (str * lmod)) (i : limport) : cres (ierr * labels) lrimport :=
  match fst i with
  | [] => CPanic
  | root :: _ =>
      match lget_mod (ln_text root) schemas with
      | None => CErr (IMissingSchema (ln_text root), Used (ln_loc root))
      | Some m => lresolve_import m i
      end
  end.
Fixpoint lcollect_imports (schemas : list (str * lmod)) (l : list limport) : cres (ierr * labels) (list lrimport) :=
  match l with
  | [] => COk []
  | i :: l' => cbind (lresolve_one_import schemas i) (fun r =>
               cbind (lcollect_imports schemas l') (fun rs => COk (r :: rs)))
  end.
Definition lresolve_module_imports (m : lmod) (schemas : list (str * lmod)) : cres (ierr * labels) (list lrimport) :=
  lcollect_imports schemas (lm_imports m).

(** resolve/mod.rs L528-602 [resolve_type_remotely]. *)
Definition lfind_module_import (n : str) (l : list lrimport) : option lmod :=
  match find (fun i => match i with LRIModule m => str_eqb (lm_name m) n | LRIType _ _ _ => false end) l with
  | Some (LRIModule m) => Some m
  | _ => None
  end.
Definition lfind_type_import (n : str) (l : list lrimport) : option (source * lname * nat) :=
  match find (fun i => match i with LRIModule _ => false | LRIType _ x _ => str_eqb (ln_text x) n end) l with
  | Some (LRIType s x k) => Some (s, x, k)
  | _ => None
  end.
Definition on_fst {A B C} (f : A -> B) (p : A * C) : B * C := (f (fst p), snd p).
Definition lresolve_type_remotely (t : lext * (lerr * labels)) (imports : list lrimport) : cres (rerr * labels) unit :=
  let '((path, name, g), err) := t in
  match imports with
  | [] => CErr (on_fst ELocal err)
  | _ =>
      match path with
      | first :: _ =>
          match lfind_module_import (ln_text (fst first)) imports with
          | Some m => cbind (map_err (on_fst ERemote) (lresolve_remote m (path, name, g))) (fun _ => CErr (on_fst ELocal err))
          | None => CErr (ERemote (RMissingImport (map (fun e => ln_text (fst e)) path) (ln_text name)), Used (ln_loc name))
          end
      | [] =>
          match lfind_type_import (ln_text name) imports with
          | Some (s, x, k) =>
              if (k =? lext_args g)%nat then COk tt
              else CErr (ERemote (RGenericsCount k (lext_args g)), UsedRelated (ln_loc name) s (ln_loc x))
          | None => CErr (ERemote (RMissingImport [] (ln_text name)), Used (ln_loc name))
          end
      end
  end.

(** resolve/mod.rs L33-73 [schemas]: the error with the source of the schema it was found in.  [order] permutes the missing
    types of a schema as the hash map of submodules happens to. *)
Definition lresolve_one (order : list (lext * (lerr * labels)) -> list (lext * (lerr * labels))) (modules : list (str * lmod)) (m : lmod) : cres (rerr * labels) unit :=
  cbind (map_err (on_fst EImport) (lresolve_module_imports m modules)) (fun imports =>
  each (fun t => lresolve_type_remotely t imports) (order (lresolve_module_types m))).
Definition lresolve_schemas (order : list (lext * (lerr * labels)) -> list (lext * (lerr * labels))) (values : list (str * lfile F)) : cres (source * (rerr * labels)) unit :=
  let modules := map (fun v => (fst v, lresolve_types (fst v) (snd v))) values in
  each (fun v => map_err (pair (lf_source (snd v))) (lresolve_one order modules (lresolve_types (fst v) (snd v)))) values.
End LResolve.
Arguments lmod F : clear implicits.
Arguments lrimport F : clear implicits.
