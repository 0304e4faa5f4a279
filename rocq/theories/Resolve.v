(** Model of crates/mabo-compiler/src/resolve: are all referenced types declared?

    Simplifications: source spans, source texts and file names in errors are dropped, as is
    the reference from a module back to its schema (only used in errors); [DeclarationKind]
    keeps its content. *)
From Verif Require Import Base Syntax Compiler.
Local Open Scope N_scope.

(** resolve/mod.rs L100-117 [DeclarationKind], [Declaration]. *)
Inductive dkind := DkStruct (generics : nat) | DkEnum (generics : nat) | DkAlias | DkConst.
Record decl := Decl { d_kind : dkind; d_name : str }.

(** resolve/error.rs L95-318: the errors. *)
Inductive lerr := (* ResolveLocal *)
| LMissingModule (name : str) (path : list str)
| LMissingDefinition (name : str) (path : list str)
| LGenericsCount (definition usage : nat)
| LInvalidKind (k : dkind).
Inductive ierr := (* ResolveImport *)
| IMissingSchema (name : str)
| IMissingModule (name : str) (path : list str)
| IMissingDefinition (name : str) (path : list str)
| IInvalidKind (k : dkind).
Inductive remerr := (* ResolveRemote *)
| RMissingModule (name : str) (path : list str)
| RMissingDefinition (name : str) (path : list str)
| RGenericsCount (definition usage : nat)
| RInvalidKind (k : dkind)
| RMissingImport (path : list str) (name : str).
Inductive rerr := ELocal (e : lerr) | EImport (e : ierr) | ERemote (e : remerr).

(** An external type as the resolver sees it: path, name, number of type arguments and
    whether there is a [<..>] at all. *)
Definition ext := (list str * str * option (punct pty))%type.
(** [ty.generics.as_ref().map_or(0, Punctuated::len)] *)
Definition ext_args (g : option (punct pty)) : nat := match g with Some ts => p_len ts | None => 0 end.

Section Resolve.
Context {F : Type}.

(** resolve/mod.rs L75-90 [Module]. *)
Inductive rmod := RMod (name : str) (path : list str) (imports : list (list str * option str))
  (types : list decl) (modules : list (str * rmod)) (definitions : list (pdef F)).
Definition m_name (m : rmod) : str := let 'RMod n _ _ _ _ _ := m in n.
Definition m_path (m : rmod) : list str := let 'RMod _ p _ _ _ _ := m in p.
Definition m_imports (m : rmod) : list (list str * option str) := let 'RMod _ _ i _ _ _ := m in i.
Definition m_types (m : rmod) : list decl := let 'RMod _ _ _ t _ _ := m in t.
Definition m_modules (m : rmod) : list (str * rmod) := let 'RMod _ _ _ _ s _ := m in s.
Definition m_definitions (m : rmod) : list (pdef F) := let 'RMod _ _ _ _ _ d := m in d.

(** [HashMap::get]; [HashMap::insert], which replaces. *)
Fixpoint get_mod (n : str) (l : list (str * rmod)) : option rmod :=
  match l with
  | [] => None
  | (k, m) :: l' => if str_eqb k n then Some m else get_mod n l'
  end.
Definition insert_mod (l : list (str * rmod)) (e : str * rmod) : list (str * rmod) :=
  filter (fun p => negb (str_eqb (fst p) (fst e))) l ++ [e].

(** [generics.as_ref().map_or(0, |g| g.types.len())] *)
Definition count (g : option generics) : nat := match g with Some g => p_len g | None => 0 end.

(** resolve/mod.rs L423-452: the loop over the definitions of a module. *)
Definition decl_of (d : pdef F) : list decl :=
  match d with
  | PStruct _ _ n g _ => [Decl (DkStruct (count g)) n]
  | PEnum _ _ n g _ => [Decl (DkEnum (count g)) n]
  | PAlias _ n _ _ => [Decl DkAlias n]
  | PConst _ n _ _ => [Decl DkConst n]
  | PModule _ _ _ | PImport _ _ => []
  end.
Definition import_of (d : pdef F) : list (list str * option str) :=
  match d with PImport segs e => [(segs, e)] | _ => [] end.
Definition collect (l : list (option (str * rmod))) : list (str * rmod) :=
  fold_left (fun acc o => match o with Some e => insert_mod acc e | None => acc end) l [].

(** resolve/mod.rs L397-453 [visit_module_tree]. *)
Fixpoint module_of (path : list str) (d : pdef F) : option (str * rmod) :=
  match d with
  | PModule _ n ds =>
      Some (n, RMod n (path ++ [n]) (flat_map import_of ds) (flat_map decl_of ds)
                 (collect (map (module_of (path ++ [n])) ds)) ds)
  | _ => None
  end.
Definition module_tree (name : str) (path : list str) (ds : list (pdef F)) : rmod :=
  RMod name (path ++ [name]) (flat_map import_of ds) (flat_map decl_of ds)
    (collect (map (module_of (path ++ [name])) ds)) ds.
(** resolve/mod.rs L389-391 [resolve_types]. *)
Definition resolve_types (name : str) (s : pschema F) : rmod := module_tree name [] (ps_defs s).

(** The [try_fold] over path segments. *)
Fixpoint walk {E} (miss : str -> list str -> E) (m : rmod) (path : list str) : cres E rmod :=
  match path with
  | [] => COk m
  | n :: p => match get_mod n (m_modules m) with
              | Some m' => walk miss m' p
              | None => CErr (miss n (m_path m))
              end
  end.
Definition find_decl (n : str) (l : list decl) : option decl := find (fun d => str_eqb (d_name d) n) l.

(** resolve/mod.rs L133-176 [resolve_local]. *)
Definition resolve_local (m : rmod) (e : ext) : cres lerr unit :=
  let '(path, name, g) := e in
  cbind (walk LMissingModule m path) (fun m' =>
  match find_decl name (m_types m') with
  | None => CErr (LMissingDefinition name (m_path m'))
  | Some d =>
      match d_kind d with
      | DkStruct k | DkEnum k =>
          if (k =? ext_args g)%nat then COk tt else CErr (LGenericsCount k (ext_args g))
      | k => CErr (LInvalidKind k)
      end
  end).

(** resolve/mod.rs L124-131 [ResolvedImport]. *)
Inductive rimport := RIModule (m : rmod) | RIType (name : str) (generics : nat).

(** resolve/mod.rs L178-230 [resolve_import]. *)
Definition resolve_import (m : rmod) (i : list str * option str) : cres ierr rimport :=
  let '(segs, el) := i in
  cbind (if (length segs <? 2)%nat then COk m else walk IMissingModule m (skipn 1 segs)) (fun m' =>
  match el with
  | None => COk (RIModule m')
  | Some n =>
      match find_decl n (m_types m') with
      | None => CErr (IMissingDefinition n (m_path m'))
      | Some d =>
          match d_kind d with
          | DkStruct k | DkEnum k => COk (RIType (d_name d) k)
          | k => CErr (IInvalidKind k)
          end
      end
  end).

(** resolve/mod.rs L232-314 [resolve_remote]. *)
Definition resolve_remote (m : rmod) (e : ext) : cres remerr unit :=
  let '(path, name, g) := e in
  cbind (match path with
         | first :: _ => if str_eqb first (m_name m) then COk m else walk RMissingModule m path
         | [] => walk RMissingModule m path
         end) (fun m' =>
  match find_decl name (m_types m') with
  | None => CErr (RMissingDefinition name (m_path m'))
  | Some d =>
      match d_kind d with
      | DkStruct k | DkEnum k =>
          if (k =? ext_args g)%nat then COk tt else CErr (RGenericsCount k (ext_args g))
      | k => CErr (RInvalidKind k)
      end
  end).

(** resolve/mod.rs L326-332 [is_generic]. *)
Definition is_generic (e : ext) (g : option generics) : bool :=
  match e with
  | ([], n, None) => match g with Some g => existsb (fun p => str_eqb p n) (p_values g) | None => false end
  | _ => false
  end.
(** resolve/mod.rs L334-346 [resolve]: [visit_externals] (L457-504) visits the same types in
    the same order as the one in validate/generics.rs. *)
Definition missing_in (m : rmod) (g : option generics) (t : pty) : list (ext * lerr) :=
  flat_map (fun e => if is_generic e g then []
                     else match resolve_local m e with CErr x => [(e, x)] | _ => [] end) (externals t).
(** resolve/mod.rs L348-385. *)
Definition missing_def (m : rmod) (d : pdef F) : list (ext * lerr) :=
  match d with
  | PStruct _ _ _ g fs => flat_map (missing_in m g) (field_types fs)
  | PEnum _ _ _ g vs =>
      flat_map (fun v => flat_map (missing_in m g) (field_types (pv_fields v))) (p_values vs)
  | _ => []
  end.
(** resolve/mod.rs L322-387 [resolve_module_types].  The order in which submodules are
    visited (a hash map's) is left to [schemas]. *)
Fixpoint resolve_module_types (m : rmod) : list (ext * lerr) :=
  match m with
  | RMod _ _ _ _ subs ds =>
      flat_map (missing_def m) ds ++ flat_map (fun p => resolve_module_types (snd p)) subs
  end.

(** resolve/mod.rs L506-526 [resolve_module_imports]; indexing [segments[0]] panics on an
    import without segments, which the parser never produces. *)
Definition find_schema (n : str) (schemas : list (str * rmod)) : option rmod := get_mod n schemas.
Definition resolve_one_import (schemas : list (str * rmod)) (i : list str * option str) : cres ierr rimport :=
  match fst i with
  | [] => CPanic
  | root :: _ =>
      match find_schema root schemas with
      | None => CErr (IMissingSchema root)
      | Some m => resolve_import m i
      end
  end.
Fixpoint collect_imports (schemas : list (str * rmod)) (l : list (list str * option str)) : cres ierr (list rimport) :=
  match l with
  | [] => COk []
  | i :: l' => cbind (resolve_one_import schemas i) (fun r =>
               cbind (collect_imports schemas l') (fun rs => COk (r :: rs)))
  end.
Definition resolve_module_imports (m : rmod) (schemas : list (str * rmod)) : cres ierr (list rimport) :=
  collect_imports schemas (m_imports m).

Definition map_err {E E' A} (f : E -> E') (r : cres E A) : cres E' A :=
  match r with COk a => COk a | CErr e => CErr (f e) | CPanic => CPanic end.

(** resolve/mod.rs L528-602 [resolve_type_remotely].  After a successful [resolve_remote]
    control reaches L601, which returns the local error. *)
Definition find_module_import (n : str) (l : list rimport) : option rmod :=
  match find (fun i => match i with RIModule m => str_eqb (m_name m) n | RIType _ _ => false end) l with
  | Some (RIModule m) => Some m
  | _ => None
  end.
Definition find_type_import (n : str) (l : list rimport) : option nat :=
  match find (fun i => match i with RIModule _ => false | RIType x _ => str_eqb x n end) l with
  | Some (RIType _ k) => Some k
  | _ => None
  end.
Definition resolve_type_remotely (t : ext * lerr) (imports : list rimport) : cres rerr unit :=
  let '((path, name, g), err) := t in
  match imports with
  | [] => CErr (ELocal err)
  | _ =>
      match path with
      | first :: _ =>
          match find_module_import first imports with
          | Some m => cbind (map_err ERemote (resolve_remote m (path, name, g))) (fun _ => CErr (ELocal err))
          | None => CErr (ERemote (RMissingImport path name))
          end
      | [] =>
          match find_type_import name imports with
          | Some k => if (k =? ext_args g)%nat then COk tt else CErr (ERemote (RGenericsCount k (ext_args g)))
          | None => CErr (ERemote (RMissingImport [] name))
          end
      end
  end.

(** resolve/mod.rs L33-73 [schemas].  [order] permutes the missing types of a schema as the
    hash map of submodules happens to. *)
Definition resolve_one (order : list (ext * lerr) -> list (ext * lerr)) (modules : list (str * rmod)) (m : rmod) : cres rerr unit :=
  cbind (map_err EImport (resolve_module_imports m modules)) (fun imports =>
  each (fun t => resolve_type_remotely t imports) (order (resolve_module_types m))).
Definition resolve_schemas (order : list (ext * lerr) -> list (ext * lerr)) (values : list (str * pschema F)) : cres rerr unit :=
  let modules := map (fun v => (fst v, resolve_types (fst v) (snd v))) values in
  each (fun v => resolve_one order modules (snd v)) modules.
End Resolve.
Arguments rmod F : clear implicits.
Arguments rimport F : clear implicits.
