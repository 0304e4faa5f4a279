(** What a resolution error and its locations say about the files, in terms of their syntax trees only (C82). *)
From Verif Require Import Base Syntax Parser Resolve Lsp SpanParser NameSpec LResolve.
Local Open Scope N_scope.

Definition texts (l : list lname) : list str := map ln_text l.
Definition arguments (g : option ((loc * loc) * lpunct lty)) : nat := length (match g with Some (_, ts) => p_values ts | None => [] end).

(** The types directly inside of a type; [non_zero] is not looked into. *)
Definition inner_types (t : lty) : list lty :=
  match t with
  | LTOne _ KNonZero _ _ _ _ | LTPrim _ _ => []
  | LTOne _ _ _ _ _ t | LTArray _ _ _ t _ _ => [t]
  | LTMap _ _ _ _ k _ v => [k; v]
  | LTTuple _ _ _ ts => map fst (p_values ts)
  | LTExt _ _ _ gs => match gs with Some (_, ts) => map fst (p_values ts) | None => [] end
  end.
Inductive inside (x : lty) : lty -> Prop :=
| inside_self : inside x x
| inside_inner c t : In c (inner_types t) -> inside x c -> inside x t.

Section Spec.
Context {F : Type}.
Implicit Types (ds m : list (ldef F)).

(** [t] are the definitions of the module reached from [ds] along [path]. *)
Inductive lmodule_at : list (ldef F) -> list str -> list (ldef F) -> Prop :=
| lat_here ds : lmodule_at ds [] ds
| lat_sub ds c kw n o e sub path t : In (LModule c kw n o e sub) ds -> lmodule_at sub path t -> lmodule_at ds (ln_text n :: path) t.

(** [ds] has a definition of that kind, whose name is [n]. *)
Definition defines ds (k : dkind) (n : lname) : Prop :=
  exists d, In d ds /\ match d, k with
    | LStruct _ _ _ n' g _, DkStruct j | LEnum _ _ _ n' g _ _ _, DkEnum j => n' = n /\ j = length (match g with Some g => p_values g | None => [] end)
    | LAlias _ _ n' _ _ _ _, DkAlias | LConst _ _ n' _ _ _ _ _ _, DkConst => n' = n
    | _, _ => False
    end.
Definition no_such_module (x : str) ds : Prop := forall c kw n o e sub, In (LModule c kw n o e sub) ds -> ln_text n <> x.
Definition no_such_definition (x : str) ds : Prop := forall k n, defines ds k n -> ln_text n <> x.

(** The struct or enum [d] has a field whose type mentions [path::name<..>], and it is not a parameter of [d]. *)
Definition field_types_of (fs : lfields) : list lty :=
  match fs with
  | LFNamed _ _ l => map (fun f => lnf_ty (fst f)) (p_values l)
  | LFUnnamed _ _ l => map (fun f => luf_ty (fst f)) (p_values l)
  | LFUnit => []
  end.
Definition mentions (d : ldef F) (path : list lname) (name : lname) g : Prop :=
  exists gen t s p, path = map fst p /\ inside (LTExt s p name g) t
    /\ match d with
       | LStruct _ _ _ _ gen' fs => gen' = gen /\ In t (field_types_of fs)
       | LEnum _ _ _ _ gen' _ _ vs => gen' = gen /\ exists v, In v (p_values vs) /\ In t (field_types_of (lv_fields (fst v)))
       | _ => False
       end
    /\ ~ (path = [] /\ g = None /\ exists ps x, gen = Some ps /\ In x (p_values ps) /\ ln_text (fst x) = ln_text name).

(** Why a reference made in module [m] of the own file is not resolved there.  [here] is the path of [m]. *)
Inductive local_problem (here : list str) m (path : list lname) (name : lname) g : lerr -> labels -> Prop :=
| P_module pre s post t :
    path = pre ++ s :: post -> lmodule_at m (texts pre) t -> no_such_module (ln_text s) t ->
    local_problem here m path name g (LMissingModule (ln_text s) (here ++ texts pre)) (Used (ln_loc name))
| P_definition t :
    lmodule_at m (texts path) t -> no_such_definition (ln_text name) t ->
    local_problem here m path name g (LMissingDefinition (ln_text name) (here ++ texts path)) (Used (ln_loc name))
| P_count t k j n :
    lmodule_at m (texts path) t -> defines t k n -> ln_text n = ln_text name -> k = DkStruct j \/ k = DkEnum j -> j <> arguments g ->
    local_problem here m path name g (LGenericsCount j (arguments g)) (UsedDeclared (ln_loc name) (ln_loc n))
| P_kind t k n :
    lmodule_at m (texts path) t -> defines t k n -> ln_text n = ln_text name -> k = DkAlias \/ k = DkConst ->
    local_problem here m path name g (LInvalidKind k) (UsedDeclared (ln_loc name) (ln_loc n)).

Variable files : list (str * lfile F).
Definition body (f : lfile F) : list (ldef F) := ls_defs (lf_schema f).

(** An import of module or type [el] of the module [t], in the file [g]. *)
Definition imports_from (f : lfile F) (segs : list lname) (el : option lname) (g : lfile F) t : Prop :=
  exists kw el' semi root rest, In (LImport kw segs el' semi) (body f) /\ el = option_map snd el' /\ segs = root :: rest
    /\ In (ln_text root, g) files /\ lmodule_at (body g) (texts rest) t.

(** A problem with an import of file [f]. *)
Inductive import_problem (f : lfile F) : ierr -> labels -> Prop :=
| P_no_schema kw root rest el semi :
    In (LImport kw (root :: rest) el semi) (body f) -> (forall g, ~ In (ln_text root, g) files) ->
    import_problem f (IMissingSchema (ln_text root)) (Used (ln_loc root))
| P_no_module kw root pre s post el semi g t :
    In (LImport kw (root :: pre ++ s :: post) el semi) (body f) -> In (ln_text root, g) files ->
    lmodule_at (body g) (texts pre) t -> no_such_module (ln_text s) t ->
    import_problem f (IMissingModule (ln_text s) (texts (root :: pre))) (Used (ln_loc s))
| P_no_definition segs x g t :
    imports_from f segs (Some x) g t -> no_such_definition (ln_text x) t ->
    import_problem f (IMissingDefinition (ln_text x) (texts segs)) (Used (ln_loc x))
| P_import_kind segs x g t k n :
    imports_from f segs (Some x) g t -> defines t k n -> ln_text n = ln_text x -> k = DkAlias \/ k = DkConst ->
    import_problem f (IInvalidKind k) (UsedDeclared (ln_loc x) (ln_loc n)).

(** A reference that is not resolved in the own file [f] is not resolved through its imports either. *)
Inductive remote_problem (f : lfile F) (path : list lname) (name : lname) g : remerr -> labels -> Prop :=
| P_no_import :
    match path with
    | [] => forall kw segs c x semi, In (LImport kw segs (Some (c, x)) semi) (body f) -> ln_text x <> ln_text name
    | first :: _ => forall kw segs s semi, In (LImport kw (segs ++ [s]) None semi) (body f) -> ln_text s <> ln_text first
    end ->
    remote_problem f path name g (RMissingImport (texts path) (ln_text name)) (Used (ln_loc name))
| P_remote_definition first more segs s h t :
    path = first :: more -> imports_from f (segs ++ [s]) None h t -> ln_text s = ln_text first -> no_such_definition (ln_text name) t ->
    remote_problem f path name g (RMissingDefinition (ln_text name) (texts (segs ++ [s]))) (Used (ln_loc name))
| P_remote_count segs el h t k j n :
    imports_from f segs el h t ->
    match path with
    | [] => exists x, el = Some x /\ ln_text x = ln_text name
    | first :: _ => el = None /\ exists pre s, segs = pre ++ [s] /\ ln_text s = ln_text first
    end ->
    defines t k n -> ln_text n = ln_text name -> k = DkStruct j \/ k = DkEnum j -> j <> arguments g ->
    remote_problem f path name g (RGenericsCount j (arguments g)) (UsedRelated (ln_loc name) (lf_source h) (ln_loc n))
| P_remote_kind first more segs s h t k n :
    path = first :: more -> imports_from f (segs ++ [s]) None h t -> ln_text s = ln_text first ->
    defines t k n -> ln_text n = ln_text name -> k = DkAlias \/ k = DkConst ->
    remote_problem f path name g (RInvalidKind k) (UsedRelated (ln_loc name) (lf_source h) (ln_loc n)).

(** The error, its labels and the source it shows are those of a problem of one of the files. *)
Inductive problem : source -> rerr -> labels -> Prop :=
| P_import nm f e l : In (nm, f) files -> import_problem f e l -> problem (lf_source f) (EImport e) l
| P_local nm f at_ m d path name g e l :
    In (nm, f) files -> lmodule_at (body f) at_ m -> In d m -> mentions d path name g ->
    local_problem (nm :: at_) m path name g e l -> problem (lf_source f) (ELocal e) l
| P_remote nm f at_ m d path name g e l e' l' :
    In (nm, f) files -> lmodule_at (body f) at_ m -> In d m -> mentions d path name g ->
    local_problem (nm :: at_) m path name g e' l' -> remote_problem f path name g e l -> problem (lf_source f) (ERemote e) l.
End Spec.

(** The text that is marked as used, and the word an error gives for it if it gives one. *)
Definition used_at (l : labels) : loc := match l with Used u | UsedDeclared u _ | UsedRelated u _ _ => u end.
Definition word_of (e : rerr) : option str :=
  match e with
  | EImport (IMissingSchema n) | EImport (IMissingModule n _) | EImport (IMissingDefinition n _)
  | ELocal (LMissingDefinition n _) | ERemote (RMissingDefinition n _) | ERemote (RMissingImport _ n) => Some n
  | _ => None
  end.
