(** What it means that a resolution error is true, and that a schema's references are all
    resolvable (C35, C36).  Only the syntax tree and the shape of the errors are used. *)
From Verif Require Import Base Syntax CompilerSpec Resolve ResolveSpec.
Local Open Scope N_scope.

Section Claims.
Context {F : Type}.
Implicit Types (ds m : list (pdef F)).

(** No module of that name. *)
Definition no_module n ds : Prop := forall c sub, ~ In (PModule c n sub) ds.

(** A type alias or constant of that name. *)
Definition has_other (k : dkind) ds n : Prop :=
  match k with
  | DkAlias => exists c g t, In (PAlias c n g t) ds
  | DkConst => exists c t v, In (PConst c n t v) ds
  | _ => False
  end.
(** No type declaration of that name. *)
Definition undeclared ds n : Prop :=
  forall d, In d ds -> match d with
    | PStruct _ _ n' _ _ | PEnum _ _ n' _ _ | PAlias _ n' _ _ | PConst _ n' _ _ => n' <> n | _ => True end.

(** The reported reason is true. *)
Definition local_reason m (path : list str) (n : str) (k : nat) (e : lerr) : Prop :=
  match e with
  | LMissingModule x _ => exists pre post t, path = pre ++ x :: post /\ module_at m pre t /\ no_module x t
  | LMissingDefinition x _ => x = n /\ exists t, module_at m path t /\ undeclared t n
  | LGenericsCount d u => u = k /\ d <> k /\ exists t, module_at m path t /\ declares t n d
  | LInvalidKind kd => exists t, module_at m path t /\ has_other kd t n
  end.

Definition import_reason (schemas : list (str * list (pdef F))) (segs : list str) (el : option str) (e : ierr) : Prop :=
  match e with
  | IMissingSchema x => exists rest, segs = x :: rest /\ forall ds, ~ In (x, ds) schemas
  | IMissingModule x _ => exists root pre post ds t, segs = root :: pre ++ x :: post /\ In (root, ds) schemas
                           /\ module_at ds pre t /\ no_module x t
  | IMissingDefinition x _ => el = Some x /\ exists root rest ds t, segs = root :: rest /\ In (root, ds) schemas
                           /\ module_at ds rest t /\ undeclared t x
  | IInvalidKind k => exists x root rest ds t, el = Some x /\ segs = root :: rest /\ In (root, ds) schemas
                           /\ module_at ds rest t /\ has_other k t x
  end.

(** The reason given for a reference that could not be resolved. *)
Definition ref_reason m (path : list str) (n : str) (k : nat) (e : rerr) : Prop :=
  match e with
  | ELocal x => local_reason m path n k x
  | ERemote (RMissingImport p n') => p = path /\ n' = n
  | ERemote (RGenericsCount d u) => u = k /\ d <> k
  | ERemote _ => path <> []
  | EImport _ => False
  end.

Definition ok_schema (schemas : list (str * list (pdef F))) ds : Prop :=
  (forall segs e, In (PImport segs e) ds -> import_ok schemas segs e) /\
  (forall m path n k, refers ds m path n k -> local_ok m path n k \/ (path = [] /\ imported_ok schemas ds n k)).

End Claims.
