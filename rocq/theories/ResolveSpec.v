(** Specification of type resolution (C35, C36), in terms of the syntax tree only. *)
From Verif Require Import Base Syntax CompilerSpec.
Local Open Scope N_scope.

Section Spec.
Context {F : Type}.
Implicit Types (ds m : list (pdef F)).

(** [m] are the definitions of the module reached from [ds] by following [path]. *)
Inductive module_at : list (pdef F) -> list str -> list (pdef F) -> Prop :=
| at_here ds : module_at ds [] ds
| at_sub ds c n sub path m : In (PModule c n sub) ds -> module_at sub path m -> module_at ds (n :: path) m.

Definition arity (g : option generics) : nat := length (match g with Some g => p_values g | None => [] end).
Definition args (g : option (punct pty)) : nat := length (match g with Some ts => p_values ts | None => [] end).

(** Module [m] declares a struct or enum [n] with [k] type parameters. *)
Definition declares (m : list (pdef F)) (n : str) (k : nat) : Prop :=
  exists d, In d m /\
    match d with PStruct _ _ n' g _ | PEnum _ _ n' g _ => n' = n /\ arity g = k | _ => False end.

(** A field of a struct or enum of module [m] (somewhere below [ds]) refers to the type
    [path::n] with [k] arguments; not counted are the definition's own parameters and, as
    the resolver skips them, references inside [non_zero]. *)
Definition refers ds m (path : list str) (n : str) (k : nat) : Prop :=
  exists at_ d t g, module_at ds at_ m /\ In d m /\ In t (flat_map field_types (field_lists d))
    /\ part outside_non_zero (PExternal path n g) t /\ k = args g
    /\ ~ (path = [] /\ g = None /\ In n (parameters d)).

(** The reference means a type of the module's own schema ... *)
Definition local_ok m (path : list str) (n : str) (k : nat) : Prop :=
  exists target, module_at m path target /\ declares target n k.

(** An import of [segs] (and the type [e]) exists. *)
Definition import_ok (schemas : list (str * list (pdef F))) (segs : list str) (e : option str) : Prop :=
  exists root rest ds target, segs = root :: rest /\ In (root, ds) schemas /\ module_at ds rest target
    /\ match e with Some n => exists k, declares target n k | None => True end.

(** ... or a type [n] imported by its schema's root module [ds]. *)
Definition imported_ok (schemas : list (str * list (pdef F))) ds (n : str) (k : nat) : Prop :=
  exists root rest ds' target, In (PImport (root :: rest) (Some n)) ds /\ In (root, ds') schemas
    /\ module_at ds' rest target /\ declares target n k.

(** Names are unique in every module (which validation ensures). *)
Definition unique_names ds : Prop := forall path m, module_at ds path m -> NoDup (introduced m).

(** Imports name a schema (the grammar requires it). *)
Definition imports_rooted ds : Prop := forall segs e, In (PImport segs e) ds -> segs <> [].
End Spec.
