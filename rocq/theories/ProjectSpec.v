(** Conditions on whole projects (C49), in terms of the syntax tree only. *)
From Verif Require Import Base Syntax CompilerSpec ResolveSpec.
Local Open Scope N_scope.

Section Spec.
Context {F : Type}.
Implicit Types (ds m : list (pdef F)).

(** A field of [d], a definition of a module of [ds], has the type [t]. *)
Definition has_field ds m (d : pdef F) (t : pty) : Prop :=
  (exists at_, module_at ds at_ m) /\ In d m /\ In t (flat_map field_types (field_lists d)).

(** What the compiler does not look at, the inside of [non_zero], is in order: tuples have 2
    to 12 elements and references mean a parameter or a type of the schema. *)
Definition hidden_ok ds : Prop := forall m d t u, has_field ds m d t -> part anywhere (PNonZero u) t ->
  tuples_ok anywhere u /\
  forall path n g, part anywhere (PExternal path n g) u ->
    (path = [] /\ g = None /\ In n (parameters d)) \/ local_ok m path n (args g).

(** Types imported by the schema are only used in its root module. *)
Definition nested_local ds : Prop := forall m path n k, refers ds m path n k -> m <> ds -> local_ok m path n k.

(** A type with arguments is not hidden by a parameter of the same name. *)
Definition unshadowed ds : Prop := forall m d t n ts, has_field ds m d t ->
  part anywhere (PExternal [] n (Some ts)) t -> ~ In n (parameters d).

(** No module or definition gives its own meaning to "Vec", "Option", "String" or "Box". *)
Definition prelude : list str :=
  [[86; 101; 99]; [79; 112; 116; 105; 111; 110]; [83; 116; 114; 105; 110; 103]; [66; 111; 120]].
Definition prelude_free ds : Prop := forall at_ m n, module_at ds at_ m -> In n prelude ->
  ~ In n (introduced m) /\ forall d, In d m -> ~ In n (parameters d).

(** Field ids are neither 0 nor too large. *)
Definition field_ids_fit ds : Prop := forall d fs ids i, within d ds -> In fs (field_lists d) ->
  assigns (field_decls fs) ids -> In i ids -> 0 < i < 2 ^ 29.
End Spec.
