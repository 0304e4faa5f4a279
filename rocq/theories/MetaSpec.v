(** Specification for C41 and C42. *)
From Verif Require Import Base Wire Codec CodecSpec SchemaSpec Compiler Meta.
Local Open Scope N_scope.

(** [n] lies within the announced bounds (unknown bounds exclude nothing). *)
Definition above (o : option wsize) (n : N) : Prop := match o with Some w => w_min w <= n | None => True end.
Definition below_max (o : option wsize) (n : N) : Prop :=
  match o with Some w => match w_max w with Some m => n <= m | None => True end | None => True end.

(** Array sizes are [u32]s (they are in the Rust syntax tree). *)
Fixpoint u32_arrays (t : sty) : Prop :=
  match t with
  | SPrim _ => True
  | SVec t | SHashSet t | SOption t | SNonZero t => u32_arrays t
  | SHashMap k v => u32_arrays k /\ u32_arrays v
  | SArray t n => n < 2 ^ 32 /\ u32_arrays t
  | STuple ts | SExternal _ _ ts => fold_right (fun t p => u32_arrays t /\ p) True ts
  end.

(** The elements of arrays occupy at least one byte. *)
Definition node_arrays (E : env) (t : ty) : bool := match t with TArray t' _ => occupies E t' | _ => true end.

(** The bytes written for a field of type [t] besides the field's id. *)
Definition field_bytes (E : env) (t : ty) (v : val) : list N :=
  match t, v with
  | TOption t', VSome x => encode E true t' x
  | TOption _, _ => []
  | _, _ => encode E true t v
  end.
