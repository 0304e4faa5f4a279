(** Small specifications for the compiler properties C28-C34. *)
From Verif Require Import Base Syntax.
Local Open Scope N_scope.

(** [ids] are the ids of items declared with the optional explicit ids [decl]: an explicit
    id is kept, an item without one gets the id after its predecessor's, the first one 1.
    (The successor of 2^32 - 1 is 0: this is what a build without overflow checks does.) *)
Definition assigns (decl : list (option N)) (ids : list N) : Prop :=
  length ids = length decl /\
  forall k, (k < length decl)%nat ->
    nth k ids 0 =
    match nth k decl None with
    | Some e => e
    | None => match k with O => 1 | S k' => (nth k' ids 0 + 1) mod 2 ^ 32 end
    end.

(** Explicit ids are [u32]s. *)
Definition u32_ids (decl : list (option N)) : Prop := forall e, In (Some e) decl -> e < 2 ^ 32.

(** The explicit ids of a field list, and of the variants of an enum. *)
Definition field_decls (fs : pfields) : list (option N) :=
  match fs with
  | FNamed l => map nf_id (p_values l)
  | FUnnamed l => map uf_id (p_values l)
  | FUnit => []
  end.
Definition variant_decls (vs : punct pvariant) : list (option N) := map pv_id (p_values vs).

(** [d] is one of the definitions [ds] or lies in a module below them. *)
Inductive within {F} (d : pdef F) : list (pdef F) -> Prop :=
| within_here ds : In d ds -> within d ds
| within_module c n sub ds : In (PModule c n sub) ds -> within d sub -> within d ds.

(** The direct parts of a type, and its parts at any depth.  [go] tells which types are
    looked into. *)
Definition children (t : pty) : list pty :=
  match t with
  | PPrim _ => []
  | PVec t | PHashSet t | POption t | PNonZero t | PArray t _ => [t]
  | PHashMap k v => [k; v]
  | PTuple ts => p_values ts
  | PExternal _ _ (Some ts) => p_values ts
  | PExternal _ _ None => []
  end.
Inductive part (go : pty -> bool) (x : pty) : pty -> Prop :=
| part_self : part go x x
| part_child c t : go t = true -> In c (children t) -> part go x c -> part go x t.
Definition anywhere (t : pty) : bool := true.
Definition outside_non_zero (t : pty) : bool := match t with PNonZero _ => false | _ => true end.

(** A plain reference to a name: how a generic parameter is used. *)
Definition uses (go : pty -> bool) (n : str) (t : pty) : Prop := part go (PExternal [] n None) t.

(** A list with the same element at two positions. *)
Definition twice {A} (x : A) (l : list A) : Prop := exists j k, (j < k)%nat /\ nth_error l j = Some x /\ nth_error l k = Some x.


(** The names of a field list; unnamed fields have none. *)
Definition field_names (fs : pfields) : list str :=
  match fs with FNamed l => map nf_name (p_values l) | _ => [] end.


(** [n] is used by one of the fields. *)
Definition used_in (go : pty -> bool) (n : str) (fss : list pfields) : Prop :=
  exists fs t, In fs fss /\ In t (field_types fs) /\ uses go n t.


(** Every tuple that is part of [t] has 2 to 12 elements. *)
Definition arity_ok (n : nat) : Prop := (2 <= n <= 12)%nat.
Definition tuples_ok (go : pty -> bool) (t : pty) : Prop := forall ts, part go (PTuple ts) t -> arity_ok (p_len ts).


(** The name an item introduces into its module: an import introduces the type it names or
    the last segment of the module path. *)
Definition introduces {F} (d : pdef F) : list str :=
  match d with
  | PModule _ n _ | PStruct _ _ n _ _ | PEnum _ _ n _ _ | PAlias _ n _ _ | PConst _ n _ _ => [n]
  | PImport _ (Some n) => [n]
  | PImport segs None => match segs with [] => [] | _ => [last segs []] end
  end.
Definition introduced {F} (ds : list (pdef F)) : list str := flat_map introduces ds.

(** The field lists of a definition, and its generic parameters. *)
Definition field_lists {F} (d : pdef F) : list pfields :=
  match d with
  | PStruct _ _ _ _ fs => [fs]
  | PEnum _ _ _ _ vs => map pv_fields (p_values vs)
  | _ => []
  end.
Definition parameters {F} (d : pdef F) : list str :=
  match d with
  | PStruct _ _ _ (Some g) _ | PEnum _ _ _ (Some g) _ => p_values g
  | _ => []
  end.
(** All types a definition mentions. *)
Definition mentioned {F} (d : pdef F) : list pty :=
  match d with
  | PAlias _ _ _ t | PConst _ _ t _ => [t]
  | _ => flat_map field_types (field_lists d)
  end.
(** All lists of explicit ids in which ids must differ: the variants' and each field list's. *)
Definition id_scopes {F} (d : pdef F) : list (list (option N)) :=
  match d with
  | PEnum _ _ _ _ vs => [variant_decls vs]
  | _ => []
  end ++ map field_decls (field_lists d).
(** All lists of names which must differ. *)
Definition name_scopes {F} (d : pdef F) : list (list str) :=
  match d with
  | PModule _ _ ds => [introduced ds]
  | PEnum _ _ _ _ vs => [map pv_name (p_values vs)]
  | _ => []
  end ++ map field_names (field_lists d).

(** Explicit ids of a schema are [u32]s (they are in the Rust syntax tree). *)
Definition u32_defs {F} (ds : list (pdef F)) : Prop :=
  forall d decl, within d ds -> In decl (id_scopes d) -> u32_ids decl.

(** The contents of [non_zero] the Rust back end knows. *)
Definition non_zero_content (t : pty) : Prop :=
  match t with
  | PPrim p => In p [PrU8; PrU16; PrU32; PrU64; PrU128; PrI8; PrI16; PrI32; PrI64; PrI128;
                     PrString; PrStringRef; PrBytes; PrBytesRef]
  | PVec _ | PHashMap _ _ | PHashSet _ => True
  | _ => False
  end.
Definition non_zero_ok (t : pty) : Prop := forall u, part anywhere (PNonZero u) t -> non_zero_content u.
(** Not looking into the arguments of a reference. *)
Definition outside_arguments (t : pty) : bool := match t with PExternal _ _ _ => false | _ => true end.
(** The types a constant can have. *)
Definition const_content (t : pty) : Prop :=
  match t with PPrim p => p <> PrBoxString /\ p <> PrBoxBytes | _ => False end.

(** What makes a schema valid.  [chk]: the compiler was built with overflow checks. *)
Definition valid {F} (chk : bool) (ds : list (pdef F)) : Prop :=
  NoDup (introduced ds) /\
  forall d, within d ds ->
    (forall names, In names (name_scopes d) -> NoDup names) /\
    (forall decl ids, In decl (id_scopes d) -> assigns decl ids ->
       NoDup ids /\ (chk = true -> ~ In (2 ^ 32 - 1) ids)) /\
    (NoDup (parameters d) /\ forall n, In n (parameters d) -> used_in outside_non_zero n (field_lists d)) /\
    (forall t, In t (mentioned d) -> tuples_ok outside_non_zero t).
