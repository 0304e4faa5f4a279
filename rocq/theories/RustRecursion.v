(** Recursive definitions in the generated Rust code: the size of the types, and the instances
    of the generic [decode] functions that rustc has to generate.

    [Decode::decode] takes [r: &mut impl Buf]; the closures passed to [decode_vec], [decode_array],
    [decode_hash_map] and [decode_hash_set] get a [&mut Take<&mut R>] (mabo/src/buf/decode.rs
    L170-L287, L373-L449), so that the elements are decoded by another instance of [decode]: one for a
    reader with one more [Take] around it.  The level of a reader is the number of [Take]s. *)
From Verif Require Import Base Varint Wire Codec RustCode RustEval RustTyping RustSpec.
Local Open Scope N_scope.

(** [Foo::<args>::decode] for a reader of some level. *)
Definition instance : Type := nat * list ty * nat.

(** The instances the runtime's implementations of [Decode] use (decode.rs L512-645). *)
Fixpoint trait_calls (k : nat) (t : ty) : list instance :=
  match t with
  | TVec t' | TSet t' | TArray t' _ => trait_calls (S k) t'
  | TMap a b => trait_calls (S k) a ++ trait_calls (S k) b
  | TOption t' | TGen t' => trait_calls k t'
  | TExt i args => [(i, args, k)]
  | _ => []
  end.

(** The levels of the readers in scope. *)
Definition levels := list (ident * nat).

(** The instances an expression uses.  The closure of [decode_option] gets the reader itself
    (decode.rs L249-256), the others a [Take]. *)
Fixpoint calls (args : list ty) (g : levels) (e : expr) {struct e} : list instance :=
  match e with
  | EDecodeM t (EVar x) => match find_var x g with Some k => trait_calls k (subst args t) | None => [] end
  | ETupleOk len es =>
      match len with Some e => calls args g e | None => [] end ++ flat_map (calls args g) es
  | ECall f (EVar x :: clos) =>
      match find_var x g with
      | Some k =>
          let k' := match f with RDecodeOption => k | _ => S k end in
          flat_map (fun c => match c with EClos [y] b => calls args ((y, k') :: g) b | _ => [] end) clos
      | None => []
      end
  | _ => []
  end.
Definition body_calls (args : list ty) (g : levels) (b : dbody) : list instance :=
  match b with DUnit => [] | DLoop l => flat_map (fun '(_, _, e) => calls args g e) (d_arms l) end.

Section WithEnv.
Variable bt : bytes_type.
Variable E : env.

(** The instances that the code of an instance uses. *)
Definition needs (x : instance) : list instance :=
  let '(i, args, k) := x in
  match nth_error E i with
  | Some d =>
      match gen_decode_def bt d with
      | DfStruct b => body_calls args [(x_r, k)] b
      | DfEnum _ arms => flat_map (fun '(_, b) => body_calls args [(x_r, k)] b) arms
      end
  | None => []
  end.

(** The types of the fields of an instantiated definition. *)
Definition kind_fields (fs : fields) : list field := match fs_kind fs with KUnit => [] | _ => fs_list fs end.
Definition content (i : nat) (args : list ty) : list ty :=
  match nth_error E i with
  | Some d => map (fun f => subst args (f_ty f)) (flat_map kind_fields (bodies d))
  | None => []
  end.

(** The size of the Rust type is finite: [Vec], [HashMap] and [HashSet] hold their elements on
    the heap, everything else holds its parts itself. *)
Definition plain (t : ty) : bool :=
  match t with
  | TVec _ | TMap _ _ | TSet _ | TOption _ | TNonZero _ | TTuple _ | TArray _ _ | TExt _ _ | TGen _ => false
  | _ => true
  end.
Inductive sized : ty -> Prop :=
| sized_leaf : forall t, plain t = true -> sized t
| sized_vec : forall t, sized (TVec t)
| sized_map : forall k v, sized (TMap k v)
| sized_set : forall t, sized (TSet t)
| sized_option : forall t, sized t -> sized (TOption t)
| sized_non_zero : forall t, sized t -> sized (TNonZero t)
| sized_tuple : forall ts, (forall t, In t ts -> sized t) -> sized (TTuple ts)
| sized_array : forall t n, sized t -> sized (TArray t n)
| sized_gen : forall t, sized t -> sized (TGen t)
| sized_ext : forall i args, (forall t, In t (content i args) -> sized t) -> sized (TExt i args).

(** rustc can generate the code for decoding [Foo<args>]: there are finitely many instances
    that use no others, and the types have a size. *)
Definition instantiable (i : nat) (args : list ty) : Prop :=
  exists L : list instance,
    In (i, args, O) L
    /\ (forall x, In x L -> incl (needs x) L)
    /\ (forall j bs k, In (j, bs, k) L -> sized (TExt j bs)).

(** * Specification *)
(** The definitions a type mentions, with their arguments. *)
Fixpoint mentions (t : ty) : list (nat * list ty) :=
  match t with
  | TVec t' | TSet t' | TArray t' _ | TOption t' | TGen t' | TNonZero t' => mentions t'
  | TMap a b => mentions a ++ mentions b
  | TTuple ts => flat_map mentions ts
  | TExt i args => [(i, args)]
  | _ => []
  end.
(** [y] occurs in a field of [x]. *)
Definition inside (y x : nat * list ty) : Prop :=
  exists t, In t (content (fst x) (snd x)) /\ In y (mentions t).
(** Following the fields of a type ends. *)
Definition ends (i : nat) (args : list ty) : Prop := Acc inside (i, args).

(** All definitions named in a type, also in type arguments. *)
Fixpoint names (t : ty) : list nat :=
  match t with
  | TVec t' | TSet t' | TArray t' _ | TOption t' | TGen t' | TNonZero t' => names t'
  | TMap a b => names a ++ names b
  | TTuple ts => flat_map names ts
  | TExt i args => i :: flat_map names args
  | _ => []
  end.
End WithEnv.
