(** Schema-level conditions (decidable, by inspection of the definitions) under which the
    codec theorems hold. *)
From Verif Require Import Base Varint Wire Codec CodecSpec.
Local Open Scope N_scope.

(** [p] holds at every node of a type. *)
Fixpoint all_ty (p : ty -> bool) (t : ty) {struct t} : bool :=
  p t &&
  match t with
  | TVec t' | TSet t' | TOption t' | TNonZero t' | TArray t' _ | TGen t' => all_ty p t'
  | TMap k v => all_ty p k && all_ty p v
  | TTuple ts => forallb (all_ty p) ts
  | TExt _ args => forallb (all_ty p) args
  | _ => true
  end.

(** All field types of a definition. *)
Definition def_types (d : def) : list ty :=
  match d with
  | DStruct fs => map f_ty (fs_list fs)
  | DEnum vars => concat (map (fun v => map f_ty (fs_list (v_fields v))) vars)
  end.

(** [p n] holds at every node of every field type of a definition with [n] parameters;
    [ar] lists the number of parameters of each definition. *)
Fixpoint all_defs (p : nat -> ty -> bool) (ar : list nat) (E : env) : bool :=
  match ar, E with
  | [], [] => true
  | n :: ar', d :: E' => forallb (all_ty (p n)) (def_types d) && all_defs p ar' E'
  | _, _ => false
  end.

(** Types the generator has code for: supported [non_zero] contents, tuples of 2 to 12
    elements, references to existing definitions with the right number of arguments. *)
Definition node_wf (ar : list nat) (n : nat) (t : ty) : bool :=
  match t with
  | TNonZero t' => nz_inner t'
  | TTuple ts => ((2 <=? length ts) && (length ts <=? 12))%nat
  | TExt i args => match nth_error ar i with Some k => (length args =? k)%nat | None => false end
  | TParam i => (i <? n)%nat
  | _ => true
  end.

Definition node_no_array (t : ty) : bool := match t with TArray _ _ => false | _ => true end.

(** Types every value of which occupies at least one byte on the wire: everything but
    field-less structs and tuples of such. *)
Fixpoint occupies (E : env) (t : ty) {struct t} : bool :=
  match t with
  | TTuple ts => existsb (occupies E) ts
  | TExt i _ =>
      match nth_error E i with
      | Some (DStruct fs) => match fs_kind fs with KUnit => false | _ => true end
      | _ => true
      end
  | TNonZero t' | TGen t' => occupies E t'
  | _ => true
  end.

(** No collection of elements that occupy no byte. *)
Definition node_loops (E : env) (t : ty) : bool :=
  match t with
  | TVec t' | TSet t' => occupies E t'
  | TMap k v => occupies E k || occupies E v
  | TExt _ args => forallb (occupies E) args
  | _ => true
  end.

(** The conditions as used in the theorems: of a (closed) type and of all definitions. *)
Definition wf_schema (ar : list nat) (E : env) : bool := all_defs (node_wf ar) ar E.
Definition wf_type (ar : list nat) (t : ty) : bool := all_ty (node_wf ar 0) t.
Definition array_free (E : env) : bool := forallb (fun d => forallb (all_ty node_no_array) (def_types d)) E.
Definition array_free_type (t : ty) : bool := all_ty node_no_array t.
Definition loop_free (E : env) : bool := forallb (fun d => forallb (all_ty (node_loops E)) (def_types d)) E.
Definition loop_free_type (E : env) (t : ty) : bool := all_ty (node_loops E) t.

(** * When the length prefixes of a schema are right for every value *)

Definition one_byte (t : ty) : bool :=
  match t with TBool | TU8 | TI8 | TNonZero TU8 | TNonZero TI8 => true | _ => false end.

(** No collections except of one-byte elements, no maps, and references only to the
    definitions listed in [D]. *)
Definition node_flat (D : list nat) (t : ty) : bool :=
  match t with
  | TVec t' | TSet t' | TArray t' _ => one_byte t'
  | TMap _ _ => false
  | TExt i _ => existsb (Nat.eqb i) D
  | _ => true
  end.
Definition flat_type (D : list nat) (t : ty) : bool := all_ty (node_flat D) t.

(** The definitions listed in [D] have only flat field types, none of them a tuple. *)
Definition flat_defs (E : env) (D : list nat) : bool :=
  forallb (fun i =>
    match nth_error E i with
    | Some d => forallb (fun t => flat_type D t && negb (is_tuple (payload_ty t))) (def_types d)
    | None => true
    end) D.

(** Elements of collections are flat and occupy bytes. *)
Definition node_rt (E : env) (D : list nat) (t : ty) : bool :=
  match t with
  | TVec t' | TSet t' | TArray t' _ => flat_type D t' && occupies E t'
  | TMap k v => flat_type D k && flat_type D v && (occupies E k || occupies E v)
  | TExt _ args => forallb (fun a => flat_type D a && occupies E a) args
  | _ => true
  end.
Definition flat_elements_type (E : env) (D : list nat) (t : ty) : bool := all_ty (node_rt E D) t.
Definition flat_elements (E : env) (D : list nat) : bool :=
  flat_defs E D && forallb (fun d => forallb (all_ty (node_rt E D)) (def_types d)) E.
