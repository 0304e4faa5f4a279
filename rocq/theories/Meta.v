(** Model of crates/mabo-meta/src/lib.rs: suggested ids and expected wire sizes. *)
From Verif Require Import Base Varint Syntax Compiler.
Local Open Scope N_scope.

(** [max().unwrap_or(0)] of the ids. *)
Definition max_id (ids : list N) : N := fold_right N.max 0 ids.
(** [.. + 1] on [u32]: [chk] as in Compiler.v, [None] is a panic. *)
Definition succ_u32 (chk : bool) (n : N) : option N :=
  if n =? u32_max then (if chk then None else Some 0) else Some (n + 1).

(** lib.rs L10-13 [next_variant_id]. *)
Definition next_variant_id (chk : bool) (vs : list svariant) : option N :=
  succ_u32 chk (max_id (map sv_id vs)).
(** lib.rs L16-31 [next_field_id]; the outer option is the function's own. *)
Definition next_field_id (chk : bool) (fs : sfields) : option (option N) :=
  match ss_kind fs with
  | SKUnit => None
  | _ => Some (succ_u32 chk (max_id (map sf_id (ss_fields fs))))
  end.

(** lib.rs L34-39 [WireSize]: the minimum and, if known, maximum.  Simplification: the label
    and the sizes of the parts, which are only printed, are dropped; [usize] additions and
    multiplications are taken not to overflow. *)
Record wsize := WSize { w_min : N; w_max : option N }.
Definition fixed (n : N) : wsize := WSize n (Some n).
Definition range (a b : N) : wsize := WSize a (Some b).
Definition at_least (n : N) : wsize := WSize n None.

(** lib.rs L98-117, L157-158: the types without parameters. *)
Definition wire_prim (p : prim) : wsize :=
  match p with
  | PrBool | PrU8 | PrI8 => fixed 1
  | PrU16 | PrI16 => range 1 3
  | PrU32 | PrI32 => range 1 5
  | PrU64 | PrI64 => range 1 10
  | PrU128 | PrI128 => range 1 19
  | PrF32 => fixed 4
  | PrF64 => fixed 8
  | PrString | PrStringRef | PrBytes | PrBytesRef | PrBoxString | PrBoxBytes => at_least 1
  end.

(** lib.rs L210-212 [varint_size]. *)
Definition meta_varint_size (n : N) : N := N.max (div_ceil (32 - leading_zeros W32 n) 7) 1.

Definition obind {A B} (o : option A) (f : A -> option B) : option B :=
  match o with Some a => f a | None => None end.
(** [Iterator::sum] of [Option<usize>]: unknown if one of them is. *)
Definition osum (l : list (option N)) : option N :=
  fold_right (fun a b => obind a (fun x => obind b (fun y => Some (x + y)))) (Some 0) l.

(** lib.rs L171-188 [wire_size_array], given the size of the elements. *)
Definition wire_array (inner : option wsize) (n : N) : wsize :=
  let length := meta_varint_size n in
  WSize (length + (match inner with Some s => w_min s | None => 0 end) * n)
        (option_map (fun m => length + m * n) (obind inner w_max)).
(** lib.rs L190-208 [wire_size_tuple], given the sizes of the elements. *)
Definition wire_tuple (inner : list (option wsize)) : wsize :=
  WSize (sumN (flat_map (fun o => match o with Some s => [w_min s] | None => [] end) inner))
        (osum (map (fun o => obind o w_max) inner)).

(** lib.rs L98-169 [wire_size]. *)
Fixpoint wire_size (t : sty) : option wsize :=
  match t with
  | SPrim p => Some (wire_prim p)
  | SVec _ | SHashMap _ _ | SHashSet _ => Some (at_least 1)
  | SOption t | SNonZero t =>
      Some (WSize 0 (option_map (fun m => 1 + m) (obind (wire_size t) w_max)))
  | SArray t n => Some (wire_array (wire_size t) n)
  | STuple ts => Some (wire_tuple (map wire_size ts))
  | SExternal _ _ _ => None
  end.
