(** The description of the encoded size of a type, as the language server and the documentation show it: crates/mabo-meta/src/lib.rs. *)
From Verif Require Import Base Syntax Parser Compiler Meta.
Require Coq.Strings.String.
Import Coq.Strings.String.StringSyntax.
Local Open Scope N_scope.

(** lib.rs L34-39 [WireSize], with the label and the parts. *)
Inductive wtree := W (label : str) (min : N) (max : option N) (inner : list (str * option wtree)).
Definition t_min (w : wtree) : N := match w with W _ m _ _ => m end.
Definition t_max (w : wtree) : option N := match w with W _ _ m _ => m end.
Definition t_size (w : wtree) : wsize := WSize (t_min w) (t_max w).

(** lib.rs L98-117, L157-158: the types without parameters ([Meta.wire_prim] has the numbers). *)
Definition prim_label (p : prim) : str :=
  match p with
  | PrBool => tx "bool" | PrU8 => tx "u8" | PrU16 => tx "u16" | PrU32 => tx "u32" | PrU64 => tx "u64" | PrU128 => tx "u128"
  | PrI8 => tx "i8" | PrI16 => tx "i16" | PrI32 => tx "i32" | PrI64 => tx "i64" | PrI128 => tx "i128" | PrF32 => tx "f32" | PrF64 => tx "f64"
  | PrString => tx "string" | PrStringRef => tx "&string" | PrBytes => tx "bytes" | PrBytesRef => tx "&bytes"
  | PrBoxString => tx "box<string>" | PrBoxBytes => tx "box<bytes>"
  end.
Definition prim_tree (p : prim) : wtree := W (prim_label p) (w_min (wire_prim p)) (w_max (wire_prim p)) [].
Definition length_part : str * option wtree := (tx "length", Some (prim_tree PrU64)).
Definition indices (n : nat) : list str := map (fun i => dec_str (N.of_nat i)) (seq 0 n).

(** lib.rs L98-169 [wire_size], L171-188 [wire_size_array], L190-208 [wire_size_tuple]. *)
Fixpoint size_tree (t : sty) : option wtree :=
  match t with
  | SPrim p => Some (prim_tree p)
  | SVec t => Some (W (tx "vec") 1 None [length_part; (tx "element", size_tree t)])
  | SHashMap k v => Some (W (tx "hash_map") 1 None [length_part; (tx "key", size_tree k); (tx "value", size_tree v)])
  | SHashSet t => Some (W (tx "hash_set") 1 None [length_part; (tx "element", size_tree t)])
  | SOption t => Some (W (tx "option") 0 (option_map (fun m => 1 + m) (obind (size_tree t) t_max)) [(tx "value", size_tree t)])
  | SNonZero t => Some (W (tx "non_zero") 0 (option_map (fun m => 1 + m) (obind (size_tree t) t_max)) [(tx "value", size_tree t)])
  | SArray t n =>
      let length := meta_varint_size n in
      Some (W (tx "array") (length + (match size_tree t with Some s => t_min s | None => 0 end) * n) (option_map (fun m => length + m * n) (obind (size_tree t) t_max))
              [(tx "length", Some (W (tx "u64") length (Some length) [])); (tx "element", size_tree t)])
  | STuple ts =>
      let inner := map size_tree ts in
      Some (W (tx "tuple") (sumN (flat_map (fun o => match o with Some s => [t_min s] | None => [] end) inner)) (osum (map (fun o => obind o t_max) inner))
              (combine (indices (length ts)) inner))
  | SExternal _ _ _ => None
  end.

(** lib.rs L71-90 [print]. *)
Definition range_text (min : N) (max : option N) : str :=
  match max with
  | Some m => if min =? m then tx "`" ++ dec_str m ++ tx "`" else tx "`" ++ dec_str min ++ tx ".." ++ dec_str m ++ tx "`"
  | None => tx "`" ++ dec_str min ++ tx "..`"
  end.
Fixpoint print (indent : nat) (w : wtree) : str :=
  match w with
  | W label min max inner =>
      tx "**" ++ label ++ tx "** " ++ range_text min max ++
      flat_map (fun '(label, size) =>
        [10] ++ repeat 32 (indent + 2) ++ tx "- " ++ label ++ tx ": " ++ match size with Some w => print (indent + 2) w | None => tx "_unknown_" end) inner
  end.
(** mabo-lsp/src/handlers/hover.rs L144-152: what the hover shows of the type of a field. *)
Definition size_text (t : sty) : str := match size_tree t with Some w => print 0 w | None => tx "_unknown_" end.
