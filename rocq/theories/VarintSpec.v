(** Independent specification of the base-128 ("LEB128") integer format.
    Mentions nothing of the model. *)
From Verif Require Import Base.
Local Open Scope N_scope.

(** Number denoted by a list of 7-bit groups, least significant first; the top bit
    of every byte is a flag and does not contribute. *)
Fixpoint leb_value (l : list N) : N :=
  match l with
  | [] => 0
  | b :: r => b mod 128 + 128 * leb_value r
  end.

(** Every byte but the last carries the continuation flag, the last does not. *)
Fixpoint leb_framed (l : list N) : bool :=
  match l with
  | [] => false
  | [b] => b <? 128
  | b :: r => (128 <=? b) && (b <? 256) && leb_framed r
  end.

(** No superfluous zero group at the top. *)
Definition leb_canonical (l : list N) : bool :=
  match l with
  | [b] => true
  | _ => negb (last l 0 =? 0)
  end.

(** Split a byte string behind its first byte without continuation flag. *)
Fixpoint leb_split (l : list N) : option (list N * list N) :=
  match l with
  | [] => None
  | b :: r =>
      if b <? 128 then Some ([b], r)
      else match leb_split r with
           | Some (p, q) => Some (b :: p, q)
           | None => None
           end
  end.

(** Arithmetic meaning of zigzag: 0,-1,1,-2,2,... |-> 0,1,2,3,4,... *)
Definition zigzag_spec (z : Z) : N :=
  if (0 <=? z)%Z then Z.to_N (2 * z) else Z.to_N (- 2 * z - 1).

(** Range of a signed integer with [b] bits. *)
Definition signed_range (b : N) (z : Z) : Prop :=
  (- 2 ^ (Z.of_N b - 1) <= z < 2 ^ (Z.of_N b - 1))%Z.

(** [p] is a strict prefix of [l]. *)
Definition strict_prefix {A} (p l : list A) : Prop :=
  exists x r, l = p ++ x :: r.
