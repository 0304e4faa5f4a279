(** Common vocabulary of the model: bytes, outcomes of Rust calls, small list helpers.

    Nothing in this file models a particular Rust function; it fixes how Rust's
    data is represented.

    - [u8], [u16], ... values are elements of [N] (unsigned) or [Z] (signed); the
      ranges are explicit hypotheses or are enforced by explicit [mod 2^bits].
    - a byte buffer ([&[u8]], [Vec<u8>], [Bytes]) is a [list N].
    - a call that may fail, panic or not terminate is a value of [res]. *)
From Coq Require Export List NArith ZArith Lia Bool PeanoNat.
From Coq Require Export ZifyBool ZifyNat ZifyN.
Export ListNotations.

Ltac Zify.zify_post_hook ::= Z.div_mod_to_equations.

(** Model of the [Error] enum: crates/mabo/src/buf/decode.rs L14-43.
    [MissingField] carries the id and the optional field name; names are
    represented by [N]-lists (bytes of the identifier). *)
Inductive derr :=
| InsufficientData
| DecodeInt
| NonUtf8
| MissingField (id : N) (name : option (list N))
| UnknownVariant (id : N)
| UnknownEncoding (raw : N)
| EZero.

(** Outcome of a Rust call that returns [Result<T, Error>].  [Panic] is an
    unwinding panic (e.g. [unwrap] on [Err]); [Diverge] means the call never
    returns (a loop whose state stops changing). *)
Inductive res (A : Type) :=
| Ok (a : A)
| Err (e : derr)
| Panic
| Diverge.
Arguments Ok {A} a.
Arguments Err {A} e.
Arguments Panic {A}.
Arguments Diverge {A}.

(** Rust's [?] operator: propagate everything that is not [Ok]. *)
Definition bind {A B} (m : res A) (f : A -> res B) : res B :=
  match m with
  | Ok a => f a
  | Err e => Err e
  | Panic => Panic
  | Diverge => Diverge
  end.

Notation "'do' x <- m ; f" := (bind m (fun x => f))
  (at level 200, x pattern, m at level 100, f at level 200, right associativity).

(** A byte is a number below 256; a buffer is well formed when all its elements are. *)
Definition byte_ok (b : N) : bool := (b <? 256)%N.
Definition bytes_ok (l : list N) : bool := forallb byte_ok l.

(** Length of a buffer as a machine number ([usize]/[u64]; the model assumes a
    64-bit target, where [len as usize] and [len as u64] are the identity). *)
Definition lenN {A} (l : list A) : N := N.of_nat (length l).

(** [sum] of an iterator of [usize]. *)
Definition sumN (l : list N) : N := fold_right N.add 0%N l.
