(** Specification vocabulary for the programs around the compiler (C55-C59): file systems, runs
    that are cut short, links. *)
From Verif Require Import Base Syntax.
Local Open Scope N_scope.

Section Disk.
Context {C : Type}.
Implicit Types (ws : list (list str * C)) (s : list str -> option C).

(** The last content written to [q]. *)
Inductive last_write : list (list str * C) -> list str -> C -> Prop :=
| last_write_here ws1 ws2 q c : (forall p c', In (p, c') ws2 -> p <> q) -> last_write (ws1 ++ (q, c) :: ws2) q c.
(** [s'] is the file system [s] after the writes [ws]: files hold what was last written to
    them, the others are as before. *)
Definition after ws s s' : Prop := forall q,
  (forall c, last_write ws q c -> s' q = Some c) /\ ((forall c, ~ In (q, c) ws) -> s' q = s q).
End Disk.

(** The program is stopped (killed, power loss, full disk) after some of its writes, or within
    one of them: a file is truncated before it is written from the start. *)
Definition stopped (ws : list (list str * str)) (s s' : list str -> option str) : Prop :=
  exists done left, ws = done ++ left /\
    (after done s s' \/ exists p c part rest left', left = (p, c) :: left' /\ c = part ++ rest /\ after (done ++ [(p, part)]) s s').

(** Where a link leads from a file: up from the file's directory, and down again. *)
Definition follow (from : list str) (up : nat) (to : list str) : list str :=
  firstn (length from - 1 - up) from ++ to.
