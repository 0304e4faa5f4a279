(** Specification of the language server's document handling, after the Language Server
    Protocol: positions, edits, token streams. *)
From Verif Require Import Base Syntax Lsp.
Local Open Scope N_scope.

(** The number of code units of a char in the encoding agreed on. *)
Definition units (enc : option wenc) (c : N) : N :=
  match enc with
  | None => len8 c
  | Some Utf16 => if c <? 65536 then 1 else 2
  | Some Utf32 => 1
  end.

(** The position after reading a text: one line further after each newline, otherwise as many
    columns further as the char has code units. *)
Fixpoint advance (enc : option wenc) (p : pos) (t : str) : pos :=
  match t with
  | [] => p
  | c :: t' => advance enc (if c =? nl then Pos (p_line p + 1) 0
                            else Pos (p_line p) (p_char p + units enc c)) t'
  end.
(** The position of the end of a text. *)
Definition end_of (enc : option wenc) (t : str) : pos := advance enc (Pos 0 0) t.

(** An editor's change of a range: the text between the two positions is replaced. *)
Inductive edit (enc : option wenc) : str -> change -> str -> Prop :=
| edit_range pre mid suf new :
    edit enc (pre ++ mid ++ suf)
         (Change (Some (end_of enc pre, end_of enc (pre ++ mid))) new)
         (pre ++ new ++ suf)
| edit_full t new : edit enc t (Change None new) new.

(** The changes of a notification are applied one after the other. *)
Inductive edits (enc : option wenc) : str -> list change -> str -> Prop :=
| edits_nil t : edits enc t [] t
| edits_cons t c t' cs t'' : edit enc t c t' -> edits enc t' cs t'' -> edits enc t (c :: cs) t''.

(** Order of positions. *)
Definition pos_le (p q : pos) : Prop :=
  p_line p < p_line q \/ (p_line p = p_line q /\ p_char p <= p_char q).
Definition pos_lt (p q : pos) : Prop :=
  p_line p < p_line q \/ (p_line p = p_line q /\ p_char p < p_char q).

(** All changes are ranges, and each lies before the previous one. *)
Fixpoint bottom_up (cs : list change) : Prop :=
  match cs with
  | [] => True
  | c :: cs' =>
      (exists s e, ch_range c = Some (s, e) /\
         match cs' with
         | c' :: _ => exists s' e', ch_range c' = Some (s', e') /\ pos_le e' s
         | [] => True
         end) /\ bottom_up cs'
  end.

(** Decoding of a token stream as the protocol prescribes: lines are relative to the previous
    token, columns too if it is on the same line. *)
Fixpoint decode_tokens (delta : pos) (l : list sem_token) : list token :=
  match l with
  | [] => []
  | x :: l' =>
      let line := p_line delta + st_line x in
      let char := (if st_line x =? 0 then p_char delta else 0) + st_start x in
      Token (Pos line char) (Pos line (char + st_length x)) (st_type x) (st_mods x)
        :: decode_tokens (Pos line char) l'
  end.

(** Tokens in document order, each within a line. *)
Fixpoint in_order (p : pos) (ts : list token) : Prop :=
  match ts with
  | [] => True
  | t :: ts' => pos_le p (tk_start t) /\ p_line (tk_start t) = p_line (tk_end t)
                /\ p_char (tk_start t) <= p_char (tk_end t) /\ in_order (tk_start t) ts'
  end.

(** * Sessions *)

(** The changes the server handles correctly: the whole text at once, or ranges from the end of
    the document towards its beginning (a single range in particular). *)
Definition handled_changes (cs : list change) : Prop := (exists t, cs = [Change None t]) \/ bottom_up cs.

(** What an editor holds for a document (nothing at first) before and after a notification about
    any document.  [keep_closed] says whether closing a document counts as keeping it. *)
Inductive tracked (keep_closed : bool) (enc : option wenc) (uri : str) : option str -> event -> option str -> Prop :=
| tr_open old t : tracked keep_closed enc uri old (DidOpen uri t) (Some t)
| tr_change t cs t' : handled_changes cs -> edits enc t cs t' -> tracked keep_closed enc uri (Some t) (DidChange uri cs) (Some t')
| tr_create t : tracked keep_closed enc uri None (DidChange uri [Change None t]) (Some t)
| tr_close old : tracked keep_closed enc uri old (DidClose uri) (if keep_closed then old else None)
| tr_delete old uris : In uri uris -> tracked keep_closed enc uri old (DidDelete uris) None
| tr_delete_other old uris : ~ In uri uris -> tracked keep_closed enc uri old (DidDelete uris) old
| tr_open_other old u t : u <> uri -> tracked keep_closed enc uri old (DidOpen u t) old
| tr_change_other old u cs : u <> uri -> tracked keep_closed enc uri old (DidChange u cs) old
| tr_close_other old u : u <> uri -> tracked keep_closed enc uri old (DidClose u) old.

(** An editor's documents, none of which has 4 GiB or more. *)
Definition editor := str -> option str.
Definition small (ed : editor) : Prop := forall uri t, ed uri = Some t -> bytes_len t < 2 ^ 32.

(** A session: the notifications an editor sends and what it holds before and after. *)
Inductive session (keep_closed : bool) (enc : option wenc) : editor -> list event -> editor -> Prop :=
| session_nil ed : session keep_closed enc ed [] ed
| session_cons ed e ed' es ed'' :
    (forall uri, tracked keep_closed enc uri (ed uri) e (ed' uri)) -> small ed' ->
    session keep_closed enc ed' es ed'' -> session keep_closed enc ed (e :: es) ed''.

(** A history of one document: batches of changes, each correctly handled, applied in turn. *)
Inductive history (enc : option wenc) : str -> list (list change) -> str -> Prop :=
| history_nil t : history enc t [] t
| history_cons t b t' bs t'' : handled_changes b -> edits enc t b t' -> bytes_len t' < 2 ^ 32 ->
    history enc t' bs t'' -> history enc t (b :: bs) t''.
