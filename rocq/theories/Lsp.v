(** Model of the language server's document handling: crates/mabo-lsp/src/handlers/{mod,index}.rs
    and state.rs, with the parts of the [line-index] 0.1.2 and [ropey] 1.6.1 crates they
    call (these two from their documentation and published source; not part of /repo). *)
From Verif Require Import Base Syntax.
Local Open Scope N_scope.

(** * Outcomes: a value, an [anyhow::Error], or a panic. *)
Inductive lres (A : Type) := LOk (a : A) | LErr | LPanic.
Arguments LOk {A} a.
Arguments LErr {A}.
Arguments LPanic {A}.
Definition lbind {A B} (m : lres A) (f : A -> lres B) : lres B :=
  match m with LOk a => f a | LErr => LErr | LPanic => LPanic end.
(** [.context(..)?] on an [Option]. *)
Definition of_opt {A} (o : option A) : lres A := match o with Some a => LOk a | None => LErr end.

(** [char::len_utf8]; a text is the list of its [char]s. *)
Definition len8 (c : N) : N :=
  if c <? 128 then 1 else if c <? 2048 then 2 else if c <? 65536 then 3 else 4.
(** [str::len]. *)
Definition bytes_len (t : str) : N := sumN (map len8 t).
Definition nl : N := 10.

(** * [line-index] *)

(** [WideEncoding] and [WideChar::wide_len], for a char of [n] bytes. *)
Inductive wenc := Utf16 | Utf32.
Definition wide_len (e : wenc) (n : N) : N :=
  match e with Utf16 => if n =? 4 then 2 else 1 | Utf32 => 1 end.

(** [WideChar]: start and end of a multi-byte char, as byte offsets within its line. *)
Record wchar := WChar { wc_start : N; wc_end : N }.
Definition wc_len (c : wchar) : N := wc_end c - wc_start c.

(** [LineIndex]: the offsets after each newline, the multi-byte chars with their line, the
    length of the text. *)
Record line_index := LineIndex { li_newlines : list N; li_wide : list (N * wchar); li_len : N }.

(** [analyze_source_file]: [off] is the offset, [line] and [col] the current line and offset
    in it. *)
Fixpoint analyze (off line col : N) (t : str) : list N * list (N * wchar) :=
  match t with
  | [] => ([], [])
  | c :: t' =>
      let n := len8 c in
      if c =? nl then
        let '(ls, ws) := analyze (off + 1) (line + 1) 0 t' in (off + 1 :: ls, ws)
      else
        let '(ls, ws) := analyze (off + n) line (col + n) t' in
        (ls, if n =? 1 then ws else (line, WChar col (col + n)) :: ws)
  end.

(** [LineIndex::new]; [None] is the panic for texts of 4 GiB and more ([TextSize::of]). *)
Definition li_new (t : str) : option line_index :=
  if bytes_len t <? 2 ^ 32 then
    let '(ls, ws) := analyze 0 0 0 t in Some (LineIndex ls ws (bytes_len t))
  else None.

(** [LineIndex::start_offset]. *)
Definition start_offset (i : line_index) (line : N) : option N :=
  if line =? 0 then Some 0 else nth_error (li_newlines i) (N.to_nat (line - 1)).

(** [partition_point(|&it| it <= offset)] on a sorted list. *)
Fixpoint partition_point (l : list N) (off : N) : N :=
  match l with
  | x :: l' => if x <=? off then 1 + partition_point l' off else 0
  | [] => 0
  end.

(** A line and a column. *)
Record pos := Pos { p_line : N; p_char : N }.

(** [LineIndex::line_col]: [expect]s [try_line_col]. *)
Definition line_col (i : line_index) (off : N) : lres pos :=
  if li_len i <? off then LPanic
  else let line := partition_point (li_newlines i) off in
       match start_offset i line with
       | Some s => LOk (Pos line (off - s))
       | None => LPanic
       end.

(** [LineIndex::offset]; the [u32] addition panics or wraps as in the rest of the model. *)
Definition li_offset (chk : bool) (i : line_index) (p : pos) : lres N :=
  match start_offset i (p_line p) with
  | None => LErr
  | Some s => if s + p_char p <? 2 ^ 32 then LOk (s + p_char p)
              else if chk then LPanic else LOk ((s + p_char p) mod 2 ^ 32)
  end.

(** The multi-byte chars of a line. *)
Definition wide_of (i : line_index) (line : N) : list wchar :=
  map snd (filter (fun x => fst x =? line) (li_wide i)).

(** [LineIndex::to_wide]: the loop over the line's multi-byte chars. *)
Fixpoint to_wide_loop (e : wenc) (ws : list wchar) (col0 col : N) : option N :=
  match ws with
  | [] => Some col
  | c :: ws' =>
      if wc_end c <=? col0 then
        let d := wc_len c - wide_len e (wc_len c) in
        if d <=? col then to_wide_loop e ws' col0 (col - d) else None
      else Some col
  end.
Definition to_wide (e : wenc) (i : line_index) (p : pos) : option pos :=
  option_map (Pos (p_line p)) (to_wide_loop e (wide_of i (p_line p)) (p_char p) (p_char p)).

(** [LineIndex::to_utf8]. *)
Fixpoint to_utf8_loop (e : wenc) (ws : list wchar) (col : N) : option N :=
  match ws with
  | [] => Some col
  | c :: ws' =>
      if wc_start c <? col then
        let col' := col + (wc_len c - wide_len e (wc_len c)) in
        if col' <? 2 ^ 32 then to_utf8_loop e ws' col' else None
      else Some col
  end.
Definition to_utf8 (e : wenc) (i : line_index) (p : pos) : option pos :=
  option_map (Pos (p_line p)) (to_utf8_loop e (wide_of i (p_line p)) (p_char p)).

(** * handlers/index.rs *)

(** L8-22 [Index] and [Index::new]: no wide encoding for "utf-8". *)
Record index := Index { ix_index : line_index; ix_encoding : option wenc }.

(** L29-56 [Index::get_range], for one end of the range (both ends are converted alike). *)
Definition get_position (ix : index) (off : N) : lres pos :=
  lbind (line_col (ix_index ix) (off mod 2 ^ 32)) (fun p =>
    match ix_encoding ix with
    | Some e => of_opt (to_wide e (ix_index ix) p)
    | None => LOk p
    end).

(** L58-81 [Index::get_offset]. *)
Definition get_offset (chk : bool) (ix : index) (p : pos) : lres N :=
  lbind (match ix_encoding ix with
         | Some e => of_opt (to_utf8 e (ix_index ix) p)
         | None => LOk p
         end)
    (li_offset chk (ix_index ix)).

(** * [ropey]: a rope is its text. *)

(** [Rope::byte_to_char]: the index of the char the byte belongs to; panics beyond the end. *)
Fixpoint chars_before (t : str) (b : N) : nat :=
  match t with
  | [] => O
  | c :: t' => if len8 c <=? b then S (chars_before t' (b - len8 c)) else O
  end.
Definition byte_to_char (t : str) (b : N) : lres nat :=
  if bytes_len t <? b then LPanic else LOk (chars_before t b).
(** [Rope::remove] and [Rope::insert]; panic on bad ranges. *)
Definition rope_remove (t : str) (s e : nat) : lres str :=
  if (s <=? e)%nat && (e <=? length t)%nat then LOk (firstn s t ++ skipn e t) else LPanic.
Definition rope_insert (t : str) (s : nat) (new : str) : lres str :=
  if (s <=? length t)%nat then LOk (firstn s t ++ new ++ skipn s t) else LPanic.

(** * Files and changes *)

(** [TextDocumentContentChangeEvent]: the range is absent for a replacement of the whole text. *)
Record change := Change { ch_range : option (pos * pos); ch_text : str }.

(** mod.rs L332-344 [convert_range]; [TextRange::new] asserts that start <= end.  The
    conversions [usize -> u32] cannot fail for offsets that come from an index. *)
Definition convert_range (chk : bool) (ix : index) (r : option (pos * pos)) : lres (N * N) :=
  match r with
  | None => LErr
  | Some (s, e) =>
      lbind (get_offset chk ix s) (fun s' =>
      lbind (get_offset chk ix e) (fun e' =>
      if s' <=? e' then LOk (s', e') else LPanic))
  end.

(** mod.rs L205-218: the loop over the changes of a notification; [None] is a panic. *)
Fixpoint apply_changes (chk : bool) (ix : index) (rope : str) (cs : list change) : option str :=
  match cs with
  | [] => Some rope
  | c :: cs' =>
      match convert_range chk ix (ch_range c) with
      | LErr => apply_changes chk ix rope cs'
      | LPanic => None
      | LOk (s, e) =>
          match lbind (byte_to_char rope s) (fun s' =>
                lbind (byte_to_char rope e) (fun e' =>
                lbind (rope_remove rope s' e') (fun rope' =>
                rope_insert rope' s' (ch_text c)))) with
          | LOk rope'' => apply_changes chk ix rope'' cs'
          | _ => None
          end
      end
  end.

(** Section parameters: [S] is what [compile::compile] and [compile::simplify] produce for a
    document ([Result<Schema, Diagnostic>] and the simplified schema), and [compile] the two
    functions; the model is the same for all of them. *)
Section Server.
Context {S : Type} (compile : str -> str -> index -> S).

(** state.rs L20-31 [File]. *)
Record file := File { f_rope : str; f_index : index; f_content : str; f_schema : S }.

(** mod.rs L346-355 [create_file]. *)
Definition create_file (enc : option wenc) (uri text : str) : option file :=
  option_map (fun i => let ix := Index i enc in File text ix text (compile uri text ix)) (li_new text).

(** mod.rs L357-373 [update_file], with index.rs L24-26 [update]. *)
Definition update_file (uri : str) (f : file) (update : str -> index -> option str) : option file :=
  match update (f_rope f) (f_index f) with
  | None => None
  | Some text =>
      option_map (fun i => let ix := Index i (ix_encoding (f_index f)) in
                           File text ix text (compile uri text ix)) (li_new text)
  end.

(** The map [files]; [HashMap::get], [insert], [remove]. *)
Definition store := list (str * file).
Fixpoint st_get (s : store) (uri : str) : option file :=
  match s with
  | [] => None
  | (u, f) :: s' => if str_eqb u uri then Some f else st_get s' uri
  end.
Definition st_remove (s : store) (uri : str) : store :=
  filter (fun x => negb (str_eqb (fst x) uri)) s.
Definition st_insert (s : store) (uri : str) (f : file) : store := (uri, f) :: st_remove s uri.

(** The notifications the server handles; the [String]s of a deletion are compared with the
    keys as texts. *)
Inductive event :=
| DidOpen (uri text : str)
| DidChange (uri : str) (cs : list change)
| DidClose (uri : str)
| DidDelete (uris : list str).

(** state.rs L13-18 [GlobalState]: the encoding agreed on and the files; [published] is the
    list of the diagnostics sent so far, latest first (represented by the document they were
    computed for). *)
Record server := Server { sv_enc : option wenc; sv_files : store; sv_published : list (str * S) }.

(** mod.rs L151-181 [did_open].  Simplification: sending never fails. *)
Definition did_open (sv : server) (uri text : str) : option server :=
  let fresh :=
    option_map (fun f => Server (sv_enc sv) (st_insert (sv_files sv) uri f) ((uri, f_schema f) :: sv_published sv))
               (create_file (sv_enc sv) uri text) in
  match st_get (sv_files sv) uri with
  | Some f => if str_eqb (f_content f) text
              then Some (Server (sv_enc sv) (sv_files sv) ((uri, f_schema f) :: sv_published sv))
              else fresh
  | None => fresh
  end.

(** mod.rs L184-186 [is_full]. *)
Definition is_full (cs : list change) : bool :=
  match cs with [c] => match ch_range c with None => true | Some _ => false end | _ => false end.

(** mod.rs L183-234 [did_change]. *)
Definition did_change (chk : bool) (sv : server) (uri : str) (cs : list change) : option server :=
  let finish files f :=
    Server (sv_enc sv) (st_insert files uri f) ((uri, f_schema f) :: sv_published sv) in
  if is_full cs then
    match cs with
    | c :: _ => option_map (finish (sv_files sv)) (create_file (sv_enc sv) uri (ch_text c))
    | [] => None
    end
  else
    match st_get (sv_files sv) uri with
    | None => Some sv
    | Some f => option_map (finish (st_remove (sv_files sv) uri))
                  (update_file uri f (fun rope ix => apply_changes chk ix rope cs))
    end.

(** mod.rs L236-238 [did_close]. *)
Definition did_close (sv : server) (uri : str) : option server := Some sv.

(** mod.rs L240-245 [did_delete]. *)
Definition did_delete (sv : server) (uris : list str) : option server :=
  Some (Server (sv_enc sv) (filter (fun x => negb (existsb (fun u => str_eqb u (fst x)) uris)) (sv_files sv))
               (sv_published sv)).

(** main.rs L124-148: dispatch of a notification; [None] is a panic, which ends the server. *)
Definition step (chk : bool) (sv : server) (e : event) : option server :=
  match e with
  | DidOpen uri text => did_open sv uri text
  | DidChange uri cs => did_change chk sv uri cs
  | DidClose uri => did_close sv uri
  | DidDelete uris => did_delete sv uris
  end.

(** main.rs L69-155 [main_loop]: the notifications in order. *)
Fixpoint run (chk : bool) (sv : server) (es : list event) : option server :=
  match es with
  | [] => Some sv
  | e :: es' => match step chk sv e with Some sv' => run chk sv' es' | None => None end
  end.

(** mod.rs L247-319: what the request handlers see of a document ([None]: an empty answer). *)
Definition document (sv : server) (uri : str) : option file := st_get (sv_files sv) uri.
End Server.
Arguments Server {S} sv_enc sv_files sv_published.
Arguments sv_enc {S} s.
Arguments sv_files {S} s.
Arguments sv_published {S} s.
Arguments File {S} f_rope f_index f_content f_schema.
Arguments f_rope {S} f.
Arguments f_index {S} f.
Arguments f_content {S} f.
Arguments f_schema {S} f.

(** * Semantic tokens: handlers/semantic_tokens.rs *)

(** A token with the position of its start and end, its type and its modifiers. *)
Record token := Token { tk_start : pos; tk_end : pos; tk_type : N; tk_mods : N }.
(** [lsp_types::SemanticToken]. *)
Record sem_token := SemToken { st_line : N; st_start : N; st_length : N; st_type : N; st_mods : N }.

(** [u32] subtraction: [chk] as elsewhere, [None] is a panic. *)
Definition sub_u32 (chk : bool) (a b : N) : option N :=
  if b <=? a then Some (a - b) else if chk then None else Some (a + 2 ^ 32 - b).

(** L159-170 [lsl], L172-194 [add_span]: [delta] is the start of the previous token.  [LErr] is
    the error for a token that spans lines (L148-157 [get_range]). *)
Definition add_span (chk : bool) (delta : pos) (t : token) : lres sem_token :=
  let s := tk_start t in
  if p_line s =? p_line (tk_end t) then
    match sub_u32 chk (p_line s) (p_line delta),
          sub_u32 chk (p_char s) (if p_line delta =? p_line s then p_char delta else 0),
          sub_u32 chk (p_char (tk_end t)) (p_char s) with
    | Some dl, Some ds, Some len => LOk (SemToken dl ds len (tk_type t) (tk_mods t))
    | _, _, _ => LPanic
    end
  else LErr.

(** The tokens of a document, from the list of spans in the order they are visited. *)
Fixpoint emit (chk : bool) (delta : pos) (ts : list token) : lres (list sem_token) :=
  match ts with
  | [] => LOk []
  | t :: ts' => lbind (add_span chk delta t) (fun x =>
                lbind (emit chk (tk_start t) ts') (fun l => LOk (x :: l)))
  end.
(** L137-146 [new], L196-202 [visit_schema]. *)
Definition tokens (chk : bool) (ts : list token) : lres (list sem_token) := emit chk (Pos 0 0) ts.

(** L112-120 [token_type_pos] and L122-129 [token_modifier_bitset], given the positions in the
    global lists. *)
Definition modifier_bitset (mods : list bool) : N :=
  fst (fold_left (fun '(acc, i) (b : bool) => ((if b then acc + N.shiftl 1 i else acc), i + 1)) mods (0, 0)).
