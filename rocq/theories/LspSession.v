(** The language server's conversation with the editor: crates/mabo-lsp/src/main.rs, client.rs, state.rs L46-66 [reload_settings], config.rs and
    handlers/mod.rs L36-149 [initialize], [initialized], L321-330 [did_change_configuration], with the connection of the crate lsp-server 0.7.9
    ([initialize_start], [initialize_finish], [handle_shutdown] and the thread that reads messages).

    The code blocks whenever it receives.  Each receiving call is a [mode] of the model, and what the code does with the message it gets is one
    [turn].  Sending never fails or blocks. *)
From Verif Require Import Base Syntax Parser Lsp.
Require Coq.Strings.String.
Import Coq.Strings.String.StringSyntax.
Local Open Scope N_scope.

(** [lsp_server::RequestId]. *)
Inductive rid := RNum (z : Z) | RStr (s : str).
Definition rid_eqb (a b : rid) : bool :=
  match a, b with RNum x, RNum y => (x =? y)%Z | RStr x, RStr y => str_eqb x y | _, _ => false end.

(** The parameters of the three requests the server supports (main.rs L82-108). *)
Inductive query := QHover (uri : str) (p : pos) | QSymbols (uri : str) | QTokens (uri : str).

(** [InitializeParams]: the client's position encodings, most preferred first, and the workspace folders. *)
Record init := Init { in_encodings : option (list str); in_folders : list str }.

(** Messages from the editor.  [None]: the parameters do not have the form the method demands.  The parameters of [Shutdown] are not looked at. *)
Inductive request := RqInitialize (p : option init) | RqQuery (q : option query) | RqShutdown | RqOther.
Inductive notification := NtInitialized (ok : bool) | NtEvent (e : option event) | NtConfig (ok : bool) | NtExit | NtOther.
Inductive message (V : Type) := MRequest (i : rid) (r : request) | MNotification (n : notification) | MResponse (i : rid) (result : option V) (error : bool).
Arguments MRequest {V} i r.
Arguments MNotification {V} n.
Arguments MResponse {V} i result error.

(** What happens on the connection: a message arrives, or nothing does for more than 2 seconds, or for more than 30 seconds. *)
Inductive arrival (V : Type) := Arrives (m : message V) | Quiet | Silence.
Arguments Arrives {V} m.
Arguments Quiet {V}.
Arguments Silence {V}.

(** lsp-server, stdio.rs and socket.rs: the reading thread stops behind the notification [exit]; the receiver is then disconnected. *)
Fixpoint channel {V} (l : list (arrival V)) : list (arrival V) :=
  match l with
  | [] => []
  | Arrives (MNotification NtExit) :: _ => [Arrives (MNotification NtExit)]
  | a :: l' => a :: channel l'
  end.

(** Messages to the editor (published diagnostics are kept in [sv_published] of Lsp.v). *)
Inductive ecode := MethodNotFound | InvalidParams | InternalError | ServerNotInitialized.
Inductive reply (A : Type) := Result (a : A) | Null | Capabilities (encoding : str) | Failure (c : ecode).
Arguments Result {A} a.
Arguments Null {A}.
Arguments Capabilities {A} encoding.
Arguments Failure {A} c.
Inductive ask := AskConfiguration | AskRegister.
Inductive sent (A : Type) := SResponse (i : rid) (r : reply A) | SRequest (i : rid) (a : ask).
Arguments SResponse {A} i r.
Arguments SRequest {A} i a.

(** How the process ends: status 0, an error, a panic. *)
Inductive ending := ExitOk | ExitErr | Crash.
(** The receiving calls.  [WaitConfig id first]: [send_request] of [reload_settings], called by [initialized] if [first]. *)
Inductive mode := Start | WaitInitialized | WaitConfig (id : Z) (first : bool) | WaitRegister (id : Z) | Idle | WaitExit | Ended (e : ending).

(** client.rs L22-26 [next_id]: [i32::wrapping_add]. *)
Definition next_i32 (n : Z) : Z := if (n =? 2 ^ 31 - 1)%Z then (- 2 ^ 31)%Z else (n + 1)%Z.

(** handlers/mod.rs L43-50, state.rs L37 and handlers/index.rs L13-22: the encoding that is announced and the one that is used. *)
Definition chosen (p : init) : str := match in_encodings p with Some (e :: _) => e | _ => tx "utf-16" end.
Definition used (e : str) : option wenc := if str_eqb e (tx "utf-8") then None else if str_eqb e (tx "utf-32") then Some Utf32 else Some Utf16.

Section Session.
(** [S]: what the server computes for a document; [A]: the results of requests; [V]: JSON values; [C]: the settings ([config::Global]). *)
Context {S A V C : Type} (compile : str -> str -> index -> S) (chk : bool).
(** The handlers hover, document_symbol and semantic_tokens_full with their post-processing (mod.rs L247-319, main.rs L82-108). *)
Variable answer : @server S -> C -> query -> lres A.
(** The settings in the result of workspace/configuration, if that is a list of one object of the right form (state.rs L53-62). *)
Variable read_settings : V -> option C.
Variables (null : V) (default : C).
(** [mabo_project::discover] on the path of a folder, the files of the projects found, read ([None]: not readable), with the URIs made of their
    paths ([None]: the path is not a URI).  mod.rs L52-60. *)
Variable discover : str -> list (option str * option str).

Record st := St { st_docs : @server S; st_cfg : C; st_next : Z }.

(** mod.rs L58-83: the documents known from the start.  [None]: panic. *)
Definition load (enc : option wenc) (files : list (option str * option str)) : option (@store S) :=
  fold_left (fun acc f => match acc, f with
    | Some s, (Some uri, Some text) => option_map (st_insert s uri) (create_file compile enc uri text)
    | _, _ => acc end) files (Some []).
(** mod.rs L36-128 [initialize]. *)
Definition initialize (p : init) : option (@server S) :=
  option_map (fun s => Server (used (chosen p)) s []) (load (used (chosen p)) (flat_map discover (in_folders p))).

(** client.rs L42-53: the sending half of [send_request]. *)
Definition send_request (s : st) (a : ask) : st * Z * list (sent A) :=
  let id := next_i32 (st_next s) in (St (st_docs s) (st_cfg s) id, id, [SRequest (RNum id) a]).
(** client.rs L55-80: the receiving half.  Whatever arrives is taken from the connection; [None]: an error. *)
Definition received (id : Z) (a : arrival V) : option V :=
  match a with
  | Arrives (MResponse i result false) => if rid_eqb i (RNum id) then Some (match result with Some v => v | None => null end) else None
  | _ => None
  end.
(** mod.rs L130-136, L321-330 and state.rs L46-66 [reload_settings], up to the receiving call. *)
Definition reload (s : st) (first : bool) : mode * st * list (sent A) :=
  let '(s', id, o) := send_request s AskConfiguration in (WaitConfig id first, s', o).
(** state.rs L53-65: the end of [reload_settings]. *)
Definition reloaded (s : st) (id : Z) (a : arrival V) : st :=
  match received id a with
  | Some v => match read_settings v with Some c => St (st_docs s) c (st_next s) | None => s end
  | None => s
  end.

(** main.rs L69-155 [main_loop], one message; L157-193 [handle_request]; L211-228 [handle_notify]. *)
Definition handle (s : st) (m : message V) : mode * st * list (sent A) :=
  match m with
  | MRequest i RqShutdown => (WaitExit, s, [SResponse i Null])
  | MRequest i (RqQuery None) => (Idle, s, [SResponse i (Failure InvalidParams)])
  | MRequest i (RqQuery (Some q)) =>
      match answer (st_docs s) (st_cfg s) q with
      | LOk a => (Idle, s, [SResponse i (Result a)])
      | LErr => (Idle, s, [SResponse i (Failure InternalError)])
      | LPanic => (Ended Crash, s, [])
      end
  | MRequest i (RqInitialize _) | MRequest i RqOther => (Idle, s, [SResponse i (Failure MethodNotFound)])
  | MResponse _ _ _ => (Idle, s, [])
  | MNotification (NtInitialized true) => reload s true
  | MNotification (NtConfig true) => reload s false
  | MNotification (NtEvent (Some e)) =>
      match step compile chk (st_docs s) e with
      | Some d => (Idle, St d (st_cfg s) (st_next s), [])
      | None => (Ended Crash, s, [])
      end
  | MNotification _ => (Idle, s, [])
  end.

(** main.rs L45-58 and lsp-server: the conversation before the main loop, and its end. *)
Definition turn (m : mode) (s : st) (a : arrival V) : mode * st * list (sent A) :=
  match m with
  | Start => match a with
      | Arrives (MRequest i (RqInitialize (Some p))) =>
          match initialize p with
          | Some d => (WaitInitialized, St d (st_cfg s) (st_next s), [SResponse i (Capabilities (chosen p))])
          | None => (Ended Crash, s, [])
          end
      | Arrives (MRequest i (RqInitialize None)) => (Ended ExitErr, s, [])
      | Arrives (MRequest i _) => (Start, s, [SResponse i (Failure ServerNotInitialized)])
      | Arrives (MNotification NtExit) | Arrives (MResponse _ _ _) => (Ended ExitErr, s, [])
      | Arrives (MNotification _) | Quiet | Silence => (Start, s, [])
      end
  | WaitInitialized => match a with
      | Arrives (MNotification (NtInitialized _)) => reload s true
      | Arrives _ => (Ended ExitErr, s, [])
      | Quiet | Silence => (WaitInitialized, s, [])
      end
  | WaitConfig id first =>
      let s' := reloaded s id a in
      if first then let '(s'', id', o) := send_request s' AskRegister in (WaitRegister id', s'', o) else (Idle, s', [])
  | WaitRegister _ => (Idle, s, [])
  | Idle => match a with Arrives x => handle s x | Quiet | Silence => (Idle, s, []) end
  | WaitExit => match a with
      | Arrives (MNotification NtExit) => (Ended ExitOk, s, [])
      | Quiet => (WaitExit, s, [])
      | _ => (Ended ExitErr, s, [])
      end
  | Ended _ => (m, s, [])
  end.
(** The connection is closed: every receiving call returns an error.  In [WaitConfig] and [WaitRegister] it is logged; then the main loop ends. *)
Definition closed (m : mode) (s : st) : ending * list (sent A) :=
  match m with
  | Start | WaitInitialized | WaitExit => (ExitErr, [])
  | WaitConfig _ true => (ExitOk, snd (send_request s AskRegister))
  | WaitConfig _ false | WaitRegister _ | Idle => (ExitOk, [])
  | Ended e => (e, [])
  end.
Fixpoint converse (m : mode) (s : st) (l : list (arrival V)) : ending * st * list (sent A) :=
  match l with
  | [] => let '(e, o) := closed m s in (e, s, o)
  | a :: l' => let '(m', s', o) := turn m s a in let '(e, s'', o') := converse m' s' l' in (e, s'', o ++ o')
  end.
(** main.rs L31-67 [main], from the connection on. *)
Definition serve (l : list (arrival V)) : ending * st * list (sent A) :=
  converse Start (St (Server (Some Utf16) [] []) default 0) (channel l).
End Session.
Arguments St {S C} st_docs st_cfg st_next.
Arguments st_docs {S C} s.
Arguments st_cfg {S C} s.
Arguments st_next {S C} s.
