(** Property theorems C43 to C46 and C50: the language server. *)
From Verif Require Import Base Syntax Lsp LspSpec LspProofs LspServer.
Local Open Scope N_scope.

(** * C46: positions *)

(** For a text cut in two anywhere between chars, the offset of the cut is converted to the
    position of the cut ([end_of]: lines and code units counted from the start) ... *)
Theorem C46_offset_to_position : forall (enc : option wenc) (pre suf : str) (i : line_index),
  li_new (pre ++ suf) = Some i ->
  get_position (Index i enc) (bytes_len pre) = LOk (end_of enc pre).
Proof. intros enc pre suf i H. apply (get_position_ok enc pre suf). exists i. auto. Qed.
Print Assumptions C46_offset_to_position.

(** ... and the position back to the offset. *)
Theorem C46_position_to_offset : forall (chk : bool) (enc : option wenc) (pre suf : str) (i : line_index),
  li_new (pre ++ suf) = Some i ->
  get_offset chk (Index i enc) (end_of enc pre) = LOk (bytes_len pre).
Proof. intros chk enc pre suf i H. apply (get_offset_ok chk enc pre suf). exists i. auto. Qed.
Print Assumptions C46_position_to_offset.

(** So converting an offset and back is the identity; and every text below 4 GiB has an index. *)
Theorem C46_roundtrip : forall (chk : bool) (enc : option wenc) (pre suf : str),
  bytes_len (pre ++ suf) < 2 ^ 32 ->
  exists i p, li_new (pre ++ suf) = Some i
    /\ get_position (Index i enc) (bytes_len pre) = LOk p /\ get_offset chk (Index i enc) p = LOk (bytes_len pre).
Proof.
  intros chk enc pre suf H. destruct (li_new_some _ H) as [i Hi]. exists i, (end_of enc pre).
  split; [exact Hi|]. split; [exact (C46_offset_to_position enc pre suf i Hi)|exact (C46_position_to_offset chk enc pre suf i Hi)].
Qed.
Print Assumptions C46_roundtrip.

(** [a, é, newline, emoji, b]: the offset of [b] is 8; it is in column 4, 2, 1 of line 1. *)
Example C46_ex :
  option_map (fun i => (get_position (Index i None) 8, get_position (Index i (Some Utf16)) 8, get_position (Index i (Some Utf32)) 8,
                        get_offset true (Index i (Some Utf16)) (Pos 1 2))) (li_new [97; 233; 10; 128512; 98])
  = Some (LOk (Pos 1 4), LOk (Pos 1 2), LOk (Pos 1 1), LOk 8).
Proof. reflexivity. Qed.

(** * C43: incremental edits *)

(** One notification whose changes come from the end of the document towards its start (in
    particular a single change): the server's text becomes the editor's. *)
Theorem C43_batch_partial : forall (chk : bool) (enc : option wenc) (t t' : str) (i : line_index) (cs : list change),
  li_new t = Some i -> bottom_up cs -> edits enc t cs t' ->
  apply_changes chk (Index i enc) t cs = Some t'.
Proof. intros chk enc t t' i cs Hi Hb He. apply (apply_changes_ok chk enc); [exists i; auto|exact Hb|exact He]. Qed.
Print Assumptions C43_batch_partial.

Lemma history_session enc uri t bs t' : history enc t bs t' ->
  let ed t : editor := fun u => if str_eqb uri u then Some t else None in
  session true enc (ed t) (map (DidChange uri) bs) (ed t').
Proof.
  intros H ed. induction H as [t|t b t' bs t'' Hh He Hs Hrest IH]; [constructor|]. cbn [map].
  apply session_cons with (ed' := ed t'); [| |exact IH].
  - intros u. unfold ed. destruct (str_eqb uri u) eqn:E.
    + apply str_eqb_eq in E. subst u. constructor; assumption.
    + apply tr_change_other. intros ->. rewrite str_eqb_refl in E. discriminate.
  - intros u x. unfold ed. destruct (str_eqb uri u); [|discriminate]. intros Hx. injection Hx as <-. exact Hs.
Qed.

(** After opening a document and any history of such notifications the server's text is the
    editor's (and the server did not panic). *)
Theorem C43_history_partial : forall {S} (compile : str -> str -> index -> S) (chk : bool) (enc : option wenc)
    (uri t t' : str) (bs : list (list change)),
  bytes_len t < 2 ^ 32 -> history enc t bs t' ->
  exists sv', run compile chk (Server enc [] []) (DidOpen uri t :: map (DidChange uri) bs) = Some sv'
    /\ option_map f_content (document sv' uri) = Some t'.
Proof.
  intros S compile chk enc uri t t' bs Hb Hh.
  pose (ed := fun (t : str) (u : str) => if str_eqb uri u then Some t else None).
  assert (Hses : session true enc (fun _ => None) (DidOpen uri t :: map (DidChange uri) bs) (ed t')).
  { apply session_cons with (ed' := ed t); [| |exact (history_session enc uri t bs t' Hh)].
    - intros u. unfold ed. destruct (str_eqb uri u) eqn:E.
      + apply str_eqb_eq in E. subst u. constructor.
      + apply tr_open_other. intros ->. rewrite str_eqb_refl in E. discriminate.
    - intros u x. unfold ed. destruct (str_eqb uri u); [|discriminate]. intros Hx. injection Hx as <-. exact Hb. }
  destruct (session_ok compile chk enc _ _ _ Hses (Server enc [] [])) as (sv' & Hr & Hsy); [reflexivity|intros u f; discriminate|intros u; reflexivity|].
  exists sv'. split; [exact Hr|]. rewrite (Hsy uri). unfold ed. rewrite str_eqb_refl. reflexivity.
Qed.
Print Assumptions C43_history_partial.

(** Two changes, bottom up, around a char of two code units. *)
Example C43_ex :
  let t := [97; 128512; 98; 10; 99] in
  let cs := [Change (Some (Pos 1 0, Pos 1 1)) [120; 121]; Change (Some (Pos 0 1, Pos 0 3)) []] in
  bottom_up cs /\ edits (Some Utf16) t cs [97; 98; 10; 120; 121]
  /\ run (fun _ _ _ => tt) true (Server (Some Utf16) [] []) [DidOpen [117] t; DidChange [117] cs] <> None.
Proof.
  cbn zeta. split; [|split].
  - cbn [bottom_up]. split; [|split; [|exact I]].
    + exists (Pos 1 0), (Pos 1 1). split; [reflexivity|]. exists (Pos 0 1), (Pos 0 3). split; [reflexivity|]. left. reflexivity.
    + exists (Pos 0 1), (Pos 0 3). auto.
  - eapply edits_cons; [exact (edit_range (Some Utf16) [97; 128512; 98; 10] [99] [] [120; 121])|].
    eapply edits_cons; [exact (edit_range (Some Utf16) [97] [128512] [98; 10; 120; 121] [])|]. constructor.
  - discriminate.
Qed.

(** In general it is false.  All changes of a notification are located with the line table of
    the text before the notification: inserting a newline at the start of [ab] and then [x] at
    the start of the new second line loses the [x]; emptying the first line of [aaaa\nb] and
    then appending to the second one crashes the server; and the replacement of the whole text
    in a notification with other changes is dropped. *)
Theorem C43_batches_refuted : forall {S} (compile : str -> str -> index -> S) (chk : bool) (enc : option wenc),
  let text es uri := option_map (fun sv => option_map f_content (document sv uri)) (run compile chk (Server enc [] []) es) in
  (let cs := [Change (Some (Pos 0 0, Pos 0 0)) [10]; Change (Some (Pos 1 0, Pos 1 0)) [120]] in
   edits enc [97; 98] cs [10; 120; 97; 98]
   /\ text [DidOpen [117] [97; 98]; DidChange [117] cs] [117] = Some (Some [10; 97; 98]))
  /\ (let cs := [Change (Some (Pos 0 0, Pos 0 4)) []; Change (Some (Pos 1 1, Pos 1 1)) [99]] in
      edits enc [97; 97; 97; 97; 10; 98] cs [10; 98; 99]
      /\ text [DidOpen [117] [97; 97; 97; 97; 10; 98]; DidChange [117] cs] [117] = None)
  /\ (let cs := [Change None [122]; Change (Some (Pos 0 0, Pos 0 0)) [120]] in
      edits enc [97; 98] cs [120; 122]
      /\ text [DidOpen [117] [97; 98]; DidChange [117] cs] [117] = Some (Some [120; 97; 98])).
Proof.
  intros S compile chk enc text. split; [|split].
  - split; [|destruct enc as [[]|]; reflexivity].
    eapply edits_cons; [exact (edit_range enc [] [] [97; 98] [10])|].
    eapply edits_cons; [|constructor].
    replace (Pos 1 0) with (end_of enc [10]) at 1 by reflexivity. replace (Pos 1 0) with (end_of enc ([10] ++ [])) by reflexivity.
    exact (edit_range enc [10] [] [97; 98] [120]).
  - split; [|destruct enc as [[]|]; reflexivity].
    eapply edits_cons.
    + replace (Pos 0 0) with (end_of enc []) by reflexivity.
      replace (Pos 0 4) with (end_of enc ([] ++ [97; 97; 97; 97])) by (destruct enc as [[]|]; reflexivity).
      exact (edit_range enc [] [97; 97; 97; 97] [10; 98] []).
    + eapply edits_cons; [|constructor].
      replace (Pos 1 1) with (end_of enc [10; 98]) at 1 by (destruct enc as [[]|]; reflexivity).
      replace (Pos 1 1) with (end_of enc ([10; 98] ++ [])) by (destruct enc as [[]|]; reflexivity).
      exact (edit_range enc [10; 98] [] [] [99]).
  - split; [|destruct enc as [[]|]; reflexivity].
    eapply edits_cons; [exact (edit_full enc _ [122])|].
    eapply edits_cons; [exact (edit_range enc [] [] [122] [120])|]. constructor.
Qed.
Print Assumptions C43_batches_refuted.

(** A column beyond the end of its line, which the protocol tells servers to read as the end of
    the line, is taken to point into the following lines or, behind the last one, crashes the
    server. *)
Theorem C43_column_beyond_end_refuted : forall {S} (compile : str -> str -> index -> S) (chk : bool) (enc : option wenc),
  let text es uri := option_map (fun sv => option_map f_content (document sv uri)) (run compile chk (Server enc [] []) es) in
  text [DidOpen [117] [97; 10; 98]; DidChange [117] [Change (Some (Pos 0 2, Pos 0 2)) [120]]] [117] = Some (Some [97; 10; 120; 98])
  /\ text [DidOpen [117] [97; 10; 98]; DidChange [117] [Change (Some (Pos 0 9, Pos 0 9)) [120]]] [117] = None.
Proof. intros S compile chk enc text. destruct enc as [[]|]; split; reflexivity. Qed.
Print Assumptions C43_column_beyond_end_refuted.

(** * C45: the documents *)

(** Over any session without closing, the server knows exactly the documents the editor has
    opened and not deleted, with their current texts. *)
Theorem C45_open_documents_partial : forall {S} (compile : str -> str -> index -> S) (chk : bool) (enc : option wenc)
    (es : list event) (ed : editor),
  (forall uri, ~ In (DidClose uri) es) -> session false enc (fun _ => None) es ed ->
  exists sv, run compile chk (Server enc [] []) es = Some sv
    /\ forall uri, option_map f_content (document sv uri) = ed uri.
Proof.
  intros S compile chk enc es ed Hno Hses.
  assert (H : session true enc (fun _ => None) es ed).
  { induction Hses as [ed|ed0 e ed1 es ed2 Ht Hsm Hs IH]; [constructor|].
    apply session_cons with (ed' := ed1); [|exact Hsm|apply IH; intros uri Hin; exact (Hno uri (or_intror Hin))].
    intros uri. specialize (Ht uri). destruct Ht; try (constructor; assumption).
    exfalso. exact (Hno uri (or_introl eq_refl)). }
  destruct (session_ok compile chk enc _ _ _ H (Server enc [] [])) as (sv & Hr & Hsy); [reflexivity|intros u f; discriminate|intros u; reflexivity|].
  exists sv. split; [exact Hr|exact Hsy].
Qed.
Print Assumptions C45_open_documents_partial.

(** With closing: exactly the documents that were opened, closed or not, and not deleted. *)
Theorem C45_documents_exact : forall {S} (compile : str -> str -> index -> S) (chk : bool) (enc : option wenc)
    (es : list event) (ed : editor),
  session true enc (fun _ => None) es ed ->
  exists sv, run compile chk (Server enc [] []) es = Some sv
    /\ forall uri, option_map f_content (document sv uri) = ed uri.
Proof.
  intros S compile chk enc es ed H.
  destruct (session_ok compile chk enc _ _ _ H (Server enc [] [])) as (sv & Hr & Hsy); [reflexivity|intros u f; discriminate|intros u; reflexivity|].
  exists sv. split; [exact Hr|exact Hsy].
Qed.
Print Assumptions C45_documents_exact.

(** A session with two documents, an edit, a deletion. *)
Example C45_ex :
  let es := [DidOpen [97] [120]; DidOpen [98] [121]; DidChange [97] [Change (Some (Pos 0 1, Pos 0 1)) [122]]; DidDelete [[98]]] in
  session false None (fun _ => None) es (fun u => if str_eqb [97] u then Some [120; 122] else None)
  /\ option_map (fun sv => (option_map f_content (document sv [97]), option_map f_content (document sv [98])))
       (run (fun _ _ _ => tt) true (Server None [] []) es) = Some (Some [120; 122], None).
Proof.
  cbn zeta. split; [|reflexivity].
  assert (Hne : forall u v, str_eqb u v = false -> u <> v) by (intros u v H ->; rewrite str_eqb_refl in H; discriminate).
  apply session_cons with (ed' := fun u => if str_eqb [97] u then Some [120] else None).
  { intros u. destruct (str_eqb [97] u) eqn:E; [apply str_eqb_eq in E; subst u; constructor|apply tr_open_other; auto]. }
  { intros u t. destruct (str_eqb [97] u); [|discriminate]. intros H. injection H as <-. reflexivity. }
  apply session_cons with (ed' := fun u => if str_eqb [97] u then Some [120] else if str_eqb [98] u then Some [121] else None).
  { intros u. destruct (str_eqb [97] u) eqn:E; [apply str_eqb_eq in E; subst u; apply tr_open_other; discriminate|].
    destruct (str_eqb [98] u) eqn:E'; [apply str_eqb_eq in E'; subst u; constructor|apply tr_open_other; auto]. }
  { intros u t. destruct (str_eqb [97] u); [intros H; injection H as <-; reflexivity|].
    destruct (str_eqb [98] u); [|discriminate]. intros H. injection H as <-. reflexivity. }
  apply session_cons with (ed' := fun u => if str_eqb [97] u then Some [120; 122] else if str_eqb [98] u then Some [121] else None).
  { intros u. destruct (str_eqb [97] u) eqn:E; [apply str_eqb_eq in E; subst u|].
    - apply tr_change.
      + right. split; [|exact I]. exists (Pos 0 1), (Pos 0 1). auto.
      + eapply edits_cons; [exact (edit_range None [120] [] [] [122])|constructor].
    - apply tr_change_other; auto. }
  { intros u t. destruct (str_eqb [97] u); [intros H; injection H as <-; reflexivity|].
    destruct (str_eqb [98] u); [|discriminate]. intros H. injection H as <-. reflexivity. }
  apply session_cons with (ed' := fun u => if str_eqb [97] u then Some [120; 122] else None).
  { intros u. destruct (str_eqb [97] u) eqn:E; [apply str_eqb_eq in E; subst u; apply tr_delete_other; intros [H|[]]; discriminate|].
    destruct (str_eqb [98] u) eqn:E'; [apply str_eqb_eq in E'; subst u; apply tr_delete; left; reflexivity|].
    apply tr_delete_other. intros [H|[]]; subst u; discriminate. }
  { intros u t. destruct (str_eqb [97] u); [|discriminate]. intros H. injection H as <-. reflexivity. }
  constructor.
Qed.

(** A closed document remains available. *)
Theorem C45_closed_refuted : forall {S} (compile : str -> str -> index -> S) (chk : bool) (enc : option wenc) (uri t : str),
  bytes_len t < 2 ^ 32 ->
  session false enc (fun _ => None) [DidOpen uri t; DidClose uri] (fun _ => None)
  /\ exists sv, run compile chk (Server enc [] []) [DidOpen uri t; DidClose uri] = Some sv
       /\ option_map f_content (document sv uri) = Some t.
Proof.
  intros S compile chk enc uri t Hb.
  assert (Hne : forall u, str_eqb uri u = false -> uri <> u) by (intros u H ->; rewrite str_eqb_refl in H; discriminate).
  split.
  - apply session_cons with (ed' := fun u => if str_eqb uri u then Some t else None).
    { intros u. destruct (str_eqb uri u) eqn:E; [apply str_eqb_eq in E; subst u; constructor|apply tr_open_other; auto]. }
    { intros u x. destruct (str_eqb uri u); [|discriminate]. intros H. injection H as <-. exact Hb. }
    apply session_cons with (ed' := fun _ => None); [| |constructor].
    + intros u. destruct (str_eqb uri u) eqn:E; [apply str_eqb_eq in E; subst u; exact (tr_close false enc uri (Some t))|apply tr_close_other; auto].
    + intros u x H. discriminate H.
  - destruct (create_some compile enc uri t Hb) as [f Hf]. destruct (create_consistent compile enc uri t f Hf) as [_ Hc].
    exists (Server enc [(uri, f)] [(uri, f_schema f)]). cbn [run step did_open did_close sv_files sv_enc st_get document].
    rewrite Hf. cbn [option_map st_insert st_remove filter]. split; [reflexivity|].
    unfold document. cbn [sv_files st_get]. rewrite str_eqb_refl. cbn [option_map]. congruence.
Qed.
Print Assumptions C45_closed_refuted.

(** * C50: parse results and diagnostics belong to the current text *)

(** After any notifications whatsoever, in any order: the parse result and line table the
    requests are answered with are those of the document's current text. *)
Theorem C50_analysis_current : forall {S} (compile : str -> str -> index -> S) (chk : bool) (enc : option wenc)
    (es : list event) (sv : server) (uri : str) (f : file),
  run compile chk (Server enc [] []) es = Some sv -> document sv uri = Some f ->
  exists i, li_new (f_content f) = Some i /\ f_index f = Index i enc
    /\ f_schema f = compile uri (f_content f) (Index i enc) /\ f_rope f = f_content f.
Proof.
  intros S compile chk enc es sv uri f Hr Hd.
  assert (Hc : all_consistent compile sv) by (apply (run_consistent compile chk es _ sv) in Hr; [exact Hr|intros u g; discriminate]).
  destruct (Hc uri f Hd) as (H1 & (i & Hi & Hx) & H3). apply (run_enc compile) in Hr. cbn [sv_enc] in Hr. rewrite Hr in Hx.
  exists i. rewrite <- Hx. auto.
Qed.
Print Assumptions C50_analysis_current.

(** The diagnostics last sent for a document that is still known are those of its current text. *)
Theorem C50_diagnostics_current : forall {S} (compile : str -> str -> index -> S) (chk : bool) (enc : option wenc)
    (es : list event) (sv : server) (uri : str) (f : file) (newer older : list (str * S)) (d : S),
  run compile chk (Server enc [] []) es = Some sv -> document sv uri = Some f ->
  sv_published sv = newer ++ (uri, d) :: older -> (forall x, ~ In (uri, x) newer) -> d = f_schema f.
Proof.
  intros S compile chk enc es sv uri f newer older d Hr Hd Hp Hn.
  assert (Hc : published_ok sv) by (apply (run_published compile chk es _ sv) in Hr; [exact Hr|intros u s g; discriminate]).
  apply (Hc uri); [|exact Hd]. rewrite Hp. clear -Hn. induction newer as [|[u x] newer IH]; cbn [app assoc].
  - rewrite str_eqb_refl. reflexivity.
  - destruct (str_eqb u uri) eqn:E; [apply str_eqb_eq in E; subst u; exfalso; exact (Hn x (or_introl eq_refl))|].
    apply IH. intros y Hy. exact (Hn y (or_intror Hy)).
Qed.
Print Assumptions C50_diagnostics_current.

(** Every notification that leaves the document known and is about it sends its diagnostics. *)
Theorem C50_diagnostics_sent : forall {S} (compile : str -> str -> index -> S) (chk : bool) (sv sv' : server) (e : event) (uri : str) (f : file),
  step compile chk sv e = Some sv' -> (exists t, e = DidOpen uri t) \/ (exists cs, e = DidChange uri cs) -> document sv' uri = Some f ->
  exists d, sv_published sv' = (uri, d) :: sv_published sv.
Proof.
  intros S compile chk sv sv' e uri f Hs He Hd. pose proof (step_published compile chk sv e sv' Hs) as P. pose proof (step_document compile chk sv e sv' Hs uri) as D.
  destruct He as [[t ->]|[cs ->]].
  - destruct P as (g & _ & P). eauto.
  - destruct P as [E|(g & _ & P)]; [|eauto]. subst sv'. exfalso. rewrite str_eqb_refl in D.
    unfold step, did_change in Hs. destruct (is_full cs) eqn:Ef.
    + destruct cs as [|c cs]; [discriminate|]. destruct (create_file compile (sv_enc sv) uri (ch_text c)); [|discriminate]. cbn [option_map] in Hs.
      assert (Hl : length (sv_published sv) = Datatypes.S (length (sv_published sv))) by (injection Hs as Hs; rewrite <- Hs at 1; reflexivity). lia.
    + unfold document in Hd. rewrite Hd in Hs. destruct (update_file compile uri f _) as [g|]; [|discriminate]. cbn [option_map] in Hs.
      assert (Hl : length (sv_published sv) = Datatypes.S (length (sv_published sv))) by (injection Hs as Hs; rewrite <- Hs at 1; reflexivity). lia.
Qed.
Print Assumptions C50_diagnostics_sent.

Example C50_ex :
  let es := [DidOpen [97] [120]; DidChange [97] [Change (Some (Pos 0 0, Pos 0 1)) [121; 10]]] in
  option_map (fun sv => (sv_published sv, option_map f_schema (document sv [97])))
    (run (fun _ t _ => t) true (Server None [] []) es) = Some ([([97], [121; 10]); ([97], [120])], Some [121; 10]).
Proof. reflexivity. Qed.

(** * C44: semantic tokens *)

(** Tokens visited in document order are sent such that the editor decodes the same tokens. *)
Theorem C44_tokens_decode : forall (chk : bool) (ts : list token),
  in_order (Pos 0 0) ts -> exists l, tokens chk ts = LOk l /\ decode_tokens (Pos 0 0) l = ts.
Proof. intros chk ts H. exact (emit_decode chk ts (Pos 0 0) H). Qed.
Print Assumptions C44_tokens_decode.

(** The order is necessary: otherwise a subtraction overflows or a span of several lines is
    an error. *)
Theorem C44_order_necessary : forall (ts : list token) (l : list sem_token),
  tokens true ts = LOk l -> in_order (Pos 0 0) ts.
Proof. intros ts l H. exact (emit_order ts (Pos 0 0) l H). Qed.
Print Assumptions C44_order_necessary.

(** A modifier's bit is set iff the token has the modifier. *)
Theorem C44_modifiers : forall (mods : list bool) (k : N),
  N.testbit (modifier_bitset mods) k = nth (N.to_nat k) mods false.
Proof. exact bitset_ok. Qed.
Print Assumptions C44_modifiers.

Example C44_ex :
  let ts := [Token (Pos 0 0) (Pos 0 6) 8 0; Token (Pos 0 7) (Pos 0 10) 3 1; Token (Pos 2 4) (Pos 2 5) 6 1] in
  in_order (Pos 0 0) ts
  /\ tokens true ts = LOk [SemToken 0 0 6 8 0; SemToken 0 7 3 3 1; SemToken 2 4 1 6 1].
Proof. cbn [in_order tk_start tk_end p_line p_char]. unfold pos_le. cbn [p_line p_char]. split; [lia|reflexivity]. Qed.
