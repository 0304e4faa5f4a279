(** C76-C79: the language server's conversation with the editor. *)
From Verif Require Import Base Syntax Parser Lsp LspSpec LspServer LspSession SessionProofs.
Require Coq.Strings.String.
Import Coq.Strings.String.StringSyntax.
Local Open Scope N_scope.

(** * Specification *)

(** The text of a project file the server has read at the start; the last one with a URI counts. *)
Fixpoint found (files : list (option str * option str)) (uri : str) : option str :=
  match files with
  | [] => None
  | f :: rest => match found rest uri with
      | Some t => Some t
      | None => match f with (Some u, Some t) => if str_eqb u uri then Some t else None | _ => None end
      end
  end.
Definition small_files (files : list (option str * option str)) : Prop := forall u t, In (u, Some t) files -> bytes_len t < 2 ^ 32.
(** What the names of the position encodings mean; [None] is UTF-8. *)
Inductive means : str -> option wenc -> Prop :=
| means_8 : means (tx "utf-8") None
| means_16 : means (tx "utf-16") (Some Utf16)
| means_32 : means (tx "utf-32") (Some Utf32).

(** * Facts about the start *)
Section Start.
Context {S : Type} (compile : str -> str -> index -> S).
Definition knows (s : @store S) (ed : editor) : Prop := forall u, option_map (f_content (S := S)) (st_get s u) = ed u.
Lemma load_step enc files : forall (s : @store S) (ed : editor) s',
  (forall u f, st_get s u = Some f -> consistent compile enc u f) -> knows s ed ->
  fold_left (fun acc f => match acc, f with Some s, (Some uri, Some text) => option_map (st_insert s uri) (create_file compile enc uri text) | _, _ => acc end) files (Some s) = Some s' ->
  (forall u f, st_get s' u = Some f -> consistent compile enc u f) /\ knows s' (fun u => match found files u with Some t => Some t | None => ed u end).
Proof.
  induction files as [|[[uri|] [text|]] files IH]; intros s ed s' Hc Hk H; cbn [fold_left] in H.
  - injection H as <-. split; [exact Hc|exact Hk].
  - destruct (create_file compile enc uri text) as [f|] eqn:Ef; cbn [option_map] in H.
    2:{ exfalso. clear -H. induction files as [|g files IH]; cbn in H; [discriminate|exact (IH H)]. }
    destruct (create_consistent compile _ _ _ _ Ef) as [Hcf Hcc]. destruct (IH (st_insert s uri f) (fun u => if str_eqb uri u then Some text else ed u) s') as [H1 H2]; [| |exact H|].
    + intros u g. rewrite st_get_insert. destruct (str_eqb uri u) eqn:E; [|apply Hc]. apply str_eqb_eq in E. subst u. intros Hg. injection Hg as <-. exact Hcf.
    + intros u. rewrite st_get_insert. destruct (str_eqb uri u); [cbn; rewrite Hcc; reflexivity|apply Hk].
    + split; [exact H1|]. intros u. rewrite (H2 u). cbn [found]. destruct (found files u); [reflexivity|]. destruct (str_eqb uri u); reflexivity.
  - destruct (IH _ _ _ Hc Hk H) as [H1 H2]. split; [exact H1|]. intros u. rewrite (H2 u). cbn [found]. destruct (found files u); reflexivity.
  - destruct (IH _ _ _ Hc Hk H) as [H1 H2]. split; [exact H1|]. intros u. rewrite (H2 u). cbn [found]. destruct (found files u); reflexivity.
  - destruct (IH _ _ _ Hc Hk H) as [H1 H2]. split; [exact H1|]. intros u. rewrite (H2 u). cbn [found]. destruct (found files u); reflexivity.
Qed.
Lemma load_some enc files : small_files files -> forall s : @store S, exists s',
  fold_left (fun acc f => match acc, f with Some s, (Some uri, Some text) => option_map (st_insert s uri) (create_file compile enc uri text) | _, _ => acc end) files (Some s) = Some s'.
Proof.
  induction files as [|[[uri|] [text|]] files IH]; intros Hs s; cbn [fold_left]; [eauto| |apply IH; intros u t Hi; exact (Hs u t (or_intror Hi))..].
  destruct (create_some compile enc uri text (Hs _ _ (or_introl eq_refl))) as [f ->]. cbn [option_map]. apply IH. intros u t Hi; exact (Hs u t (or_intror Hi)).
Qed.
Lemma initialize_sync discover p d : initialize compile discover p = Some d ->
  sv_enc d = used (chosen p) /\ all_consistent compile d /\ in_sync d (found (flat_map discover (in_folders p))).
Proof.
  unfold initialize, load. intros H. destruct (fold_left _ _ _) as [s|] eqn:E; [|discriminate]. injection H as <-. split; [reflexivity|].
  destruct (load_step _ _ [] (fun _ => None) _ ltac:(discriminate) (fun _ => eq_refl) E) as [H1 H2]. split; [exact H1|].
  intros u. unfold document. cbn [sv_files]. rewrite (H2 u). destruct (found _ u); reflexivity.
Qed.
Lemma initialize_some discover p : small_files (flat_map discover (in_folders p)) -> exists d, initialize compile discover p = Some d.
Proof.
  intros H. destruct (load_some (used (chosen p)) _ H []) as [s Hs]. unfold initialize. assert (E : load compile (used (chosen p)) (flat_map discover (in_folders p)) = Some s) by exact Hs.
  rewrite E. cbn. eauto.
Qed.
End Start.

(** * C76: answers *)

(** Whatever arrives, in whatever order: the answers the server sends belong, one to one and in order, to requests that arrived, and each is of a kind
    the request allows (or says that the server is not initialized). *)
Theorem C76_no_stray : forall {S A V C} (compile : str -> str -> index -> S) (chk : bool) (answer : @server S -> C -> query -> lres A) (read_settings : V -> option C) (null : V) (default : C)
    (discover : str -> list (option str * option str)) (l : list (arrival V)) e s o,
  serve compile chk answer read_settings null default discover l = (e, s, o) -> matched (asked l) (answered o).
Proof.
  intros S A V C compile chk answer read_settings null default discover l e s o H. destruct (channel_prefix l) as [rest Hl]. rewrite Hl, asked_app. apply matched_more.
  exact (converse_matched _ _ _ _ _ _ _ _ _ _ _ _ H).
Qed.
Print Assumptions C76_no_stray.

(** After a proper opening, and unless a handler panics: the requests before [initialize] are refused, [initialize] is answered with the encoding, and
    then exactly the requests that the main loop gets are answered, in order, each in a fitting way; all arrivals but the swallowed ones get there. *)
Theorem C76_exact : forall {S A V C} (compile : str -> str -> index -> S) (chk : bool) (answer : @server S -> C -> query -> lres A) (read_settings : V -> option C) (null : V) (default : C)
    (discover : str -> list (option str * option str)) (early : list (arrival V)) i p pause ok l e s o,
  Forall before early -> Forall silent pause -> serve compile chk answer read_settings null default discover (opened early i p pause ok l) = (e, s, o) -> e <> Crash ->
  exists os, answered o = map (fun q => (fst q, Failure ServerNotInitialized)) (asked early) ++ (i, Capabilities (chosen p)) :: os
    /\ Forall2 replied (requests_of (heard 2 (channel l))) os.
Proof.
  intros S A V C compile chk answer read_settings null default discover early i p pause ok l e s o He Hp H Hc.
  destruct (opened_exact _ _ _ _ _ _ _ _ _ _ _ _ _ _ _ _ He Hp H Hc) as (d & os & _ & H1 & H2 & _). eauto.
Qed.
Print Assumptions C76_exact.

(** So an editor that sends nothing while the server waits for the editor's own answers gets every request answered, exactly once and in order.
    Missing for the full claim: editors that do send something then, see [C76_lost_refuted]. *)
Theorem C76_answered_partial : forall {S A V C} (compile : str -> str -> index -> S) (chk : bool) (answer : @server S -> C -> query -> lres A) (read_settings : V -> option C) (null : V) (default : C)
    (discover : str -> list (option str * option str)) (early : list (arrival V)) i p pause ok l e s o,
  Forall before early -> Forall silent pause -> patient 2 l -> serve compile chk answer read_settings null default discover (opened early i p pause ok l) = (e, s, o) -> e <> Crash ->
  map fst (answered o) = map fst (asked (opened early i p pause ok l))
  /\ exists os, answered o = map (fun q => (fst q, Failure ServerNotInitialized)) (asked early) ++ (i, Capabilities (chosen p)) :: os /\ Forall2 replied (asked l) os.
Proof.
  intros S A V C compile chk answer read_settings null default discover early i p pause ok l e s o He Hp Hl H Hc.
  destruct (C76_exact _ _ _ _ _ _ _ _ _ _ _ _ _ _ _ _ He Hp H Hc) as (os & H1 & H2). rewrite (proj1 (patient_heard l 2 Hl)) in H2. split; [|eauto].
  rewrite H1. unfold opened. rewrite asked_app. change (Arrives (MRequest i (RqInitialize (Some p))) :: ?x) with ([Arrives (MRequest i (RqInitialize (Some p)))] ++ x).
  rewrite !asked_app. assert (Hz : asked pause = []). { clear -Hp. induction Hp as [|[|  |] l Hx Hp IH]; try contradiction; [reflexivity|exact IH..]. }
  rewrite Hz, !map_app, map_map. cbn [fst app asked flat_map map]. f_equal. f_equal.
  fold (asked l). clear -H2. induction H2 as [|q a ql os' [Hf _] H2 IH]; [reflexivity|]. cbn [map]. rewrite Hf. f_equal. exact IH.
Qed.
Print Assumptions C76_answered_partial.

(** The claim without that restriction is false: a request that arrives directly behind [initialized], while the server waits for the configuration, is
    never answered, whatever else happens; neither is an [initialize] with parameters of the wrong form. *)
Theorem C76_lost_refuted : forall {S A V C} (compile : str -> str -> index -> S) (chk : bool) (answer : @server S -> C -> query -> lres A) (read_settings : V -> option C) (null : V) (default : C)
    (discover : str -> list (option str * option str)),
  (forall i p j r l e s o, serve compile chk answer read_settings null default discover (opened [] i p [] true (Arrives (MRequest j r) :: l)) = (e, s, o) ->
     j <> i -> ~ In j (map fst (asked l)) -> ~ In j (map fst (answered o)))
  /\ (forall i l e s o, serve compile chk answer read_settings null default discover (Arrives (MRequest i (RqInitialize None)) :: l) = (e, s, o) -> e = ExitErr /\ o = []).
Proof.
  intros S A V C compile chk answer read_settings null default discover. split.
  - intros i p j r l e s o H Hj Hn Hi. destruct (initialize compile discover p) as [d|] eqn:Hd.
    2:{ rewrite (serve_opened_crash _ _ _ _ _ _ _ _ _ _ _ _ _ (Forall_nil _) (Forall_nil _) Hd) in H. injection H as <- <- <-. exact Hi. }
    rewrite (serve_opened _ _ _ _ _ _ _ _ _ _ _ _ _ d (Forall_nil _) (Forall_nil _) Hd) in H. cbn [channel talk turn] in H.
    unfold send_request in H. destruct (talk _ _ _ _ _ _ (WaitRegister _) _ (channel l)) as [[m1 s1] o1] eqn:E. pose proof (closed_answered (A := A) m1 s1) as Hca. destruct (closed m1 s1) as [e' o'] eqn:Ec.
    injection H as <- <- <-.
    cbn [snd] in Hca.
    change (In j (i :: map fst (answered (o1 ++ o')))) in Hi. rewrite answered_app, Hca, app_nil_r in Hi. destruct Hi as [Hi|Hi]; [congruence|].
    assert (Hm : matched (asked (channel l)) (answered o1)).
    { rewrite <- (app_nil_r (answered o1)), <- Hca, <- answered_app. eapply (converse_matched compile chk answer read_settings null discover (channel l)). rewrite converse_talk, E, Ec. reflexivity. }
    apply Hn. destruct (channel_prefix l) as [rest Hl]. rewrite Hl, asked_app, map_app. apply in_or_app. left. clear -Hm Hi. induction Hm; cbn in *; [contradiction|auto|tauto].
  - intros i l e s o. unfold serve. cbn [channel converse turn]. rewrite converse_talk, ended_talk. cbn. intros H. injection H as <- <- <-. auto.
Qed.
Print Assumptions C76_lost_refuted.

(** * C77: documents and queries over a whole conversation *)

(** An editor that waits for the server in the same way, and whose notifications are those of a session (see C45; closed documents are kept): the server
    does not crash and in the end has the texts the editor has, starting from the project files it has found.
    Missing for the full claim: editors that do not wait, see [C77_first_open_lost_refuted]. *)
Theorem C77_documents_partial : forall {S A V C} (compile : str -> str -> index -> S) (chk : bool) (answer : @server S -> C -> query -> lres A) (read_settings : V -> option C) (null : V) (default : C)
    (discover : str -> list (option str * option str)) (early : list (arrival V)) i p pause ok l (ed : editor) e s o,
  Forall before early -> Forall silent pause -> patient 2 l ->
  small_files (flat_map discover (in_folders p)) -> (forall sv c q, answer sv c q <> LPanic) ->
  session true (used (chosen p)) (found (flat_map discover (in_folders p))) (events_in l) ed ->
  serve compile chk answer read_settings null default discover (opened early i p pause ok l) = (e, s, o) ->
  e <> Crash /\ forall uri, option_map (f_content (S := S)) (document (st_docs s) uri) = ed uri.
Proof.
  intros S A V C compile chk answer read_settings null default discover early i p pause ok l ed e s o He Hp Hl Hsm Ha Hses H.
  destruct (initialize_some compile discover p Hsm) as [d Hd]. destruct (initialize_sync compile discover p d Hd) as (Hen & Hco & Hsy).
  destruct (session_ok compile chk _ _ _ _ Hses d Hen Hco Hsy) as (sv & Hr & Hs'). destruct (patient_heard l 2 Hl) as [_ Hev]. rewrite <- Hev in Hr.
  assert (Hc : e <> Crash).
  { intros ->. apply (opened_alive compile chk answer read_settings null default discover early i p pause ok l d He Hp Ha Hd).
    - rewrite Hr. discriminate.
    - rewrite H. reflexivity. }
  split; [exact Hc|]. destruct (opened_exact _ _ _ _ _ _ _ _ _ _ _ _ _ _ _ _ He Hp H Hc) as (d' & os & Hd' & _ & _ & Hr').
  assert (d' = d) as -> by congruence. rewrite Hr in Hr'. injection Hr' as <-. exact Hs'.
Qed.
Print Assumptions C77_documents_partial.

(** A query that arrives when the server waits for nothing is answered from the documents and the settings the conversation so far has led to. *)
Theorem C77_query_current : forall {S A V C} (compile : str -> str -> index -> S) (chk : bool) (answer : @server S -> C -> query -> lres A) (read_settings : V -> option C) (null : V) (default : C)
    (discover : str -> list (option str * option str)) (early : list (arrival V)) i p pause ok l j q l' e1 s1 o1 e s o,
  Forall before early -> Forall silent pause -> Forall stays l -> awaits 2 l = Some 0%nat ->
  serve compile chk answer read_settings null default discover (opened early i p pause ok l) = (e1, s1, o1) -> e1 <> Crash ->
  serve compile chk answer read_settings null default discover (opened early i p pause ok (l ++ Arrives (MRequest j (RqQuery (Some q))) :: l')) = (e, s, o) ->
  match answer (st_docs s1) (st_cfg s1) q with
  | LOk a => exists o', o = o1 ++ SResponse j (Result a) :: o'
  | LErr => exists o', o = o1 ++ SResponse j (Failure InternalError) :: o'
  | LPanic => e = Crash
  end.
Proof.
  intros S A V C compile chk answer read_settings null default discover early i p pause ok l j q l' e1 s1 o1 e s o He Hp Hst Haw H1 Hc H.
  destruct (initialize compile discover p) as [d|] eqn:Hd; [|rewrite (serve_opened_crash _ _ _ _ _ _ _ _ _ _ _ _ _ He Hp Hd) in H1; congruence].
  rewrite (serve_opened _ _ _ _ _ _ _ _ _ _ _ _ _ d He Hp Hd) in H1. rewrite (serve_opened _ _ _ _ _ _ _ _ _ _ _ _ _ d He Hp Hd) in H. rewrite <- (app_nil_r l), (channel_app l [] Hst) in H1. cbn [channel] in H1. rewrite app_nil_r in H1.
  rewrite (channel_app l _ Hst) in H. cbn [channel] in H. rewrite talk_app in H.
  destruct (talk compile chk answer read_settings null discover (WaitConfig 1 true) (St d default 1) l) as [[m2 s2] o2] eqn:E.
  assert (Hm : m2 <> Ended Crash) by (intros ->; cbn in H1; congruence).
  pose proof (talk_awaits _ _ _ _ _ _ _ _ _ _ _ _ _ _ (waits_first 1) E Hm Haw) as Hw. inversion Hw; subst m2. cbn [closed] in H1. injection H1 as <- <- <-.
  cbn [talk turn handle] in H. destruct (answer (st_docs s2) (st_cfg s2) q) as [a| |].
  - destruct (talk _ _ _ _ _ _ Idle s2 (channel l')) as [[m3 s3] o3]. destruct (closed m3 s3) as [e3 o3']. injection H as <- <- <-. rewrite app_nil_r. exists (o3 ++ o3'). rewrite <- !app_assoc. reflexivity.
  - destruct (talk _ _ _ _ _ _ Idle s2 (channel l')) as [[m3 s3] o3]. destruct (closed m3 s3) as [e3 o3']. injection H as <- <- <-. rewrite app_nil_r. exists (o3 ++ o3'). rewrite <- !app_assoc. reflexivity.
  - rewrite ended_talk in H. cbn in H. congruence.
Qed.
Print Assumptions C77_query_current.

(** The claim is false for an editor that opens a document directly behind [initialized], as editors do: the notification is swallowed, and however the
    document is edited afterwards, the server does not know it. *)
Theorem C77_first_open_lost_refuted : forall {S A V C} (compile : str -> str -> index -> S) (chk : bool) (answer : @server S -> C -> query -> lres A) (read_settings : V -> option C) (null : V) (default : C)
    (discover : str -> list (option str * option str)) i p ok (uri t : str) (a : arrival V) (bs : list (list change)) e s o,
  found (flat_map discover (in_folders p)) uri = None -> Forall (fun cs => forall t', cs <> [Change None t']) bs ->
  serve compile chk answer read_settings null default discover
    (opened [] i p [] ok (Arrives (MNotification (NtEvent (Some (DidOpen uri t)))) :: a :: map (fun cs => Arrives (MNotification (NtEvent (Some (DidChange uri cs))))) bs)) = (e, s, o) ->
  document (st_docs s) uri = None.
Proof.
  intros S A V C compile chk answer read_settings null default discover i p ok uri t a bs e s o Hf Hb H.
  destruct (initialize compile discover p) as [d|] eqn:Hd.
  2:{ rewrite (serve_opened_crash _ _ _ _ _ _ _ _ _ _ _ _ _ (Forall_nil _) (Forall_nil _) Hd) in H. injection H as <- <- <-. reflexivity. }
  destruct (initialize_sync compile discover p d Hd) as (_ & _ & Hsy). specialize (Hsy uri). rewrite Hf in Hsy.
  assert (Hdn : document d uri = None) by (destruct (document d uri); [discriminate|reflexivity]).
  rewrite (serve_opened _ _ _ _ _ _ _ _ _ _ _ _ _ d (Forall_nil _) (Forall_nil _) Hd) in H.
  assert (Hid : forall l s0, document (st_docs s0) uri = None -> Forall (fun cs => forall t', cs <> [Change None t']) l ->
            talk compile chk answer read_settings null discover Idle s0 (channel (map (fun cs => Arrives (MNotification (NtEvent (Some (DidChange uri cs))))) l)) = (Idle, s0, [])).
  { intros l. induction l as [|cs l IH]; intros s0 Hn HF; [reflexivity|]. inversion HF as [|? ? Hcs HF']; subst. cbn [map channel talk turn handle step].
    assert (Hful : is_full cs = false). { destruct (is_full cs) eqn:Ef; [|reflexivity]. destruct (is_full_true cs Ef) as [t' ->]. exfalso. exact (Hcs t' eq_refl). }
    unfold did_change. rewrite Hful. unfold document in Hn. rewrite Hn. destruct s0 as [d0 c0 n0]. cbn [st_docs st_cfg st_next]. rewrite IH; [reflexivity|exact Hn|exact HF']. }
  assert (Hx : channel (a :: map (fun cs => Arrives (MNotification (NtEvent (Some (DidChange uri cs))))) bs) = [a] /\ a = Arrives (MNotification NtExit)
     \/ channel (a :: map (fun cs => Arrives (MNotification (NtEvent (Some (DidChange uri cs))))) bs) = a :: channel (map (fun cs => Arrives (MNotification (NtEvent (Some (DidChange uri cs))))) bs)).
  { destruct a as [[i' r|[]|i' v b]| |]; cbn [channel]; auto. }
  change (channel (Arrives (MNotification (NtEvent (Some (DidOpen uri t)))) :: ?x)) with (Arrives (@MNotification V (NtEvent (Some (DidOpen uri t)))) :: channel x) in H.
  destruct Hx as [[Hx Ha]|Hx]; rewrite Hx in H; [subst a|]; cbn [talk turn] in H; unfold send_request in H; cbn [talk turn closed] in H.
  - injection H as <- <- <-. exact Hdn.
  - rewrite Hid in H; [|exact Hdn|exact Hb]. cbn [closed] in H. injection H as <- <- <-. exact Hdn.
Qed.
Print Assumptions C77_first_open_lost_refuted.

(** The project files found at the start are stored under their paths; under the [file://] URIs editors use, none of them is known. *)
Theorem C77_project_files_refuted : forall {S} (compile : str -> str -> index -> S) (discover : str -> list (option str * option str)) p d,
  (forall folder u t, In (Some u, t) (discover folder) -> exists path, u = tx "/" ++ path) ->
  initialize compile discover p = Some d -> forall path, document d (tx "file://" ++ path) = None.
Proof.
  intros S compile discover p d Hu Hd path. destruct (initialize_sync compile discover p d Hd) as (_ & _ & Hsy). specialize (Hsy (tx "file://" ++ path)).
  assert (Hf : forall files, (forall u t, In (Some u, t) files -> exists path, u = tx "/" ++ path) -> found files (tx "file://" ++ path) = None).
  { intros files. induction files as [|[[u|] [t|]] files IH]; intros Hi; cbn [found]; try reflexivity; rewrite IH; try reflexivity; try (intros u' t' Hin; exact (Hi u' t' (or_intror Hin))).
    destruct (str_eqb u (tx "file://" ++ path)) eqn:E; [|reflexivity]. apply str_eqb_eq in E. destruct (Hi u _ (or_introl eq_refl)) as [path' Hp]. rewrite Hp in E. vm_compute in E. discriminate. }
  rewrite Hf in Hsy.
  - destruct (document d (tx "file://" ++ path)); [discriminate|reflexivity].
  - intros u t Hin. apply in_flat_map in Hin. destruct Hin as (fo & _ & Hin). exact (Hu fo u t Hin).
Qed.
Print Assumptions C77_project_files_refuted.

(** * C78: settings *)

(** The server's requests have distinct ids, as long as there are at most 2^32 of them. *)
Theorem C78_ids_distinct : forall {S A V C} (compile : str -> str -> index -> S) (chk : bool) (answer : @server S -> C -> query -> lres A) (read_settings : V -> option C) (null : V) (default : C)
    (discover : str -> list (option str * option str)) (l : list (arrival V)) e s o,
  serve compile chk answer read_settings null default discover l = (e, s, o) -> (Z.of_nat (length (own_ids o)) <= 2 ^ 32)%Z -> NoDup (own_ids o).
Proof.
  intros S A V C compile chk answer read_settings null default discover l e s o H Hl. rewrite (converse_ids _ _ _ _ _ _ _ _ _ _ _ _ H).
  assert (Hn : NoDup (count_from (st_next (St (C := C) (Server (S := S) (Some Utf16) [] []) default 0)) (length (own_ids o)))) by (apply count_nodup; [cbn; lia|exact Hl]).
  induction Hn as [|x xs Hx Hn IH]; [constructor|]. cbn [map]. constructor; [|exact IH]. intros Hi. apply in_map_iff in Hi. destruct Hi as (y & Hy & Hi). injection Hy as ->. contradiction.
Qed.
Print Assumptions C78_ids_distinct.

(** The settings in use are the defaults, or what the editor has answered, without an error, to one of the server's requests for the configuration. *)
Theorem C78_settings_origin : forall {S A V C} (compile : str -> str -> index -> S) (chk : bool) (answer : @server S -> C -> query -> lres A) (read_settings : V -> option C) (null : V) (default : C)
    (discover : str -> list (option str * option str)) (l : list (arrival V)) e s o,
  serve compile chk answer read_settings null default discover l = (e, s, o) ->
  st_cfg s = default \/ exists id v, In (SRequest id AskConfiguration) o /\ In (Arrives (MResponse id v false)) l
    /\ read_settings (match v with Some v => v | None => null end) = Some (st_cfg s).
Proof.
  intros S A V C compile chk answer read_settings null default discover l e s o. unfold serve. rewrite converse_talk.
  destruct (talk _ _ _ _ _ _ Start _ (channel l)) as [[m1 s1] o1] eqn:E. destruct (closed m1 s1) as [e1 o1']. intros H. injection H as <- <- <-.
  destruct (talk_cfg _ _ _ _ _ _ _ _ _ _ _ _ E) as [Hd|(id & v & Ha & Hi & Hr)]; [left; exact Hd|right]. exists (RNum id), v.
  destruct Ha as [Ha|(b & Ha)]; [|discriminate]. split; [apply in_or_app; left; exact Ha|]. split; [|exact Hr]. destruct (channel_prefix l) as [rest Hl]. rewrite Hl. apply in_or_app. left. exact Hi.
Qed.
Print Assumptions C78_settings_origin.

(** An editor that answers in time has its settings used: at the start, and whenever it says that the configuration has changed while the server waits
    for nothing.  Missing for the full claim: editors that answer late, see [C78_late_refuted]. *)
Theorem C78_timely_partial : forall {S A V C} (compile : str -> str -> index -> S) (chk : bool) (answer : @server S -> C -> query -> lres A) (read_settings : V -> option C) (null : V) (default : C)
    (discover : str -> list (option str * option str)) (early : list (arrival V)) i p pause ok v c,
  Forall before early -> Forall silent pause -> small_files (flat_map discover (in_folders p)) -> read_settings v = Some c ->
  (forall e s o, serve compile chk answer read_settings null default discover (opened early i p pause ok [Arrives (MResponse (RNum 1) (Some v) false)]) = (e, s, o) ->
     In (SRequest (RNum 1) AskConfiguration) o /\ st_cfg s = c)
  /\ (forall l e1 s1 o1, Forall stays l -> awaits 2 l = Some 0%nat ->
        serve compile chk answer read_settings null default discover (opened early i p pause ok l) = (e1, s1, o1) -> e1 <> Crash ->
        exists id e s, serve compile chk answer read_settings null default discover (opened early i p pause ok (l ++ [Arrives (MNotification (NtConfig true)); Arrives (MResponse id (Some v) false)]))
             = (e, s, o1 ++ [SRequest id AskConfiguration])
          /\ st_cfg s = c /\ st_docs s = st_docs s1).
Proof.
  intros S A V C compile chk answer read_settings null default discover early i p pause ok v c He Hp Hsm Hv. destruct (initialize_some compile discover p Hsm) as [d Hd]. split.
  - intros e s o. rewrite (serve_opened _ _ _ _ _ _ _ _ _ _ _ _ _ d He Hp Hd). cbn [channel talk turn]. unfold send_request, reloaded, received. cbn [rid_eqb Z.eqb Pos.eqb]. rewrite Hv. cbn [closed st_docs st_cfg st_next].
    intros H. injection H as <- <- <-. split; [|reflexivity]. apply in_or_app. left. unfold greet. apply in_or_app. right. right. left. reflexivity.
  - intros l e1 s1 o1 Hst Haw H1 Hc. rewrite (serve_opened _ _ _ _ _ _ _ _ _ _ _ _ _ d He Hp Hd) in H1. rewrite <- (app_nil_r l), (channel_app l [] Hst) in H1. cbn [channel] in H1. rewrite app_nil_r in H1.
    destruct (talk compile chk answer read_settings null discover (WaitConfig 1 true) (St d default 1) l) as [[m2 s2] o2] eqn:E.
    assert (Hm : m2 <> Ended Crash) by (intros ->; cbn in H1; congruence).
    pose proof (talk_awaits _ _ _ _ _ _ _ _ _ _ _ _ _ _ (waits_first 1) E Hm Haw) as Hw. inversion Hw; subst m2. cbn [closed] in H1. injection H1 as <- <- <-.
    exists (RNum (next_i32 (st_next s2))). eexists _, _. rewrite (serve_opened _ _ _ _ _ _ _ _ _ _ _ _ _ d He Hp Hd), (channel_app l _ Hst), talk_app, E. cbn [channel talk turn handle].
    unfold reload, send_request. cbn [talk turn]. unfold reloaded, received. cbn [rid_eqb]. rewrite Z.eqb_refl, Hv. cbn [closed]. split; [rewrite !app_nil_r, <- app_assoc; reflexivity|split; reflexivity].
Qed.
Print Assumptions C78_timely_partial.

(** The claim is false for an editor that takes more than two seconds: its answer is dropped and the defaults stay, unless the editor says that the
    configuration has changed. *)
Theorem C78_late_refuted : forall {S A V C} (compile : str -> str -> index -> S) (chk : bool) (answer : @server S -> C -> query -> lres A) (read_settings : V -> option C) (null : V) (default : C)
    (discover : str -> list (option str * option str)) (early : list (arrival V)) i p pause ok v l e s o,
  Forall before early -> Forall silent pause -> (forall b, ~ In (Arrives (MNotification (NtConfig b))) l) -> (forall b, ~ In (Arrives (MNotification (NtInitialized b))) l) ->
  serve compile chk answer read_settings null default discover (opened early i p pause ok (Quiet :: Arrives (MResponse (RNum 1) (Some v) false) :: l)) = (e, s, o) -> st_cfg s = default.
Proof.
  intros S A V C compile chk answer read_settings null default discover early i p pause ok v l e s o He Hp Hn1 Hn2 H.
  destruct (initialize compile discover p) as [d|] eqn:Hd.
  2:{ rewrite (serve_opened_crash _ _ _ _ _ _ _ _ _ _ _ _ _ He Hp Hd) in H. injection H as <- <- <-. reflexivity. }
  rewrite (serve_opened _ _ _ _ _ _ _ _ _ _ _ _ _ d He Hp Hd) in H. cbn [channel talk turn] in H. unfold send_request in H. cbn [talk turn] in H.
  assert (Hk : forall l m s0 m' s' o', (forall b, ~ In (Arrives (MNotification (NtConfig b))) l) -> (forall b, ~ In (Arrives (MNotification (NtInitialized b))) l) ->
     (m = Idle \/ m = WaitExit \/ exists x, m = Ended x) -> talk compile chk answer read_settings null discover m s0 l = (m', s', o') -> st_cfg s' = st_cfg s0).
  { clear. intros l. induction l as [|a l IH]; intros m s0 m' s' o' Hn1 Hn2 Hm H; cbn [talk] in H; [injection H as <- <- <-; reflexivity|].
    destruct (turn compile chk answer read_settings null discover m s0 a) as [[m1 s1] o1] eqn:E. destruct (talk _ _ _ _ _ _ m1 s1 l) as [[m2 s2] o2] eqn:E2. injection H as <- <- <-.
    assert (Hs : st_cfg s1 = st_cfg s0 /\ (m1 = Idle \/ m1 = WaitExit \/ exists x, m1 = Ended x)).
    { destruct Hm as [->|[->|(x & ->)]]; cbn [turn] in E.
      - destruct a as [[j r|n|j w b]| |]; cbn [handle] in E; try (injection E as <- <- <-; eauto).
        + destruct r as [p'|[q|]| |]; [|destruct (answer (st_docs s0) (st_cfg s0) q)|..]; injection E as <- <- <-; eauto.
        + destruct n as [b|[ev|]|b| |]; [exfalso; exact (Hn2 b (or_introl eq_refl))|destruct (step compile chk (st_docs s0) ev)| |exfalso; exact (Hn1 b (or_introl eq_refl))|..]; injection E as <- <- <-; eauto.
      - destruct a as [[j r|[]|j w b]| |]; injection E as <- <- <-; eauto.
      - injection E as <- <- <-. eauto. }
    destruct Hs as [Hs Hm1]. rewrite <- Hs. apply (IH m1 s1 m2 s2 o2); [intros b Hi; exact (Hn1 b (or_intror Hi))|intros b Hi; exact (Hn2 b (or_intror Hi))|exact Hm1|exact E2]. }
  destruct (talk compile chk answer read_settings null discover Idle _ (channel l)) as [[m2 s2] o2] eqn:E. destruct (channel_prefix l) as [rest Hl].
  apply Hk in E; [|intros b Hi; apply (Hn1 b); rewrite Hl; apply in_or_app; left; exact Hi|intros b Hi; apply (Hn2 b); rewrite Hl; apply in_or_app; left; exact Hi|left; reflexivity].
  destruct (closed m2 s2) as [e2 o2']. injection H as <- <- <-. rewrite E. reflexivity.
Qed.
Print Assumptions C78_late_refuted.

(** * C79: beginning and end *)

(** After a proper opening, unless it crashes, the server runs until the connection ends, or until it gets [shutdown]; then it ends without an error
    exactly if [exit] is the next message and comes in time. *)
Theorem C79_ending : forall {S A V C} (compile : str -> str -> index -> S) (chk : bool) (answer : @server S -> C -> query -> lres A) (read_settings : V -> option C) (null : V) (default : C)
    (discover : str -> list (option str * option str)) (early : list (arrival V)) i p pause ok l e s o,
  Forall before early -> Forall silent pause -> serve compile chk answer read_settings null default discover (opened early i p pause ok l) = (e, s, o) -> e <> Crash ->
  e = match farewell 2 (channel l) with Some r => if leaves r then ExitOk else ExitErr | None => ExitOk end.
Proof.
  intros S A V C compile chk answer read_settings null default discover early i p pause ok l e s o He Hp H Hc.
  destruct (initialize compile discover p) as [d|] eqn:Hd; [|rewrite (serve_opened_crash _ _ _ _ _ _ _ _ _ _ _ _ _ He Hp Hd) in H; congruence].
  rewrite (serve_opened _ _ _ _ _ _ _ _ _ _ _ _ _ d He Hp Hd) in H. destruct (talk _ _ _ _ _ _ (WaitConfig 1 true) (St d default 1) (channel l)) as [[m1 s1] o1] eqn:E.
  assert (Hm : m1 <> Ended Crash) by (intros ->; cbn in H; congruence). pose proof (talk_end _ _ _ _ _ _ _ _ _ _ _ _ _ (waits_first 1) E Hm) as Ht.
  destruct (closed m1 s1) as [e1 o1']. injection H as <- <- <-. exact Ht.
Qed.
Print Assumptions C79_ending.

(** It crashes only if a query, a notification or a project file makes a handler panic. *)
Theorem C79_no_crash : forall {S A V C} (compile : str -> str -> index -> S) (chk : bool) (answer : @server S -> C -> query -> lres A) (read_settings : V -> option C) (null : V) (default : C)
    (discover : str -> list (option str * option str)) (early : list (arrival V)) i p pause ok l d,
  Forall before early -> Forall silent pause -> (forall sv c q, answer sv c q <> LPanic) ->
  initialize compile discover p = Some d -> run compile chk d (events_of (heard 2 (channel l))) <> None ->
  fst (fst (serve compile chk answer read_settings null default discover (opened early i p pause ok l))) <> Crash.
Proof. intros. eapply opened_alive; eassumption. Qed.
Print Assumptions C79_no_crash.

(** The encoding the server announces is the one it uses, for the whole conversation, if the editor prefers one of the three it knows, or names none. *)
Theorem C79_encoding_partial : forall {S A V C} (compile : str -> str -> index -> S) (chk : bool) (answer : @server S -> C -> query -> lres A) (read_settings : V -> option C) (null : V) (default : C)
    (discover : str -> list (option str * option str)) (early : list (arrival V)) i p pause ok l e s o,
  Forall before early -> Forall silent pause -> serve compile chk answer read_settings null default discover (opened early i p pause ok l) = (e, s, o) -> e <> Crash ->
  (forall x rest, in_encodings p = Some (x :: rest) -> exists m, means x m) ->
  exists name, In (i, Capabilities name) (answered o) /\ means name (sv_enc (st_docs s))
    /\ (forall x rest, in_encodings p = Some (x :: rest) -> name = x).
Proof.
  intros S A V C compile chk answer read_settings null default discover early i p pause ok l e s o He Hp H Hc Hk.
  destruct (opened_exact _ _ _ _ _ _ _ _ _ _ _ _ _ _ _ _ He Hp H Hc) as (d & os & Hd & Ha & _ & Hr). destruct (initialize_sync compile discover p d Hd) as (Hen & _).
  assert (Hre : forall es sv sv', run compile chk sv es = Some sv' -> sv_enc sv' = sv_enc sv).
  { intros es. induction es as [|ev es IH]; intros sv sv'; cbn [run]; [intros E; injection E as <-; reflexivity|]. destruct (step compile chk sv ev) as [sv1|] eqn:E1; [|discriminate].
    intros E. rewrite (IH _ _ E). exact (step_enc compile chk sv ev sv1 E1). }
  exists (chosen p). split; [rewrite Ha; apply in_or_app; right; left; reflexivity|]. rewrite (Hre _ _ _ Hr), Hen. unfold chosen in *.
  destruct (in_encodings p) as [[|x rest]|]; [split; [constructor|discriminate]| |split; [constructor|discriminate]]. split; [|intros y r E; congruence].
  destruct (Hk x rest eq_refl) as [m Hm]. inversion Hm; constructor.
Qed.
Print Assumptions C79_encoding_partial.

(** Not so for an editor that prefers an encoding the server does not know: it is announced all the same, and UTF-16 is used. *)
Theorem C79_encoding_refuted : forall {S A V C} (compile : str -> str -> index -> S) (chk : bool) (answer : @server S -> C -> query -> lres A) (read_settings : V -> option C) (null : V) (default : C)
    (discover : str -> list (option str * option str)) i x rest folders ok (l : list (arrival V)) e s o,
  (forall m, ~ means x m) -> serve compile chk answer read_settings null default discover (opened [] i (Init (Some (x :: rest)) folders) [] ok l) = (e, s, o) -> e <> Crash ->
  In (i, Capabilities x) (answered o) /\ sv_enc (st_docs s) = Some Utf16.
Proof.
  intros S A V C compile chk answer read_settings null default discover i x rest folders ok l e s o Hx H Hc.
  destruct (opened_exact _ _ _ _ _ _ _ _ _ _ _ _ _ _ _ _ (Forall_nil _) (Forall_nil _) H Hc) as (d & os & Hd & Ha & _ & Hr). destruct (initialize_sync compile discover _ d Hd) as (Hen & _).
  assert (Hre : forall es sv sv', run compile chk sv es = Some sv' -> sv_enc sv' = sv_enc sv).
  { intros es. induction es as [|ev es IH]; intros sv sv'; cbn [run]; [intros E; injection E as <-; reflexivity|]. destruct (step compile chk sv ev) as [sv1|] eqn:E1; [|discriminate].
    intros E. rewrite (IH _ _ E). exact (step_enc compile chk sv ev sv1 E1). }
  split; [rewrite Ha; left; reflexivity|]. rewrite (Hre _ _ _ Hr), Hen. cbn [chosen in_encodings]. unfold used.
  destruct (str_eqb x (tx "utf-8")) eqn:E8; [apply str_eqb_eq in E8; subst x; exfalso; exact (Hx _ means_8)|].
  destruct (str_eqb x (tx "utf-32")) eqn:E32; [apply str_eqb_eq in E32; subst x; exfalso; exact (Hx _ means_32)|]. reflexivity.
Qed.
Print Assumptions C79_encoding_refuted.

(** The protocol asks for an error status behind [exit] without [shutdown], and for an answer to a request between the two.  The server ends with
    status 0 in the first case, and in the second it does not answer and ends with an error. *)
Theorem C79_protocol_refuted : forall {S A V C} (compile : str -> str -> index -> S) (chk : bool) (answer : @server S -> C -> query -> lres A) (read_settings : V -> option C) (null : V) (default : C)
    (discover : str -> list (option str * option str)) i p ok (a b : arrival V) j r k l,
  stays a -> stays b -> small_files (flat_map discover (in_folders p)) ->
  (forall e s o, serve compile chk answer read_settings null default discover (opened [] i p [] ok [a; b; Arrives (MNotification NtExit)]) = (e, s, o) -> e = ExitOk)
  /\ (forall e s o, serve compile chk answer read_settings null default discover (opened [] i p [] ok (a :: b :: Arrives (MRequest k RqShutdown) :: Arrives (MRequest j r) :: l)) = (e, s, o) ->
        e = ExitErr /\ map fst (answered o) = [i; k]).
Proof.
  intros S A V C compile chk answer read_settings null default discover i p ok a b j r k l Ha Hb Hsm. destruct (initialize_some compile discover p Hsm) as [d Hd]. split.
  - intros e s o. rewrite (serve_opened _ _ _ _ _ _ _ _ _ _ _ _ _ d (Forall_nil _) (Forall_nil _) Hd). change [a; b; Arrives (MNotification NtExit)] with ([a; b] ++ [Arrives (@MNotification V NtExit)]). rewrite channel_app by (constructor; [exact Ha|constructor; [exact Hb|constructor]]).
    cbn [app channel talk turn]. unfold send_request. cbn [talk turn handle closed]. intros H. injection H as <- <- <-. reflexivity.
  - intros e s o. rewrite (serve_opened _ _ _ _ _ _ _ _ _ _ _ _ _ d (Forall_nil _) (Forall_nil _) Hd). change (a :: b :: ?x) with ([a; b] ++ x). rewrite channel_app by (constructor; [exact Ha|constructor; [exact Hb|constructor]]).
    cbn [app channel talk turn]. unfold send_request. cbn [talk turn handle]. rewrite ended_talk. cbn [closed]. intros H. injection H as <- <- <-. split; reflexivity.
Qed.
Print Assumptions C79_protocol_refuted.

(** * A conversation *)

(** The server's answer to a query here is the text of the document and the settings. *)
Definition ex_answer (sv : @server unit) (c : nat) (q : query) : lres (option str * nat) :=
  LOk (option_map (f_content (S := unit)) (document sv (match q with QHover u _ => u | QSymbols u => u | QTokens u => u end)), c).
Definition ex_serve := serve (V := nat) (fun _ _ _ => tt) true ex_answer (fun v => if Nat.eqb v 0 then None else Some v) 0%nat 7%nat (fun _ => [(Some (tx "/p/a.mabo"), Some (tx "x"))]).
Definition ex_tail : list (arrival nat) :=
  [Arrives (MResponse (RNum 1) (Some 3%nat) false); Arrives (MResponse (RNum 2) None false);
   Arrives (MNotification (NtEvent (Some (DidOpen (tx "file:///p/a.mabo") (tx "xy"))))); Arrives (MRequest (RNum 5) (RqQuery (Some (QSymbols (tx "file:///p/a.mabo")))));
   Arrives (MNotification (NtConfig true)); Quiet; Arrives (MResponse (RNum 3) (Some 4%nat) false); Arrives (MRequest (RStr (tx "z")) RqOther);
   Arrives (MRequest (RNum 6) RqShutdown); Quiet; Arrives (MNotification NtExit)].
Definition ex_talk := opened [Arrives (MRequest (RNum 9) RqOther); Quiet] (RNum 0) (Init (Some [tx "utf-8"]) [tx "/p"]) [Quiet] true ex_tail.
Example C76_C79_example :
  patient 2 ex_tail
  /\ (let '(e, s, o) := ex_serve ex_talk in e = ExitOk /\ st_cfg s = 3%nat
      /\ o = [SResponse (RNum 9) (Failure ServerNotInitialized); SResponse (RNum 0) (Capabilities (tx "utf-8")); SRequest (RNum 1) AskConfiguration; SRequest (RNum 2) AskRegister;
              SResponse (RNum 5) (Result (Some (tx "xy"), 3%nat)); SRequest (RNum 3) AskConfiguration; SResponse (RStr (tx "z")) (Failure MethodNotFound); SResponse (RNum 6) Null])
  /\ session true None (found [(Some (tx "/p/a.mabo"), Some (tx "x"))]) (events_in ex_tail)
       (fun u => if str_eqb (tx "file:///p/a.mabo") u then Some (tx "xy") else found [(Some (tx "/p/a.mabo"), Some (tx "x"))] u).
Proof.
  split; [cbn; repeat constructor|]. split; [vm_compute; auto|]. change (events_in ex_tail) with [DidOpen (tx "file:///p/a.mabo") (tx "xy")].
  eapply session_cons; [| |apply session_nil].
  - intros u. cbv beta. destruct (str_eqb (tx "file:///p/a.mabo") u) eqn:E; [apply str_eqb_eq in E; subst u; apply tr_open|]. apply tr_open_other. intros <-. rewrite str_eqb_refl in E. discriminate.
  - intros u t. cbn [found]. destruct (str_eqb (tx "file:///p/a.mabo") u); [intros H; injection H as <-; vm_compute; reflexivity|]. destruct (str_eqb (tx "/p/a.mabo") u); [intros H; injection H as <-; vm_compute; reflexivity|discriminate].
Qed.
Print Assumptions C76_C79_example.
