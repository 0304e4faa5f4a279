(** Proofs about whole conversations (LspSession.v). *)
From Verif Require Import Base Syntax Parser Lsp LspSession.
Local Open Scope N_scope.

(** * Specification *)

(** The requests in what arrives, the answers in what is sent. *)
Definition asked {V} (l : list (arrival V)) : list (rid * request) :=
  flat_map (fun a => match a with Arrives (MRequest i r) => [(i, r)] | _ => [] end) l.
Definition answered {A} (o : list (sent A)) : list (rid * reply A) :=
  flat_map (fun x => match x with SResponse i r => [(i, r)] | _ => [] end) o.
(** An answer that fits a request, once the server is initialized. *)
Definition fits {A} (r : request) (p : reply A) : Prop :=
  match r, p with
  | RqInitialize _, (Capabilities _ | Failure MethodNotFound) => True
  | RqQuery None, Failure InvalidParams => True
  | RqQuery (Some _), (Result _ | Failure InternalError) => True
  | RqShutdown, Null => True
  | RqOther, Failure MethodNotFound => True
  | _, _ => False
  end.
Definition replied {A} (q : rid * request) (a : rid * reply A) : Prop := fst a = fst q /\ fits (snd q) (snd a).
(** The answers belong to some of the requests, in order. *)
Inductive matched {A} : list (rid * request) -> list (rid * reply A) -> Prop :=
| matched_nil : matched [] []
| matched_skip i r rs ps : matched rs ps -> matched ((i, r) :: rs) ps
| matched_answer i r p rs ps : fits r p \/ p = Failure ServerNotInitialized -> matched rs ps -> matched ((i, r) :: rs) ((i, p) :: ps).

(** The messages that reach the main loop when the server swallows the first [waiting] arrivals: it waits for the answers to its own requests behind
    a valid [initialized] (two) and a valid change of configuration (one), and takes whatever arrives for them. *)
Fixpoint heard {V} (waiting : nat) (l : list (arrival V)) : list (message V) :=
  match l with
  | [] => []
  | a :: l' => match waiting with
      | O => match a with
          | Arrives (MNotification (NtInitialized true) as m) => m :: heard 2 l'
          | Arrives (MNotification (NtConfig true) as m) => m :: heard 1 l'
          | Arrives (MRequest _ RqShutdown as m) => [m]
          | Arrives m => m :: heard 0 l'
          | _ => heard 0 l'
          end
      | S k => heard k l'
      end
  end.
Definition requests_of {V} (ms : list (message V)) : list (rid * request) :=
  flat_map (fun m => match m with MRequest i r => [(i, r)] | _ => [] end) ms.
Definition events_of {V} (ms : list (message V)) : list event :=
  flat_map (fun m => match m with MNotification (NtEvent (Some e)) => [e] | _ => [] end) ms.
Definition shuts_down {V} (ms : list (message V)) : Prop := exists i, In (MRequest i RqShutdown) ms.

(** Leaving: [exit], without a silence of more than 30 seconds before it. *)
Fixpoint leaves {V} (l : list (arrival V)) : bool :=
  match l with Quiet :: l' => leaves l' | Arrives (MNotification NtExit) :: _ => true | _ => false end.
(** What follows the request [shutdown], if the main loop gets one. *)
Fixpoint farewell {V} (waiting : nat) (l : list (arrival V)) : option (list (arrival V)) :=
  match l with
  | [] => None
  | a :: l' => match waiting with
      | O => match a with
          | Arrives (MNotification (NtInitialized true)) => farewell 2 l'
          | Arrives (MNotification (NtConfig true)) => farewell 1 l'
          | Arrives (MRequest _ RqShutdown) => Some l'
          | _ => farewell 0 l'
          end
      | S k => farewell k l'
      end
  end.
(** How many arrivals the server is going to swallow after [l] ([None]: it is shutting down). *)
Fixpoint awaits {V} (waiting : nat) (l : list (arrival V)) : option nat :=
  match l with
  | [] => Some waiting
  | a :: l' => match waiting with
      | O => match a with
          | Arrives (MNotification (NtInitialized true)) => awaits 2 l'
          | Arrives (MNotification (NtConfig true)) => awaits 1 l'
          | Arrives (MRequest _ RqShutdown) => None
          | _ => awaits 0 l'
          end
      | S k => awaits k l'
      end
  end.
(** An editor that sends nothing but responses while the server waits, nothing but [exit] behind [shutdown] and nothing behind [exit]. *)
Fixpoint patient {V} (waiting : nat) (l : list (arrival V)) : Prop :=
  match l with
  | [] => True
  | a :: l' => match waiting with
      | O => match a with
          | Arrives (MNotification (NtInitialized true)) => patient 2 l'
          | Arrives (MNotification (NtConfig true)) => patient 1 l'
          | Arrives (MRequest _ RqShutdown) => Forall (fun x => match x with Arrives (MNotification NtExit) | Quiet => True | _ => False end) l'
          | Arrives (MNotification NtExit) => l' = []
          | _ => patient 0 l'
          end
      | S k => match a with Arrives (MRequest _ _) | Arrives (MNotification _) => False | _ => patient k l' end
      end
  end.
Definition stays {V} (a : arrival V) : Prop := match a with Arrives (MNotification NtExit) => False | _ => True end.
Definition silent {V} (a : arrival V) : Prop := match a with Arrives _ => False | _ => True end.
(** A conversation that opens as the protocol says, up to requests that come too early. *)
Definition opened {V} (early : list (arrival V)) (i : rid) (p : init) (pause : list (arrival V)) (ok : bool) (l : list (arrival V)) : list (arrival V) :=
  early ++ Arrives (MRequest i (RqInitialize (Some p))) :: pause ++ Arrives (MNotification (NtInitialized ok)) :: l.
(** The ids of the server's own requests. *)
Definition own_ids {A} (o : list (sent A)) : list rid := flat_map (fun x => match x with SRequest i _ => [i] | _ => [] end) o.
Definition events_in {V} (l : list (arrival V)) : list event :=
  flat_map (fun a => match a with Arrives (MNotification (NtEvent (Some e))) => [e] | _ => [] end) l.
(** What may come before [initialize]. *)
Definition before {V} (a : arrival V) : Prop :=
  match a with Arrives (MRequest _ (RqInitialize _)) | Arrives (MNotification NtExit) | Arrives (MResponse _ _ _) => False | _ => True end.

Lemma answered_app {A} (o o' : list (sent A)) : answered (o ++ o') = answered o ++ answered o'.
Proof. apply flat_map_app. Qed.
Lemma asked_app {V} (l l' : list (arrival V)) : asked (l ++ l') = asked l ++ asked l'.
Proof. apply flat_map_app. Qed.
Lemma matched_more {A} rs rs' (ps : list (rid * reply A)) : matched rs ps -> matched (rs ++ rs') ps.
Proof. intros H. induction H as [|i r rs ps H IH|i r p rs ps Hf H IH]; cbn; [|constructor; exact IH|constructor; assumption]. induction rs' as [|[i r] rs' IH]; constructor; exact IH. Qed.

Section Session.
Context {S A V C : Type} (compile : str -> str -> index -> S) (chk : bool).
Variable answer : @server S -> C -> query -> lres A.
Variable read_settings : V -> option C.
Variables (null : V) (default : C).
Variable discover : str -> list (option str * option str).
Notation turn := (turn compile chk answer read_settings null discover).
Notation converse := (converse compile chk answer read_settings null discover).
Notation serve := (serve compile chk answer read_settings null default discover).
Notation handle := (handle (V := V) compile chk answer).
Notation stt := (@st S C).

(** ** The conversation without its end *)
Fixpoint talk (m : mode) (s : stt) (l : list (arrival V)) : mode * stt * list (sent A) :=
  match l with [] => (m, s, []) | a :: l' => let '(m', s', o) := turn m s a in let '(m'', s'', o') := talk m' s' l' in (m'', s'', o ++ o') end.
Lemma converse_talk l : forall m s, converse m s l = let '(m', s', o) := talk m s l in let '(e, o') := closed m' s' in (e, s', o ++ o').
Proof.
  induction l as [|a l IH]; intros m s; cbn [converse talk]; [destruct (closed m s); reflexivity|].
  destruct (turn m s a) as [[m' s'] o]. rewrite IH. destruct (talk m' s' l) as [[m'' s''] o']. destruct (closed m'' s'') as [e o'']. rewrite app_assoc. reflexivity.
Qed.
Lemma talk_app l l' : forall m s, talk m s (l ++ l') = let '(m', s', o) := talk m s l in let '(m'', s'', o') := talk m' s' l' in (m'', s'', o ++ o').
Proof.
  induction l as [|a l IH]; intros m s; cbn [talk app]; [destruct (talk m s l') as [[? ?] ?]; reflexivity|].
  destruct (turn m s a) as [[m' s'] o]. rewrite IH. destruct (talk m' s' l) as [[m'' s''] o']. destruct (talk m'' s'' l') as [[? ?] ?]. rewrite app_assoc. reflexivity.
Qed.
Lemma closed_answered m (s : stt) : answered (snd (@closed S A C m s)) = [].
Proof. destruct m as [| |id []| | | |]; reflexivity. Qed.

(** ** No stray answers *)
Lemma turn_matched m s a m' s' o : turn m s a = (m', s', o) -> matched (asked [a]) (answered o).
Proof.
  intros H. assert (Hn : forall rs : list (rid * request), @matched A rs []) by (induction rs as [|[i r] rs IH]; constructor; exact IH).
  assert (Hs : forall x, (let '(s'', id', o0) := @send_request S A C x AskRegister in (WaitRegister id', s'', o0)) = (m', s', o) -> matched (asked [a]) (answered o)).
  { intros x. unfold send_request. cbn. intros E. injection E as _ _ <-. apply Hn. }
  assert (Hr : forall x b, @reload S A C x b = (m', s', o) -> matched (asked [a]) (answered o)).
  { intros x b. unfold reload, send_request. cbn. intros E. injection E as _ _ <-. apply Hn. }
  destruct m as [| |id first|id| | |e]; cbn [LspSession.turn] in H.
  - destruct a as [[i r|n|i v b]| |]; try (injection H as _ _ <-; apply Hn).
    + destruct r as [[p|]|[q|]| |]; try (injection H as _ _ <-; first [apply Hn|apply matched_answer; [first [left; exact I|right; reflexivity]|apply Hn]]).
      destruct (initialize compile discover p); injection H as _ _ <-; [|apply Hn]. apply matched_answer; [first [left; exact I|right; reflexivity]|apply Hn].
    + destruct n; injection H as _ _ <-; apply Hn.
  - destruct a as [[i r|n|i v b]| |]; try (injection H as _ _ <-; apply Hn). destruct n; try (injection H as _ _ <-; apply Hn).
  - destruct first; [exact (Hs _ H)|]. injection H as _ _ <-. apply Hn.
  - injection H as _ _ <-. apply Hn.
  - destruct a as [x| |]; try (injection H as _ _ <-; apply Hn). destruct x as [i r|n|i v b]; cbn [LspSession.handle] in H.
    + destruct r as [p|[q|]| |]; try (injection H as _ _ <-; apply matched_answer; [first [left; exact I|right; reflexivity]|apply Hn]).
      destruct (answer (st_docs s) (st_cfg s) q); injection H as _ _ <-; first [apply Hn|apply matched_answer; [first [left; exact I|right; reflexivity]|apply Hn]].
    + destruct n as [[]|[e|]|[]| |]; try (injection H as _ _ <-; apply Hn); try exact (Hr _ _ H). destruct (step compile chk (st_docs s) e); injection H as _ _ <-; apply Hn.
    + injection H as _ _ <-. apply Hn.
  - destruct a as [[i r|n|i v b]| |]; try (injection H as _ _ <-; apply Hn). destruct n; injection H as _ _ <-; apply Hn.
  - injection H as _ _ <-. apply Hn.
Qed.
Lemma matched_app {B} rs ps rs' (ps' : list (rid * reply B)) : matched rs ps -> matched rs' ps' -> matched (rs ++ rs') (ps ++ ps').
Proof. intros H H'. induction H; cbn; [exact H'|constructor; assumption|constructor; assumption]. Qed.
Lemma converse_matched l : forall m s e s' o, converse m s l = (e, s', o) -> matched (asked l) (answered o).
Proof.
  induction l as [|a l IH]; intros m s e s' o; cbn [LspSession.converse]; intros H.
  - pose proof (closed_answered m s) as Hc. destruct (closed m s) as [e' o']. injection H as _ _ <-. cbn [snd] in Hc. rewrite Hc. constructor.
  - destruct (turn m s a) as [[m1 s1] o1] eqn:E. destruct (converse m1 s1 l) as [[e2 s2] o2] eqn:E2. injection H as _ _ <-. rewrite answered_app. change (a :: l) with ([a] ++ l). rewrite asked_app.
    apply matched_app; [exact (turn_matched _ _ _ _ _ _ E)|exact (IH _ _ _ _ _ E2)].
Qed.
Lemma channel_prefix (l : list (arrival V)) : exists rest, l = channel l ++ rest.
Proof.
  induction l as [|a l [rest IH]]; [exists []; reflexivity|]. destruct a as [[i r|n|i v b]| |]; cbn [channel]; try (exists rest; cbn [app]; f_equal; exact IH).
  destruct n; try (exists rest; cbn [app]; f_equal; exact IH). exists l. reflexivity.
Qed.

(** ** The main loop *)
(** The modes in which the server is in the main loop. *)
Inductive waits : mode -> nat -> Prop :=
| waits_idle : waits Idle 0
| waits_register id : waits (WaitRegister id) 1
| waits_config id : waits (WaitConfig id false) 1
| waits_first id : waits (WaitConfig id true) 2.

Lemma reload_waits s b m s' o : @reload S A C s b = (m, s', o) -> waits m (if b then 2 else 1) /\ answered o = [] /\ st_docs s' = st_docs s /\ st_cfg s' = st_cfg s.
Proof. unfold reload, send_request. intros H. injection H as <- <- <-. repeat split. destruct b; constructor. Qed.
Lemma reloaded_docs s id (a : arrival V) : st_docs (@reloaded S V C read_settings null s id a) = st_docs s.
Proof. unfold reloaded. destruct (received null id a) as [v|]; [|reflexivity]. destruct (read_settings v); reflexivity. Qed.
(** A server that waits swallows what arrives. *)
Lemma waits_turn m k s a : waits m (Datatypes.S k) -> exists m' s' o, turn m s a = (m', s', o) /\ waits m' k /\ answered o = [] /\ st_docs s' = st_docs s.
Proof.
  intros H. inversion H; subst; cbn [LspSession.turn].
  - exists Idle, s, []. repeat split. constructor.
  - eexists Idle, _, []. split; [reflexivity|]. split; [constructor|]. split; [reflexivity|]. apply reloaded_docs.
  - unfold send_request. eexists _, _, _. split; [reflexivity|]. split; [constructor|]. split; [reflexivity|]. cbn [st_docs]. apply reloaded_docs.
Qed.

(** What has been said and done when the main loop has got the messages [ms]. *)
Definition did (s : stt) (ms : list (message V)) (m : mode) (s' : stt) (o : list (sent A)) : Prop :=
  Forall2 replied (requests_of ms) (answered o) /\ run compile chk (st_docs s) (events_of ms) = Some (st_docs s')
  /\ (if existsb (fun x => match x with MRequest _ RqShutdown => true | _ => false end) ms then m = WaitExit \/ exists e, m = Ended e else exists k, waits m k).

Lemma ended_talk e s l : talk (Ended e) s l = (Ended e, s, []).
Proof. induction l as [|a l IH]; [reflexivity|]. cbn [talk LspSession.turn]. rewrite IH. reflexivity. Qed.
Lemma exit_talk l : forall s m s' o, talk WaitExit s l = (m, s', o) -> (m = WaitExit \/ m = Ended ExitOk \/ m = Ended ExitErr) /\ s' = s /\ answered o = [].
Proof.
  induction l as [|a l IH]; intros s m s' o; cbn [talk]; [intros H; injection H as <- <- <-; auto|].
  destruct (turn WaitExit s a) as [[m1 s1] o1] eqn:E. intros H. assert (Hc : (m1 = WaitExit \/ m1 = Ended ExitOk \/ m1 = Ended ExitErr) /\ s1 = s /\ o1 = []).
  { cbn [LspSession.turn] in E. destruct a as [[i r|[]|i v b]| |]; injection E as <- <- <-; auto. }
  destruct Hc as (Hm & -> & ->). destruct (talk m1 s l) as [[m2 s2] o2] eqn:E2. injection H as <- <- <-. cbn [app].
  destruct Hm as [->|[->| ->]]; [exact (IH _ _ _ _ E2)| |]; rewrite ended_talk in E2; injection E2 as <- <- <-; auto.
Qed.

Lemma run_app l l' sv : run compile chk sv (l ++ l') = match run compile chk sv l with Some sv' => run compile chk sv' l' | None => None end.
Proof. revert sv. induction l as [|e l IH]; intros sv; cbn; [reflexivity|]. destruct (step compile chk sv e); [apply IH|reflexivity]. Qed.

Lemma talk_main l : forall k m s m' s' o, waits m k -> talk m s l = (m', s', o) -> m' <> Ended Crash -> did s (heard k l) m' s' o.
Proof.
  induction l as [|a l IH]; intros k m s m' s' o Hw H Hc; cbn [talk] in H.
  - injection H as <- <- <-. cbn [heard]. unfold did. cbn. split; [constructor|]. split; [reflexivity|]. eauto.
  - destruct k as [|k].
    + inversion Hw; subst. destruct (turn Idle s a) as [[m1 s1] o1] eqn:E. destruct (talk m1 s1 l) as [[m2 s2] o2] eqn:E2. injection H as <- <- <-.
      assert (Hq : forall k' m3, waits m1 k' -> answered o1 = [] -> requests_of [m3] = [] -> st_docs s1 = st_docs s -> events_of [m3] = [] -> existsb (fun x => match x with MRequest _ RqShutdown => true | _ => false end) [m3] = false -> did s (m3 :: heard k' l) m2 s2 (o1 ++ o2)).
      { intros k' m3 Hw1 Ho1 Hr1 Hd1 He1 Hx1. destruct (IH _ _ _ _ _ _ Hw1 E2 Hc) as (H1 & H2 & H3). unfold did. change (m3 :: heard k' l) with ([m3] ++ heard k' l).
        unfold requests_of, events_of. rewrite !flat_map_app, existsb_app, answered_app. fold (requests_of [m3]) (requests_of (heard k' l)) (events_of [m3]) (events_of (heard k' l)). rewrite Hr1, He1, Hx1, Ho1. cbn [app orb].
        rewrite <- Hd1. auto. }
      assert (Ha : forall i r p, a = Arrives (MRequest i r) -> r <> RqShutdown -> fits r p -> m1 = Idle -> s1 = s -> o1 = [SResponse i p] -> did s (heard 0 (a :: l)) m2 s2 (o1 ++ o2)).
      { intros i r p -> Hr Hf -> -> ->. destruct (IH _ _ _ _ _ _ waits_idle E2 Hc) as (H1 & H2 & H3). unfold did.
        assert (Eh : heard 0 (Arrives (MRequest i r) :: l) = MRequest i r :: heard 0 l) by (cbn [heard]; destruct r; try reflexivity; contradiction). rewrite Eh.
        change ([SResponse i p] ++ o2) with (@SResponse A i p :: o2). cbn [requests_of events_of flat_map app existsb answered map fst]. split; [constructor; [split; [reflexivity|exact Hf]|exact H1]|]. split; [exact H2|].
        destruct r; try contradiction; exact H3. }
      cbn [LspSession.turn] in E. destruct a as [x| |].
      2,3: injection E as <- <- <-; destruct (IH _ _ _ _ _ _ waits_idle E2 Hc) as (H1 & H2 & H3); cbn [heard app]; exact (conj H1 (conj H2 H3)).
      destruct x as [i r|n|i v b]; cbn [LspSession.handle] in E.
      * destruct r as [p|[q|]| |].
        -- injection E as <- <- <-. eapply Ha; [reflexivity|discriminate| |reflexivity..]; exact I.
        -- destruct (answer (st_docs s) (st_cfg s) q); injection E as <- <- <-; try (eapply Ha; [reflexivity|discriminate| |reflexivity..]; exact I).
           exfalso. rewrite ended_talk in E2. apply Hc. congruence.
        -- injection E as <- <- <-. eapply Ha; [reflexivity|discriminate| |reflexivity..]; exact I.
        -- injection E as <- <- <-. cbn [heard]. destruct (exit_talk _ _ _ _ _ E2) as (Hm & -> & Ho). unfold did. change ([SResponse i Null] ++ o2) with (@SResponse A i Null :: o2). change (answered (SResponse i Null :: o2)) with ((i, @Null A) :: answered o2). rewrite Ho. cbn. split; [constructor; [split; [reflexivity|exact I]|constructor]|]. split; [reflexivity|].
           destruct Hm as [->|[->| ->]]; eauto.
        -- injection E as <- <- <-. eapply Ha; [reflexivity|discriminate| |reflexivity..]; exact I.
      * destruct n as [[]|[e|]|[]| |]; cbn [heard].
        -- destruct (reload_waits _ _ _ _ _ E) as (W & Ho & Hd & _). apply (Hq 2%nat); first [assumption|reflexivity].
        -- injection E as <- <- <-. apply (Hq 0%nat); first [reflexivity|exact waits_idle].
        -- destruct (step compile chk (st_docs s) e) as [d|] eqn:Es; injection E as <- <- <-; [|exfalso; rewrite ended_talk in E2; apply Hc; congruence].
           destruct (IH _ _ _ _ _ _ waits_idle E2 Hc) as (H1 & H2 & H3). unfold did. cbn [requests_of events_of flat_map app existsb run]. rewrite Es. exact (conj H1 (conj H2 H3)).
        -- injection E as <- <- <-. apply (Hq 0%nat); first [reflexivity|exact waits_idle].
        -- destruct (reload_waits _ _ _ _ _ E) as (W & Ho & Hd & _). apply (Hq 1%nat); first [assumption|reflexivity].
        -- injection E as <- <- <-. apply (Hq 0%nat); first [reflexivity|exact waits_idle].
        -- injection E as <- <- <-. apply (Hq 0%nat); first [reflexivity|exact waits_idle].
        -- injection E as <- <- <-. apply (Hq 0%nat); first [reflexivity|exact waits_idle].
      * injection E as <- <- <-. cbn [heard]. apply (Hq 0%nat); first [reflexivity|exact waits_idle].
    + destruct (waits_turn m k s a Hw) as (m1 & s1 & o1 & E & W & Ho & Hd). rewrite E in H. destruct (talk m1 s1 l) as [[m2 s2] o2] eqn:E2. injection H as <- <- <-.
      cbn [heard]. destruct (IH _ _ _ _ _ _ W E2 Hc) as (H1 & H2 & H3). unfold did. rewrite answered_app, Ho, <- Hd. auto.
Qed.

Lemma waits_closed m k (s : stt) : waits m k -> fst (@closed S A C m s) = ExitOk.
Proof. intros H. inversion H; reflexivity. Qed.

(** ** Patient editors *)
Lemma patient_heard (l : list (arrival V)) : forall k, patient k l -> requests_of (heard k (channel l)) = asked l /\ events_of (heard k (channel l)) = events_in l.
Proof.
  induction l as [|a l IH]; intros k H; [split; reflexivity|]. destruct k as [|k].
  - destruct a as [[i r|n|i v b]| |]; cbn [channel heard patient] in *; try exact (IH _ H).
    + destruct r as [p|q| |]; try (destruct (IH _ H) as [H1 H2]; split; [cbn; f_equal; exact H1|exact H2]).
      cbn. assert (Hn : asked l = [] /\ events_in l = []).
      { clear IH. induction H as [|x l Hx Hl [IH1 IH2]]; [split; reflexivity|]. destruct x as [[i' r|[]|i' v b]| |]; try contradiction; split; assumption. }
      destruct Hn as [Hn1 Hn2]. unfold asked, events_in in Hn1, Hn2. cbn [flat_map app]. unfold asked, events_in. rewrite Hn1, Hn2. auto.
    + destruct n as [[]|[e|]|[]| |]; cbn; try exact (IH _ H).
      * destruct (IH _ H) as [H1 H2]. split; [exact H1|]. f_equal. exact H2.
      * subst l. auto.
  - destruct a as [[i r|n|i v b]| |]; cbn [channel heard patient] in *; try contradiction; exact (IH _ H).
Qed.

(** ** The opening *)
Definition too_early (early : list (arrival V)) : list (sent A) := map (fun q => SResponse (fst q) (Failure ServerNotInitialized)) (asked early).
Definition init_st : stt := St (Server (Some Utf16) [] []) default 0.
Lemma channel_app (l l' : list (arrival V)) : Forall stays l -> channel (l ++ l') = l ++ channel l'.
Proof. intros H. induction H as [|a l Ha Hl IH]; [reflexivity|]. destruct a as [[i r|[]|i v b]| |]; cbn [app channel]; try contradiction; f_equal; exact IH. Qed.
Lemma channel_opened early i p pause ok l : Forall before early -> Forall silent pause -> channel (@opened V early i p pause ok l) = opened early i p pause ok (channel l).
Proof.
  intros He Hp. unfold opened. rewrite channel_app.
  2:{ revert He. apply Forall_impl. intros [[? [| | |]|[]|]| |]; cbn; tauto. }
  f_equal. cbn [channel]. f_equal. rewrite channel_app; [reflexivity|]. revert Hp. apply Forall_impl. intros [[? [| | |]|[]|]| |]; cbn; tauto.
Qed.
Lemma early_talk early s : Forall before early -> talk Start s early = (Start, s, too_early early).
Proof.
  intros H. induction H as [|a l Ha Hl IH]; [reflexivity|]. cbn [talk].
  destruct a as [[i [p|q| |]|[]|i v b]| |]; try contradiction; cbn [LspSession.turn]; rewrite IH; reflexivity.
Qed.
Lemma pause_talk pause s : Forall silent pause -> talk WaitInitialized s pause = (WaitInitialized, s, []).
Proof. intros H. induction H as [|a l Ha Hl IH]; [reflexivity|]. cbn [talk]. destruct a as [| |]; try contradiction; cbn [LspSession.turn]; rewrite IH; reflexivity. Qed.
Definition greet (early : list (arrival V)) (i : rid) (p : init) : list (sent A) :=
  too_early early ++ [SResponse i (Capabilities (chosen p)); SRequest (RNum 1) AskConfiguration].
Lemma talk_opened early i p pause ok l d : Forall before early -> Forall silent pause -> initialize compile discover p = Some d ->
  talk Start init_st (opened early i p pause ok l) = let '(m, s, o) := talk (WaitConfig 1 true) (St d default 1) l in (m, s, greet early i p ++ o).
Proof.
  intros He Hp Hd. unfold opened. rewrite talk_app, (early_talk _ _ He). cbn [talk LspSession.turn]. rewrite Hd. rewrite talk_app, (pause_talk _ _ Hp). cbn [talk LspSession.turn].
  unfold reload, send_request. cbn [st_next st_docs st_cfg init_st]. change (next_i32 0) with 1%Z.
  destruct (talk (WaitConfig 1 true) (St d default 1) l) as [[m s] o]. unfold greet. rewrite <- !app_assoc. reflexivity.
Qed.
Lemma talk_opened_crash early i p pause ok l : Forall before early -> initialize compile discover p = None ->
  talk Start init_st (opened early i p pause ok l) = (Ended Crash, init_st, too_early early).
Proof. intros He Hd. unfold opened. rewrite talk_app, (early_talk _ _ He). cbn [talk LspSession.turn]. rewrite Hd, ended_talk. cbn [app]. rewrite app_nil_r. reflexivity. Qed.
Lemma serve_opened early i p pause ok l d : Forall before early -> Forall silent pause -> initialize compile discover p = Some d ->
  serve (opened early i p pause ok l) = let '(m, s, o) := talk (WaitConfig 1 true) (St d default 1) (channel l) in let '(e, o') := closed m s in (e, s, greet early i p ++ o ++ o').
Proof.
  intros He Hp Hd. unfold LspSession.serve. rewrite (channel_opened _ _ _ _ _ _ He Hp), converse_talk. fold init_st. rewrite (talk_opened _ _ _ _ _ _ d He Hp Hd).
  destruct (talk (WaitConfig 1 true) (St d default 1) (channel l)) as [[m s] o]. destruct (closed m s) as [e o']. rewrite <- app_assoc. reflexivity.
Qed.
Lemma serve_opened_crash early i p pause ok l : Forall before early -> Forall silent pause -> initialize compile discover p = None ->
  serve (opened early i p pause ok l) = (Crash, init_st, too_early early).
Proof.
  intros He Hp Hd. unfold LspSession.serve. rewrite (channel_opened _ _ _ _ _ _ He Hp), converse_talk. fold init_st. rewrite (talk_opened_crash _ _ _ _ _ _ He Hd). cbn. rewrite app_nil_r. reflexivity.
Qed.
Lemma answered_greet early i p : answered (greet early i p) = map (fun q => (fst q, Failure ServerNotInitialized)) (asked early) ++ [(i, Capabilities (chosen p))].
Proof.
  unfold greet. rewrite answered_app. f_equal. unfold too_early. induction (asked early) as [|q l IH]; [reflexivity|]. cbn. f_equal. exact IH.
Qed.

(** ** Exactness after the opening *)
Lemma opened_exact early i p pause ok l e s o : Forall before early -> Forall silent pause ->
  serve (opened early i p pause ok l) = (e, s, o) -> e <> Crash ->
  exists d os, initialize compile discover p = Some d
    /\ answered o = map (fun q => (fst q, Failure ServerNotInitialized)) (asked early) ++ (i, Capabilities (chosen p)) :: os
    /\ Forall2 replied (requests_of (heard 2 (channel l))) os
    /\ run compile chk d (events_of (heard 2 (channel l))) = Some (st_docs s).
Proof.
  intros He Hp H Hc. destruct (initialize compile discover p) as [d|] eqn:Hd; [|rewrite (serve_opened_crash _ _ _ _ _ _ He Hp Hd) in H; congruence].
  rewrite (serve_opened _ _ _ _ _ _ d He Hp Hd) in H. destruct (talk (WaitConfig 1 true) (St d default 1) (channel l)) as [[m1 s1] o1] eqn:E.
  pose proof (closed_answered m1 s1) as Hca. assert (Hcl : m1 <> Ended Crash) by (intros ->; cbn in H; congruence).
  destruct (closed m1 s1) as [e' o'] eqn:Ec. cbn [snd] in Hca. injection H as <- <- <-.
  destruct (talk_main _ _ _ _ _ _ _ (waits_first 1) E Hcl) as (H1 & H2 & _). exists d, (answered o1). split; [reflexivity|]. split; [|split; [exact H1|exact H2]].
  rewrite !answered_app, answered_greet, Hca, app_nil_r, <- app_assoc. reflexivity.
Qed.

(** ** Crashes *)
Lemma talk_alive l : (forall sv c q, answer sv c q <> LPanic) ->
  forall k m s m' s' o, waits m k -> run compile chk (st_docs s) (events_of (heard k l)) <> None -> talk m s l = (m', s', o) -> m' <> Ended Crash.
Proof.
  intros Hq. induction l as [|a l IH]; intros k m s m' s' o Hw Hr H; cbn [talk] in H.
  - injection H as <- <- <-. inversion Hw; discriminate.
  - destruct k as [|k].
    + inversion Hw; subst. destruct (turn Idle s a) as [[m1 s1] o1] eqn:E. destruct (talk m1 s1 l) as [[m2 s2] o2] eqn:E2. injection H as <- <- <-.
      cbn [LspSession.turn] in E. destruct a as [x| |]; [|injection E as <- <- <-; exact (IH _ _ _ _ _ _ waits_idle Hr E2)..].
      destruct x as [i r|n|i v b]; cbn [LspSession.handle] in E; [| |injection E as <- <- <-; exact (IH _ _ _ _ _ _ waits_idle Hr E2)].
      * destruct r as [p|[q|]| |]; try (injection E as <- <- <-; exact (IH _ _ _ _ _ _ waits_idle Hr E2)).
        -- pose proof (Hq (st_docs s) (st_cfg s) q) as Hn. destruct (answer (st_docs s) (st_cfg s) q); try contradiction; injection E as <- <- <-; exact (IH _ _ _ _ _ _ waits_idle Hr E2).
        -- injection E as <- <- <-. destruct (exit_talk _ _ _ _ _ E2) as (Hm & _ & _). destruct Hm as [->|[->| ->]]; discriminate.
      * destruct n as [[]|[e|]|[]| |]; try (injection E as <- <- <-; exact (IH _ _ _ _ _ _ waits_idle Hr E2)).
        -- destruct (reload_waits _ _ _ _ _ E) as (W & Ho & Hd & _). apply (IH _ _ _ _ _ _ W) in E2; [exact E2|]. rewrite Hd. exact Hr.
        -- change (run compile chk (st_docs s) (e :: events_of (heard 0 l)) <> None) in Hr. cbn [run] in Hr. destruct (step compile chk (st_docs s) e) as [d|]; [|contradiction]. injection E as <- <- <-. exact (IH _ _ (St d (st_cfg s) (st_next s)) _ _ _ waits_idle Hr E2).
        -- destruct (reload_waits _ _ _ _ _ E) as (W & Ho & Hd & _). apply (IH _ _ _ _ _ _ W) in E2; [exact E2|]. rewrite Hd. exact Hr.
    + destruct (waits_turn m k s a Hw) as (m1 & s1 & o1 & E & W & Ho & Hd). rewrite E in H. destruct (talk m1 s1 l) as [[m2 s2] o2] eqn:E2. injection H as <- <- <-.
      apply (IH _ _ _ _ _ _ W) in E2; [exact E2|]. rewrite Hd. exact Hr.
Qed.
Lemma opened_alive early i p pause ok l d : Forall before early -> Forall silent pause -> (forall sv c q, answer sv c q <> LPanic) -> initialize compile discover p = Some d ->
  run compile chk d (events_of (heard 2 (channel l))) <> None -> fst (fst (serve (opened early i p pause ok l))) <> Crash.
Proof.
  intros He Hp Hq Hd Hr. rewrite (serve_opened _ _ _ _ _ _ d He Hp Hd). destruct (talk (WaitConfig 1 true) (St d default 1) (channel l)) as [[m1 s1] o1] eqn:E.
  pose proof (talk_alive _ Hq 2 _ (St d default 1) _ _ _ (waits_first 1) Hr E) as Hm. destruct m1 as [| |id []|id| | |[]]; cbn; try discriminate. contradiction.
Qed.

(** The same for handlers that do not panic in states with a property all steps keep. *)
Lemma talk_alive_inv (P : @server S -> Prop) (Q : event -> Prop) l : (forall sv c q, P sv -> answer sv c q <> LPanic) -> (forall sv e sv', P sv -> Q e -> step compile chk sv e = Some sv' -> P sv') ->
  forall k m s m' s' o, P (st_docs s) -> Forall Q (events_of (heard k l)) -> waits m k -> run compile chk (st_docs s) (events_of (heard k l)) <> None -> talk m s l = (m', s', o) -> m' <> Ended Crash.
Proof.
  intros Hq Hst. induction l as [|a l IH]; intros k m s m' s' o HP HQ Hw Hr H; cbn [talk] in H.
  - injection H as <- <- <-. inversion Hw; discriminate.
  - destruct k as [|k].
    + inversion Hw; subst. destruct (turn Idle s a) as [[m1 s1] o1] eqn:E. destruct (talk m1 s1 l) as [[m2 s2] o2] eqn:E2. injection H as <- <- <-.
      cbn [LspSession.turn] in E. destruct a as [x| |]; [|injection E as <- <- <-; exact (IH _ _ _ _ _ _ HP HQ waits_idle Hr E2)..].
      destruct x as [i r|n|i v b]; cbn [LspSession.handle] in E; [| |injection E as <- <- <-; exact (IH _ _ _ _ _ _ HP HQ waits_idle Hr E2)].
      * destruct r as [p|[q|]| |]; try (injection E as <- <- <-; exact (IH _ _ _ _ _ _ HP HQ waits_idle Hr E2)).
        -- pose proof (Hq (st_docs s) (st_cfg s) q HP) as Hn. destruct (answer (st_docs s) (st_cfg s) q); try contradiction; injection E as <- <- <-; exact (IH _ _ _ _ _ _ HP HQ waits_idle Hr E2).
        -- injection E as <- <- <-. destruct (exit_talk _ _ _ _ _ E2) as (Hm & _ & _). destruct Hm as [->|[->| ->]]; discriminate.
      * destruct n as [[]|[e|]|[]| |]; try (injection E as <- <- <-; exact (IH _ _ _ _ _ _ HP HQ waits_idle Hr E2)).
        -- destruct (reload_waits _ _ _ _ _ E) as (W & Ho & Hd & _). refine (IH _ _ _ _ _ _ _ _ W _ E2); [rewrite Hd; exact HP|exact HQ|rewrite Hd; exact Hr].
        -- change (run compile chk (st_docs s) (e :: events_of (heard 0 l)) <> None) in Hr. cbn [run] in Hr. change (Forall Q (e :: events_of (heard 0 l))) in HQ. inversion HQ as [|e0 l0 He HQ']. subst. destruct (step compile chk (st_docs s) e) as [d|] eqn:Es; [|contradiction]. injection E as <- <- <-. exact (IH _ _ (St d (st_cfg s) (st_next s)) _ _ _ (Hst _ _ _ HP He Es) HQ' waits_idle Hr E2).
        -- destruct (reload_waits _ _ _ _ _ E) as (W & Ho & Hd & _). refine (IH _ _ _ _ _ _ _ _ W _ E2); [rewrite Hd; exact HP|exact HQ|rewrite Hd; exact Hr].
    + destruct (waits_turn m k s a Hw) as (m1 & s1 & o1 & E & W & Ho & Hd). rewrite E in H. destruct (talk m1 s1 l) as [[m2 s2] o2] eqn:E2. injection H as <- <- <-.
      refine (IH _ _ _ _ _ _ _ _ W _ E2); [rewrite Hd; exact HP|exact HQ|rewrite Hd; exact Hr].
Qed.
Lemma opened_alive_inv (P : @server S -> Prop) (Q : event -> Prop) early i p pause ok l d : Forall before early -> Forall silent pause -> (forall sv c q, P sv -> answer sv c q <> LPanic) ->
  (forall sv e sv', P sv -> Q e -> step compile chk sv e = Some sv' -> P sv') -> P d -> Forall Q (events_of (heard 2 (channel l))) -> initialize compile discover p = Some d ->
  run compile chk d (events_of (heard 2 (channel l))) <> None -> fst (fst (serve (opened early i p pause ok l))) <> Crash.
Proof.
  intros He Hp Hq Hst HP HQ Hd Hr. rewrite (serve_opened _ _ _ _ _ _ d He Hp Hd). destruct (talk (WaitConfig 1 true) (St d default 1) (channel l)) as [[m1 s1] o1] eqn:E.
  pose proof (talk_alive_inv P Q _ Hq Hst 2 _ (St d default 1) _ _ _ HP HQ (waits_first 1) Hr E) as Hm. destruct m1 as [| |id []|id| | |[]]; cbn; try discriminate. contradiction.
Qed.

(** ** The end *)
Lemma leave_talk l : forall s m s' o, talk WaitExit s l = (m, s', o) -> fst (@closed S A C m s') = if leaves l then ExitOk else ExitErr.
Proof.
  induction l as [|a l IH]; intros s m s' o; cbn [talk]; [intros H; injection H as <- <- <-; reflexivity|].
  destruct a as [[i r|n|i v b]| |]; cbn [LspSession.turn leaves].
  5:{ rewrite ended_talk. intros H; injection H as <- <- <-. reflexivity. }
  4:{ destruct (talk WaitExit s l) as [[m2 s2] o2] eqn:E2. intros H. injection H as <- <- <-. exact (IH _ _ _ _ E2). }
  2:{ destruct n; rewrite ended_talk; intros H; injection H as <- <- <-; reflexivity. }
  all: rewrite ended_talk; intros H; injection H as <- <- <-; reflexivity.
Qed.
Lemma talk_end l : forall k m s m' s' o, waits m k -> talk m s l = (m', s', o) -> m' <> Ended Crash ->
  fst (@closed S A C m' s') = match farewell k l with Some r => if leaves r then ExitOk else ExitErr | None => ExitOk end.
Proof.
  induction l as [|a l IH]; intros k m s m' s' o Hw H Hc; cbn [talk] in H.
  - injection H as <- <- <-. cbn [farewell]. exact (waits_closed _ _ _ Hw).
  - destruct k as [|k].
    + inversion Hw; subst. destruct (turn Idle s a) as [[m1 s1] o1] eqn:E. destruct (talk m1 s1 l) as [[m2 s2] o2] eqn:E2. injection H as <- <- <-.
      cbn [LspSession.turn] in E. cbn [farewell]. destruct a as [x| |]; [|injection E as <- <- <-; exact (IH _ _ _ _ _ _ waits_idle E2 Hc)..].
      destruct x as [i r|n|i v b]; cbn [LspSession.handle] in E; [| |injection E as <- <- <-; exact (IH _ _ _ _ _ _ waits_idle E2 Hc)].
      * destruct r as [p|[q|]| |]; try (injection E as <- <- <-; exact (IH _ _ _ _ _ _ waits_idle E2 Hc)).
        -- destruct (answer (st_docs s) (st_cfg s) q); injection E as <- <- <-; try exact (IH _ _ _ _ _ _ waits_idle E2 Hc). rewrite ended_talk in E2. exfalso. apply Hc. congruence.
        -- injection E as <- <- <-. exact (leave_talk _ _ _ _ _ E2).
      * destruct n as [[]|[e|]|[]| |]; try (injection E as <- <- <-; exact (IH _ _ _ _ _ _ waits_idle E2 Hc)).
        -- destruct (reload_waits _ _ _ _ _ E) as (W & _). exact (IH _ _ _ _ _ _ W E2 Hc).
        -- destruct (step compile chk (st_docs s) e) as [d|]; injection E as <- <- <-; [exact (IH _ _ _ _ _ _ waits_idle E2 Hc)|]. rewrite ended_talk in E2. exfalso. apply Hc. congruence.
        -- destruct (reload_waits _ _ _ _ _ E) as (W & _). exact (IH _ _ _ _ _ _ W E2 Hc).
    + destruct (waits_turn m k s a Hw) as (m1 & s1 & o1 & E & W & Ho & Hd). rewrite E in H. destruct (talk m1 s1 l) as [[m2 s2] o2] eqn:E2. injection H as <- <- <-. exact (IH _ _ _ _ _ _ W E2 Hc).
Qed.

(** ** Prefixes *)
Lemma talk_awaits l : forall k m s m' s' o k', waits m k -> talk m s l = (m', s', o) -> m' <> Ended Crash -> awaits k l = Some k' -> waits m' k'.
Proof.
  induction l as [|a l IH]; intros k m s m' s' o k' Hw H Hc Ha; cbn [talk] in H.
  - injection H as <- <- <-. cbn in Ha. injection Ha as <-. exact Hw.
  - destruct k as [|k].
    + inversion Hw; subst. destruct (turn Idle s a) as [[m1 s1] o1] eqn:E. destruct (talk m1 s1 l) as [[m2 s2] o2] eqn:E2. injection H as <- <- <-.
      cbn [LspSession.turn] in E. cbn [awaits] in Ha. destruct a as [x| |]; [|injection E as <- <- <-; exact (IH _ _ _ _ _ _ _ waits_idle E2 Hc Ha)..].
      destruct x as [i r|n|i v b]; cbn [LspSession.handle] in E; [| |injection E as <- <- <-; exact (IH _ _ _ _ _ _ _ waits_idle E2 Hc Ha)].
      * destruct r as [p|[q|]| |]; try discriminate; try (injection E as <- <- <-; exact (IH _ _ _ _ _ _ _ waits_idle E2 Hc Ha)).
        destruct (answer (st_docs s) (st_cfg s) q); injection E as <- <- <-; try exact (IH _ _ _ _ _ _ _ waits_idle E2 Hc Ha). rewrite ended_talk in E2. exfalso. apply Hc. congruence.
      * destruct n as [[]|[e|]|[]| |]; try (injection E as <- <- <-; exact (IH _ _ _ _ _ _ _ waits_idle E2 Hc Ha)).
        -- destruct (reload_waits _ _ _ _ _ E) as (W & _). exact (IH _ _ _ _ _ _ _ W E2 Hc Ha).
        -- destruct (step compile chk (st_docs s) e) as [d|]; injection E as <- <- <-; [exact (IH _ _ _ _ _ _ _ waits_idle E2 Hc Ha)|]. rewrite ended_talk in E2. exfalso. apply Hc. congruence.
        -- destruct (reload_waits _ _ _ _ _ E) as (W & _). exact (IH _ _ _ _ _ _ _ W E2 Hc Ha).
    + destruct (waits_turn m k s a Hw) as (m1 & s1 & o1 & E & W & Ho & Hd). rewrite E in H. destruct (talk m1 s1 l) as [[m2 s2] o2] eqn:E2. injection H as <- <- <-. exact (IH _ _ _ _ _ _ _ W E2 Hc Ha).
Qed.

(** ** Settings *)
Lemma turn_cfg m s a m' s' o : turn m s a = (m', s', o) ->
  (st_cfg s' = st_cfg s \/ exists id b v0, m = WaitConfig id b /\ a = Arrives (MResponse (RNum id) v0 false) /\ read_settings (match v0 with Some v => v | None => null end) = Some (st_cfg s'))
  /\ (forall id b, m' = WaitConfig id b -> In (SRequest (RNum id) AskConfiguration) o).
Proof.
  intros H. assert (Hr : forall x b, @reload S A C x b = (m', s', o) -> x = s -> st_cfg s' = st_cfg s /\ forall id b0, m' = WaitConfig id b0 -> In (SRequest (RNum id) AskConfiguration) o).
  { intros x b. unfold reload, send_request. intros E ->. injection E as <- <- <-. split; [reflexivity|]. intros id b0 E. injection E as -> _. left. reflexivity. }
  assert (Hld : forall id b, m = WaitConfig id b -> st_cfg (@reloaded S V C read_settings null s id a) = st_cfg s \/ exists id b v0, m = WaitConfig id b /\ a = Arrives (MResponse (RNum id) v0 false) /\ read_settings (match v0 with Some v => v | None => null end) = Some (st_cfg (@reloaded S V C read_settings null s id a))).
  { intros id b ->. unfold reloaded, received. destruct a as [[i r|n|i v []]| |]; auto. destruct (rid_eqb i (RNum id)) eqn:Ei; [|auto].
    destruct (read_settings (match v with Some v => v | None => null end)) as [c|] eqn:Ec; [|auto]. right. exists id, b, v. split; [reflexivity|]. split.
    - destruct i as [z|t]; cbn in Ei; [|discriminate]. apply Z.eqb_eq in Ei. subst z. reflexivity.
    - rewrite Ei, Ec. reflexivity. }
  destruct m as [| |id first|id| | |e]; cbn [LspSession.turn] in H.
  - destruct a as [[i r|n|i v b]| |].
    + destruct r as [[p|]|q| |]; [destruct (initialize compile discover p)|..]; injection H as <- <- <-; (split; [left; reflexivity|intros; discriminate]).
    + destruct n; injection H as <- <- <-; (split; [left; reflexivity|intros; discriminate]).
    + injection H as <- <- <-; (split; [left; reflexivity|intros; discriminate]).
    + injection H as <- <- <-; (split; [left; reflexivity|intros; discriminate]).
    + injection H as <- <- <-; (split; [left; reflexivity|intros; discriminate]).
  - destruct a as [[i r|n|i v b]| |]; try (injection H as <- <- <-; (split; [left; reflexivity|intros; discriminate])).
    destruct n; try (injection H as <- <- <-; (split; [left; reflexivity|intros; discriminate])). destruct (Hr _ _ H eq_refl) as [H1 H2]. auto.
  - destruct first.
    + unfold send_request in H. injection H as <- <- <-. cbn [st_cfg]. split; [|intros; discriminate]. destruct (Hld _ _ eq_refl) as [H1|(id' & b & v & H1 & H2 & H3)]; [left; exact H1|right]. injection H1 as <- <-. exists id, true, v. auto.
    + injection H as <- <- <-. split; [|intros; discriminate]. destruct (Hld _ _ eq_refl) as [H1|(id' & b & v & H1 & H2 & H3)]; [left; exact H1|right]. injection H1 as <- <-. exists id, false, v. auto.
  - injection H as <- <- <-; (split; [left; reflexivity|intros; discriminate]).
  - destruct a as [x| |]; try (injection H as <- <- <-; (split; [left; reflexivity|intros; discriminate])). destruct x as [i r|n|i v b]; cbn [LspSession.handle] in H.
    + destruct r as [p|[q|]| |]; [|destruct (answer (st_docs s) (st_cfg s) q)|..]; injection H as <- <- <-; (split; [left; reflexivity|intros; discriminate]).
    + destruct n as [[]|[e|]|[]| |]; try (destruct (Hr _ _ H eq_refl) as [H1 H2]; auto; fail); [|destruct (step compile chk (st_docs s) e)|..]; injection H as <- <- <-; (split; [left; reflexivity|intros; discriminate]).
    + injection H as <- <- <-; (split; [left; reflexivity|intros; discriminate]).
  - destruct a as [[i r|[]|i v b]| |]; injection H as <- <- <-; (split; [left; reflexivity|intros; discriminate]).
  - injection H as <- <- <-; (split; [left; reflexivity|intros; discriminate]).
Qed.
Definition asked_before (id : Z) (m : mode) (o : list (sent A)) : Prop := In (SRequest (RNum id) AskConfiguration) o \/ exists b, m = WaitConfig id b.
Lemma talk_cfg l : forall m s m' s' o, talk m s l = (m', s', o) ->
  st_cfg s' = st_cfg s \/ exists id v0, asked_before id m o /\ In (Arrives (MResponse (RNum id) v0 false)) l /\ read_settings (match v0 with Some v => v | None => null end) = Some (st_cfg s').
Proof.
  induction l as [|a l IH]; intros m s m' s' o H; cbn [talk] in H; [injection H as <- <- <-; left; reflexivity|].
  destruct (turn m s a) as [[m1 s1] o1] eqn:E. destruct (talk m1 s1 l) as [[m2 s2] o2] eqn:E2. injection H as <- <- <-.
  destruct (turn_cfg _ _ _ _ _ _ E) as [Hc Hm]. destruct (IH _ _ _ _ _ E2) as [Hs|(id & v & Ha & Hi & Hr)].
  - rewrite Hs. destruct Hc as [Hc|(id & b & v & -> & -> & Hr)]; [left; exact Hc|right]. exists id, v. split; [right; eauto|]. split; [left; reflexivity|exact Hr].
  - right. exists id, v. split; [|split; [right; exact Hi|exact Hr]]. left. apply in_or_app. destruct Ha as [Ha|(b & ->)]; [right; exact Ha|left; exact (Hm _ _ eq_refl)].
Qed.

(** ** The ids of the server's requests *)
Fixpoint count_from (n : Z) (k : nat) : list Z := match k with O => [] | Datatypes.S k' => next_i32 n :: count_from (next_i32 n) k' end.
Lemma turn_ids m s a m' s' o : turn m s a = (m', s', o) -> (own_ids o = [] /\ st_next s' = st_next s) \/ (own_ids o = [RNum (next_i32 (st_next s))] /\ st_next s' = next_i32 (st_next s)).
Proof.
  assert (Hn : forall id, st_next (@reloaded S V C read_settings null s id a) = st_next s).
  { intros id. unfold reloaded. destruct (received null id a) as [v|]; [|reflexivity]. destruct (read_settings v); reflexivity. }
  intros H. assert (Hr : forall x b, @reload S A C x b = (m', s', o) -> x = s -> own_ids o = [RNum (next_i32 (st_next s))] /\ st_next s' = next_i32 (st_next s)).
  { intros x b. unfold reload, send_request. intros E ->. injection E as <- <- <-. split; reflexivity. }
  destruct m as [| |id first|id| | |e]; cbn [LspSession.turn] in H.
  - destruct a as [[i r|n|i v b]| |].
    + destruct r as [[p|]|q| |]; [destruct (initialize compile discover p)|..]; injection H as <- <- <-; left; split; reflexivity.
    + destruct n; injection H as <- <- <-; left; split; reflexivity.
    + injection H as <- <- <-; left; split; reflexivity.
    + injection H as <- <- <-; left; split; reflexivity.
    + injection H as <- <- <-; left; split; reflexivity.
  - destruct a as [[i r|n|i v b]| |]; try (injection H as <- <- <-; left; split; reflexivity).
    destruct n; try (injection H as <- <- <-; left; split; reflexivity). right; exact (Hr _ _ H eq_refl).
  - destruct first.
    + unfold send_request in H. rewrite Hn in H. injection H as <- <- <-. right. split; reflexivity.
    + injection H as <- <- <-. left. split; [reflexivity|apply Hn].
  - injection H as <- <- <-; left; split; reflexivity.
  - destruct a as [x| |]; try (injection H as <- <- <-; left; split; reflexivity). destruct x as [i r|n|i v b]; cbn [LspSession.handle] in H.
    + destruct r as [p|[q|]| |]; [|destruct (answer (st_docs s) (st_cfg s) q)|..]; injection H as <- <- <-; left; split; reflexivity.
    + destruct n as [[]|[e|]|[]| |]; try (right; exact (Hr _ _ H eq_refl)); [|destruct (step compile chk (st_docs s) e)|..]; injection H as <- <- <-; left; split; reflexivity.
    + injection H as <- <- <-; left; split; reflexivity.
  - destruct a as [[i r|[]|i v b]| |]; injection H as <- <- <-; left; split; reflexivity.
  - injection H as <- <- <-; left; split; reflexivity.
Qed.
Lemma own_ids_app (o o' : list (sent A)) : own_ids (o ++ o') = own_ids o ++ own_ids o'.
Proof. apply flat_map_app. Qed.
Lemma converse_ids l : forall m s e s' o, converse m s l = (e, s', o) -> own_ids o = map RNum (count_from (st_next s) (length (own_ids o))).
Proof.
  induction l as [|a l IH]; intros m s e s' o H; cbn [LspSession.converse] in H.
  - destruct m as [| |id []|id| | |x]; cbn in H; injection H as <- <- <-; reflexivity.
  - destruct (turn m s a) as [[m1 s1] o1] eqn:E. destruct (converse m1 s1 l) as [[e2 s2] o2] eqn:E2. injection H as <- <- <-. specialize (IH _ _ _ _ _ E2).
    rewrite own_ids_app. destruct (turn_ids _ _ _ _ _ _ E) as [[H1 H2]|[H1 H2]]; rewrite H1; cbn [app length count_from map]; rewrite <- H2; [exact IH|]. f_equal. exact IH.
Qed.
End Session.

Definition wrap (z : Z) : Z := ((z + 2 ^ 31) mod 2 ^ 32 - 2 ^ 31)%Z.
Lemma next_wrap n : (- 2 ^ 31 <= n < 2 ^ 31)%Z -> next_i32 n = wrap (n + 1) /\ (- 2 ^ 31 <= next_i32 n < 2 ^ 31)%Z.
Proof.
  intros H. unfold next_i32, wrap. destruct (Z.eqb_spec n (2 ^ 31 - 1)) as [->|Hn]; [split; [reflexivity|lia]|]. split; [|lia]. rewrite Z.mod_small; lia.
Qed.
Lemma wrap_add a b : wrap (wrap a + b) = wrap (a + b).
Proof. unfold wrap. f_equal. replace ((a + 2 ^ 31) mod 2 ^ 32 - 2 ^ 31 + b + 2 ^ 31)%Z with ((a + 2 ^ 31) mod 2 ^ 32 + b)%Z by ring. rewrite Zplus_mod_idemp_l. f_equal. ring. Qed.
Lemma wrap_range z : (- 2 ^ 31 <= wrap z < 2 ^ 31)%Z.
Proof. unfold wrap. pose proof (Z.mod_pos_bound (z + 2 ^ 31) (2 ^ 32) ltac:(reflexivity)). lia. Qed.
Lemma count_in k : forall n x, (- 2 ^ 31 <= n < 2 ^ 31)%Z -> In x (count_from n k) -> exists j, (1 <= j <= Z.of_nat k)%Z /\ x = wrap (n + j).
Proof.
  induction k as [|k IH]; intros n x Hn Hi; [destruct Hi|]. cbn [count_from] in Hi. destruct (next_wrap n Hn) as [Hw Hr]. destruct Hi as [<-|Hi]; [exists 1%Z; split; [lia|exact Hw]|].
  destruct (IH _ _ Hr Hi) as (j & Hj & ->). exists (j + 1)%Z. split; [lia|]. rewrite Hw, wrap_add. f_equal. ring.
Qed.
Lemma count_nodup k : forall n, (- 2 ^ 31 <= n < 2 ^ 31)%Z -> (Z.of_nat k <= 2 ^ 32)%Z -> NoDup (count_from n k).
Proof.
  induction k as [|k IH]; intros n Hn Hk; [constructor|]. cbn [count_from]. destruct (next_wrap n Hn) as [Hw Hr]. constructor; [|apply IH; [exact Hr|lia]].
  intros Hi. destruct (count_in _ _ _ Hr Hi) as (j & Hj & E). rewrite Hw, wrap_add in E. unfold wrap in E.
  assert (E' : ((n + 1 + 2 ^ 31) mod 2 ^ 32 = (n + 1 + j + 2 ^ 31) mod 2 ^ 32)%Z) by lia.
  pose proof (Z.div_mod (n + 1 + 2 ^ 31) (2 ^ 32) ltac:(discriminate)) as D1. pose proof (Z.div_mod (n + 1 + j + 2 ^ 31) (2 ^ 32) ltac:(discriminate)) as D2.
  remember ((n + 1 + 2 ^ 31) / 2 ^ 32)%Z as q1. remember ((n + 1 + j + 2 ^ 31) / 2 ^ 32)%Z as q2. rewrite E' in D1. assert (j = 2 ^ 32 * (q2 - q1))%Z by lia. assert (0 < q2 - q1 < 1)%Z by nia. lia.
Qed.
