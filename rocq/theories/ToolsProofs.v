(** Lemmas about file systems and about the programs of Tools.v. *)
From Verif Require Import Base Syntax Parser Printer Compiler Resolve Tools ToolsSpec.
Require Coq.Strings.String.
Import Coq.Strings.String.StringSyntax.
Local Open Scope N_scope.

Lemma path_eqb_eq a b : path_eqb a b = true <-> a = b.
Proof.
  revert b. induction a as [|x a IH]; intros [|y b]; cbn [path_eqb]; try (split; (discriminate || reflexivity)).
  rewrite andb_true_iff, str_eqb_eq, IH. split; [intros [-> ->]; reflexivity|intros H; injection H as -> ->; auto].
Qed.
Lemma path_dec (a b : list str) : {a = b} + {a <> b}.
Proof. apply list_eq_dec, list_eq_dec, N.eq_dec. Qed.

Section Disk.
Context {C : Type}.
Implicit Types (ws : list (path * C)) (s : path -> option C).

Lemma put_same s p c : put s p c p = Some c.
Proof. unfold put. assert (E : path_eqb p p = true) by (apply path_eqb_eq; reflexivity). rewrite E. reflexivity. Qed.
Lemma put_other s p c q : q <> p -> put s p c q = s q.
Proof. intros H. unfold put. destruct (path_eqb q p) eqn:E; [apply path_eqb_eq in E; contradiction|reflexivity]. Qed.

(** The file system after some writes, computed. *)
Definition run ws s : path -> option C := fold_left (fun s w => put s (fst w) (snd w)) ws s.
Lemma run_app ws1 ws2 s : run (ws1 ++ ws2) s = run ws2 (run ws1 s).
Proof. apply fold_left_app. Qed.
Lemma run_other ws s q : (forall c, ~ In (q, c) ws) -> run ws s q = s q.
Proof.
  revert s. induction ws as [|[p c] ws IH]; intros s H; [reflexivity|]. cbn [run fold_left fst snd]. fold (run ws (put s p c)).
  rewrite IH; [|intros c' Hc'; apply (H c'); right; exact Hc']. apply put_other. intros ->. apply (H c). left. reflexivity.
Qed.
Lemma run_last ws s q c : last_write ws q c -> run ws s q = Some c.
Proof.
  intros H. destruct H as [ws1 ws2 q c H]. rewrite run_app. change ((q, c) :: ws2) with ([(q, c)] ++ ws2). rewrite run_app.
  rewrite run_other; [|intros c' Hc'; exact (H _ _ Hc' eq_refl)]. apply put_same.
Qed.
Lemma last_or ws q : (exists c, last_write ws q c) \/ (forall c, ~ In (q, c) ws).
Proof.
  induction ws as [|[p c] ws IH]; [right; intros c []|]. destruct IH as [(c' & H)|H].
  - left. exists c'. destruct H as [ws1 ws2 q c' H]. exact (last_write_here ((p, c) :: ws1) ws2 q c' H).
  - destruct (path_dec p q) as [<-|Hn].
    + left. exists c. apply (last_write_here [] ws p c). intros p' c' Hin <-. exact (H c' Hin).
    + right. intros c' [E|Hin]; [injection E as -> ->; contradiction|exact (H c' Hin)].
Qed.
Lemma run_after ws s : after ws s (run ws s).
Proof. intros q. split; [intros c; apply run_last|apply run_other]. Qed.
Lemma after_run ws s s' : after ws s s' -> forall q, s' q = run ws s q.
Proof.
  intros H q. destruct (H q) as [H1 H2]. destruct (last_or ws q) as [(c & Hc)|Hn].
  - rewrite (H1 c Hc). symmetry. apply run_last. exact Hc.
  - rewrite (H2 Hn). symmetry. apply run_other. exact Hn.
Qed.
Lemma last_write_in ws q c : last_write ws q c -> In (q, c) ws.
Proof. intros H. destruct H. apply in_or_app. right. left. reflexivity. Qed.
Lemma last_write_unique ws q c c' : last_write ws q c -> last_write ws q c' -> c = c'.
Proof. intros H H'. assert (E : Some c = Some c') by (rewrite <- (run_last ws (fun _ => None) q c H); apply run_last; exact H'). congruence. Qed.
(** Two starting points that differ only on written files end the same. *)
Lemma run_forget ws s s' : (forall q, (forall c, ~ In (q, c) ws) -> s' q = s q) -> forall q, run ws s' q = run ws s q.
Proof.
  intros H q. destruct (last_or ws q) as [(c & Hc)|Hn].
  - rewrite (run_last _ _ _ _ Hc), (run_last _ _ _ _ Hc). reflexivity.
  - rewrite (run_other _ _ _ Hn), (run_other _ _ _ Hn). apply H. exact Hn.
Qed.
Lemma nodup_last ws q c : NoDup (map fst ws) -> In (q, c) ws -> last_write ws q c.
Proof.
  intros Hn Hin. apply in_split in Hin as (ws1 & ws2 & ->). constructor. intros p c' Hin ->.
  rewrite map_app in Hn. cbn [map fst] in Hn. apply NoDup_remove_2 in Hn. apply Hn. apply in_or_app. right.
  change q with (fst (q, c')). apply in_map. exact Hin.
Qed.
End Disk.

Lemma stopped_other ws s s' q : stopped ws s s' -> (forall c, ~ In (q, c) ws) -> s' q = s q.
Proof.
  intros (dn & left & -> & H) Hn. destruct H as [H|(p & c & part & rest & left' & -> & -> & H)].
  - apply (H q). intros c Hc. apply (Hn c). apply in_or_app. left. exact Hc.
  - apply (H q). intros c Hc. apply in_app_or in Hc as [Hc|[Hc|[]]].
    + apply (Hn c). apply in_or_app. left. exact Hc.
    + injection Hc as -> ->. apply (Hn (c ++ rest)). apply in_or_app. right. left. reflexivity.
Qed.
(** All but at most one file are whole. *)
Lemma stopped_whole ws s s' : stopped ws s s' ->
  exists p, forall q, q <> p -> s' q = s q \/ exists c, In (q, c) ws /\ s' q = Some c.
Proof.
  intros (dn & left & -> & H). destruct H as [H|(p & c & part & rest & left' & -> & -> & H)].
  - exists []. intros q _. destruct (H q) as [H1 H2]. destruct (last_or dn q) as [(c & Hc)|Hn]; [|left; apply H2; exact Hn].
    right. exists c. split; [apply in_or_app; left; apply last_write_in; exact Hc|apply H1; exact Hc].
  - exists p. intros q Hq. destruct (H q) as [H1 H2]. destruct (last_or (dn ++ [(p, part)]) q) as [(c & Hc)|Hn]; [|left; apply H2; exact Hn].
    right. exists c. split; [|apply H1; exact Hc]. apply last_write_in in Hc. apply in_app_or in Hc as [Hc|[Hc|[]]].
    + apply in_or_app. left. exact Hc.
    + congruence.
Qed.
(** With distinct names: they are as before or as after the whole run. *)
Lemma stopped_whole_nodup ws s s' : NoDup (map fst ws) -> stopped ws s s' ->
  exists p, forall q, q <> p -> s' q = s q \/ s' q = run ws s q.
Proof.
  intros Hn H. destruct (stopped_whole ws s s' H) as (p & Hp). exists p. intros q Hq. destruct (Hp q Hq) as [E|(c & Hc & E)]; [left; exact E|].
  right. rewrite E. symmetry. apply run_last. apply nodup_last; assumption.
Qed.

(** * Loading a project *)
Section Front.
Context {F : Type}.
Variables (parse_f64 : str -> option F) (pick : list str -> nat) (chk : bool) (order : list (ext * lerr) -> list (ext * lerr)).

Lemma read_all_ok read files l : read_all read files = COk l ->
  map fst l = files /\ Forall (fun x => read (f_path (fst x)) = Some (snd x)) l.
Proof.
  revert l. induction files as [|f files IH]; intros l H; cbn [read_all] in H; [injection H as <-; split; constructor|].
  destruct (read (f_path f)) as [i|] eqn:E; [|discriminate]. destruct (read_all read files) as [l'| |]; try discriminate.
  injection H as <-. destruct (IH l' eq_refl) as [<- H2]. split; [reflexivity|]. constructor; [exact E|exact H2].
Qed.
Lemma read_all_app read files l : map fst l = files -> Forall (fun x => read (f_path (fst x)) = Some (snd x)) l -> read_all read files = COk l.
Proof.
  intros <- H. induction H as [|[f i] l Hi Hl IH]; [reflexivity|]. cbn [map fst read_all]. cbn [fst snd] in Hi. rewrite Hi, IH. reflexivity.
Qed.
Lemma check_all_ok l values : check_all parse_f64 pick chk l = COk values <->
  Forall2 (fun x v => fst v = f_stem (fst x) /\ schema_parse parse_f64 (snd x) = Some (snd v) /\ validate_schema pick chk (snd v) = COk tt) l values.
Proof.
  revert values. induction l as [|[f i] l IH]; intros values; cbn [check_all].
  - split; [intros H; injection H as <-; constructor|intros H; inversion H; reflexivity].
  - split.
    + destruct (schema_parse parse_f64 i) as [s|] eqn:E; [|discriminate].
      destruct (validate_schema pick chk s) as [[]|e|] eqn:Ev; cbn; [|discriminate..].
      destruct (check_all parse_f64 pick chk l) as [vs| |] eqn:El; cbn; [|discriminate..]. intros H. injection H as <-.
      constructor; [auto|]. apply IH. reflexivity.
    + intros H. inversion H as [|x v l' vs (H1 & H2 & H3) HF]; subst. cbn [fst snd] in *. rewrite H2, H3. cbn.
      apply IH in HF. rewrite HF. cbn. destruct v as [n s]. cbn [fst snd] in *. subst n. reflexivity.
Qed.
Lemma front_iff read files values : front parse_f64 pick chk order read files = COk values <->
  Forall2 (fun f v => fst v = f_stem f /\ (exists i, read (f_path f) = Some i /\ schema_parse parse_f64 i = Some (snd v))
                      /\ validate_schema pick chk (snd v) = COk tt) files values
  /\ resolve_schemas order values = COk tt.
Proof.
  unfold front. split.
  - destruct (read_all read files) as [l| |] eqn:El; cbn [cbind]; [|discriminate..].
    destruct (check_all parse_f64 pick chk l) as [vs| |] eqn:Ec; cbn [cbind]; [|discriminate..].
    destruct (resolve_schemas order vs) as [[]| |] eqn:Er; cbn; [|discriminate..]. intros H. injection H as <-. split; [|exact Er].
    apply read_all_ok in El as [<- Hl]. apply check_all_ok in Ec. clear Er. induction Ec as [|x v l vs (H1 & H2 & H3) HF IH]; [constructor|].
    inversion Hl; subst. cbn [map]. constructor; [|apply IH; assumption]. split; [exact H1|]. split; [exists (snd x); auto|exact H3].
  - intros [H Hr].
    assert (HE : exists l, map fst l = files /\ Forall (fun x => read (f_path (fst x)) = Some (snd x)) l /\
       Forall2 (fun x v => fst v = f_stem (fst x) /\ schema_parse parse_f64 (snd x) = Some (snd v) /\ validate_schema pick chk (snd v) = COk tt) l values).
    { clear Hr. induction H as [|f v files vs (H1 & (i & H2 & H3) & H4) HF IH]; [exists []; repeat split; constructor|].
      destruct IH as (l & E1 & E2 & E3). exists ((f, i) :: l). cbn [map fst]. rewrite E1. split; [reflexivity|].
      split; constructor; auto. }
    destruct HE as (l & E1 & E2 & E3). rewrite (read_all_app read files l E1 E2). cbn [cbind]. apply check_all_ok in E3. rewrite E3. cbn [cbind].
    rewrite Hr. reflexivity.
Qed.
Lemma front_ext read read' files : (forall f, In f files -> read' (f_path f) = read (f_path f)) ->
  front parse_f64 pick chk order read' files = front parse_f64 pick chk order read files.
Proof.
  intros H. unfold front. assert (E : read_all read' files = read_all read files).
  { induction files as [|f files IH]; [reflexivity|]. cbn [read_all]. rewrite (H f (or_introl eq_refl)), IH; [reflexivity|].
    intros g Hg. apply H. right. exact Hg. }
  rewrite E. reflexivity.
Qed.
End Front.

(** * Names *)
Lemma app_tail_eq {A} (a b c d : list A) : length b = length d -> a ++ b = c ++ d -> a = c /\ b = d.
Proof.
  intros Hl H. assert (length a = length c) by (apply (f_equal (@length A)) in H; rewrite !app_length in H; lia).
  apply app_eq_app in H as (l & [[-> ->]|[-> ->]]); rewrite !app_length in *; destruct l; cbn [length] in *; try lia; rewrite ?app_nil_r; auto.
Qed.
Lemma stem_inj (a b e : str) : a ++ e = b ++ e -> a = b.
Proof. intros H. apply app_tail_eq in H as [H _]; [exact H|reflexivity]. Qed.
Lemma f_path_inj f g : f_path f = f_path g -> f = g.
Proof.
  destruct f as [d s], g as [d' s']. unfold f_path. cbn [f_dir f_stem]. intros H. apply app_inj_tail in H as [-> H].
  apply stem_inj in H. subst. reflexivity.
Qed.
Lemma last_app_ne (a b : str) (x y : N) : x <> y -> a ++ [x] <> b ++ [y].
Proof. intros Hn H. apply app_inj_tail in H as [_ H]. contradiction. Qed.
(** Schema files are not output files. *)
Definition ends_with (q : path) (c : N) : Prop := exists d x, q = d ++ [x ++ [c]].
Lemma mabo_ends f : ends_with (f_path f) 111.
Proof. exists (f_dir f), (f_stem f ++ [46; 109; 97; 98]). unfold f_path. rewrite <- app_assoc. reflexivity. Qed.
Lemma rs_ends out stem : ends_with (rs_path out stem) 115.
Proof. exists out, (stem ++ [46; 114]). unfold rs_path. rewrite <- app_assoc. reflexivity. Qed.
Lemma ends_ne q q' c c' : ends_with q c -> ends_with q' c' -> q = q' -> c = c'.
Proof.
  intros (d & x & ->) (d' & x' & ->) H. apply app_inj_tail in H as [_ H]. apply app_inj_tail in H as [_ H]. exact H.
Qed.

(** * The Rust build *)
Section Rust.
Context {F : Type}.
Variables (parse_f64 : str -> option F) (pick : list str -> nat) (chk : bool) (order : list (ext * lerr) -> list (ext * lerr)).
Variables (gen : comment * list (sdef F) -> gres) (out : path).
Notation compile := (compile parse_f64 pick chk order gen out).

Lemma emit_paths values ws e : emit chk gen out values = (ws, e) -> forall q c, In (q, c) ws ->
  exists n s, In (n, s) values /\ q = rs_path out n.
Proof.
  revert ws e. induction values as [|[n s] values IH]; intros ws e H q c Hin; cbn [emit] in H; [injection H as <- <-; destruct Hin|].
  destruct (simplify_schema chk s) as [o|]; [|injection H as <- <-; destruct Hin].
  destruct (gen o) as [code| |]; try (injection H as <- <-; destruct Hin; fail).
  destruct (emit chk gen out values) as [ws' e'] eqn:E. injection H as <- <-. destruct Hin as [Hin|Hin].
  - injection Hin as <- <-. exists n, s. split; [left; reflexivity|reflexivity].
  - destruct (IH ws' e' eq_refl q c Hin) as (n' & s' & H1 & H2). exists n', s'. split; [right; exact H1|exact H2].
Qed.
Lemma emit_done values ws : emit chk gen out values = (ws, BDone) ->
  Forall2 (fun v w => fst w = rs_path out (fst v) /\ exists o, simplify_schema chk (snd v) = Some o /\ gen o = GCode (snd w)) values ws.
Proof.
  revert ws. induction values as [|[n s] values IH]; intros ws H; cbn [emit] in H; [injection H as <-; constructor|].
  destruct (simplify_schema chk s) as [o|] eqn:Es; [|discriminate].
  destruct (gen o) as [code| |] eqn:Eg; [|discriminate..].
  destruct (emit chk gen out values) as [ws' e'] eqn:E. injection H as <- ->. constructor; [|apply IH; reflexivity].
  cbn [fst snd]. split; [reflexivity|]. exists o. auto.
Qed.
Lemma rs_path_inj a b : rs_path out a = rs_path out b -> a = b.
Proof. unfold rs_path. intros H. apply app_inj_tail in H as [_ H]. exact (stem_inj _ _ _ H). Qed.
Lemma compile_paths read files q c : In (q, c) (fst (compile read files)) -> exists f, In f files /\ q = rs_path out (f_stem f).
Proof.
  unfold Tools.compile. destruct (front parse_f64 pick chk order read files) as [values| |] eqn:E; [|intros []..].
  intros Hin. destruct (emit chk gen out values) as [ws e] eqn:Ee. destruct (emit_paths values ws e Ee q c Hin) as (n & s & H1 & H2).
  apply front_iff in E as [HF _]. revert H1. clear - HF H2. induction HF as [|f v files vs (H & _) HF IH]; [intros []|]. intros [->|Hin].
  - exists f. split; [left; reflexivity|]. cbn [fst] in H. rewrite <- H. exact H2.
  - destruct (IH Hin) as (g & H1 & H3). exists g. split; [right; exact H1|exact H3].
Qed.
End Rust.
