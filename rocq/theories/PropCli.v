(** Property theorems C56 (mabo check), C57 (mabo fmt), C58 (mabo doc). *)
From Verif Require Import Base Syntax Parser Printer ParserSpec PropParser Compiler CompilerSpec CompilerClaims
  CompilerProofs CompilerMore GenProofs Resolve ResolveSpec PropCompiler PropResolve Tools ToolsSpec ToolsProofs PropBuild PropGoOut.
Require Coq.Strings.String.
Import Coq.Strings.String.StringSyntax.
Local Open Scope N_scope.

(** * C56: mabo check *)

(** If all files can be read, exactly those that do not parse are reported, and the command
    succeeds in any case; it fails exactly if a file cannot be read. *)
Theorem C56_reports : forall (F : Type) (parse_f64 : str -> option F) (read : path -> option str) (files : list sfile),
  let '(reports, st) := check parse_f64 read files in
  (st = Success <-> forall f, In f files -> read (f_path f) <> None)
  /\ (st = Success -> forall f, In f reports <-> In f files /\ exists i, read (f_path f) = Some i /\ schema_parse parse_f64 i = None).
Proof.
  intros F pf read files. induction files as [|f files IH]; cbn [check].
  - split; [split; [intros _ f []|reflexivity]|]. intros _ f. split; [intros []|intros [[] _]].
  - destruct (read (f_path f)) as [i|] eqn:E.
    + destruct (check pf read files) as [reports st]. destruct IH as [IH1 IH2].
      assert (H1 : st = Success <-> forall g, In g (f :: files) -> read (f_path g) <> None).
      { rewrite IH1. split; [intros H g [<-|Hg]; [rewrite E; discriminate|apply H; exact Hg]|intros H g Hg; apply H; right; exact Hg]. }
      destruct (schema_parse pf i) as [s|] eqn:Es; (split; [exact H1|]); intros Hst g; specialize (IH2 Hst g).
      * rewrite IH2. split; [intros [H2 H3]; split; [right; exact H2|exact H3]|]. intros [[<-|H2] H3]; [|split; assumption].
        destruct H3 as (i' & H3 & H4). congruence.
      * cbn [In]. rewrite IH2. split; [intros [<-|[H2 H3]]; (split; [auto|]); eauto|]. intros [[<-|H2] H3]; [left; reflexivity|right; split; assumption].
    + split; [|discriminate]. split; [discriminate|]. intros H. exfalso. apply (H f); [left; reflexivity|exact E].
Qed.
Print Assumptions C56_reports.

(** Refuted: "in case any of the steps fail an error will be returned".  A file that does not
    parse is reported but the command succeeds; an invalid schema and one with unknown types are
    not even reported. *)
Definition check_disk : path -> option str := fun p =>
  if path_eqb p [tx "syntax.mabo"] then Some (tx "struct A(") else
  if path_eqb p [tx "ids.mabo"] then Some (tx "struct A(u8 @1, u8 @1)") else
  if path_eqb p [tx "types.mabo"] then Some (tx "struct A(Missing)") else None.
Theorem C56_status_refuted : forall (F : Type) (parse_f64 : str -> option F),
  check parse_f64 check_disk [File [] (tx "syntax"); File [] (tx "ids"); File [] (tx "types")] = ([File [] (tx "syntax")], Success)
  /\ (forall pick chk order gen out, exists e, compile parse_f64 pick chk order gen out check_disk [File [] (tx "ids")] = ([], BErr (FValidate (File [] (tx "ids")) e)))
  /\ (forall pick chk gen out, exists e, compile parse_f64 pick chk (fun l => l) gen out check_disk [File [] (tx "types")] = ([], BErr (FResolve e))).
Proof.
  intros F pf. split; [vm_compute; reflexivity|]. split.
  - intros pick chk order gen out. eexists. unfold compile.
    assert (E : front pf pick chk order check_disk [File [] (tx "ids")] = CErr (FValidate (File [] (tx "ids")) (DuplicateUnnamedFieldId 1 2 1))).
    { destruct chk; vm_compute; reflexivity. }
    rewrite E. reflexivity.
  - intros pick chk gen out. eexists. unfold compile.
    assert (E : front pf pick chk (fun l => l) check_disk [File [] (tx "types")] = CErr (FResolve (ELocal (LMissingDefinition (tx "Missing") [tx "types"])))).
    { destruct chk; vm_compute; reflexivity. }
    rewrite E. reflexivity.
Qed.
Print Assumptions C56_status_refuted.

(** * C57: mabo fmt *)
Section Fmt.
Context {F : Type} (parse_f64 : str -> option F) (fmt_f64 : F -> str) (esc_u : N -> bool).
Notation format := (format parse_f64 fmt_f64 esc_u).
Notation format_file := (format_file fmt_f64 esc_u parse_f64).

Lemma format_ext files : forall d d', (forall f, In f files -> d' (f_path f) = d (f_path f)) -> format d' files = format d files.
Proof.
  induction files as [|f files IH]; intros d d' H; [reflexivity|]. cbn [Tools.format]. rewrite (H f (or_introl eq_refl)).
  destruct (d (f_path f)) as [buf|]; [|reflexivity].
  assert (H' : forall g, In g files -> d' (f_path g) = d (f_path g)) by (intros g Hg; apply H; right; exact Hg).
  destruct (schema_parse parse_f64 buf) as [s|]; [|rewrite (IH d d' H'); reflexivity].
  destruct (str_eqb buf (pr_schema fmt_f64 esc_u s)); [apply IH; exact H'|].
  rewrite (IH (put d (f_path f) (pr_schema fmt_f64 esc_u s)) (put d' (f_path f) (pr_schema fmt_f64 esc_u s))); [reflexivity|].
  intros g Hg. unfold put. destruct (path_eqb (f_path g) (f_path f)); [reflexivity|apply H'; exact Hg].
Qed.
Lemma format_in files : forall d ws reports st, format d files = (ws, reports, st) -> forall q c, In (q, c) ws -> exists f, In f files /\ q = f_path f.
Proof.
  induction files as [|f files IH]; intros d ws reports st H q c Hin; cbn [Tools.format] in H; [injection H as <- <- <-; destruct Hin|].
  destruct (d (f_path f)) as [buf|]; [|injection H as <- <- <-; destruct Hin].
  destruct (schema_parse parse_f64 buf) as [s|].
  - destruct (str_eqb buf (pr_schema fmt_f64 esc_u s)).
    + destruct (IH _ _ _ _ H q c Hin) as (g & Hg & E). exists g. split; [right; exact Hg|exact E].
    + destruct (format (put d (f_path f) (pr_schema fmt_f64 esc_u s)) files) as [[ws' r'] st'] eqn:E. injection H as <- <- <-. destruct Hin as [Hin|Hin].
      * injection Hin as <- <-. exists f. split; [left; reflexivity|reflexivity].
      * destruct (IH _ _ _ _ E q c Hin) as (g & Hg & Eq). exists g. split; [right; exact Hg|exact Eq].
  - destruct (format d files) as [[ws' r'] st'] eqn:E. injection H as <- <- <-.
    destruct (IH _ _ _ _ E q c Hin) as (g & Hg & Eq). exists g. split; [right; exact Hg|exact Eq].
Qed.
Lemma format_nodup files : NoDup files -> forall d, NoDup (map fst (fst (fst (format d files)))).
Proof.
  induction 1 as [|f files Hf Hn IH]; intros d; cbn [Tools.format]; [constructor|].
  destruct (d (f_path f)) as [buf|]; [|constructor].
  destruct (schema_parse parse_f64 buf) as [s|].
  - destruct (str_eqb buf (pr_schema fmt_f64 esc_u s)); [apply IH|].
    specialize (IH (put d (f_path f) (pr_schema fmt_f64 esc_u s))). pose proof (format_in files (put d (f_path f) (pr_schema fmt_f64 esc_u s))) as Hi.
    destruct (format (put d (f_path f) (pr_schema fmt_f64 esc_u s)) files) as [[ws' r'] st']. cbn [fst map] in *. constructor; [|exact IH].
    intros Hin. apply in_map_iff in Hin as ([q c] & E & Hin). destruct (Hi ws' r' st' eq_refl q c Hin) as (g & Hg & E'). cbn [fst] in E. subst q.
    apply f_path_inj in E'. subst. contradiction.
  - specialize (IH d). destruct (format d files) as [[ws' r'] st']. exact IH.
Qed.
Lemma format_run files : NoDup files -> forall d, (forall f, In f files -> d (f_path f) <> None) ->
  let '(ws, reports, st) := format d files in
  st = Success /\ (forall f, In f files -> exists i, d (f_path f) = Some i /\ run ws d (f_path f) = Some (format_file i))
  /\ (forall q, (forall f, In f files -> q <> f_path f) -> run ws d q = d q)
  /\ (forall f, In f reports <-> In f files /\ exists i, d (f_path f) = Some i /\ schema_parse parse_f64 i = None).
Proof.
  induction 1 as [|f files Hf Hn IH]; intros d Hr; cbn [Tools.format].
  - split; [reflexivity|]. split; [intros f []|]. split; [reflexivity|]. intros f. split; [intros []|intros [[] _]].
  - destruct (d (f_path f)) as [buf|] eqn:E; [|exfalso; apply (Hr f); [left; reflexivity|exact E]].
    assert (Hne : forall g, In g files -> f_path g <> f_path f) by (intros g Hg E'; apply f_path_inj in E'; subst; contradiction).
    assert (Hrf : forall g, In g files -> d (f_path g) <> None) by (intros g Hg; apply Hr; right; exact Hg).
    destruct (schema_parse parse_f64 buf) as [s|] eqn:Es.
    + assert (Eff : format_file buf = pr_schema fmt_f64 esc_u s) by (unfold Printer.format_file; rewrite Es; reflexivity).
      destruct (str_eqb buf (pr_schema fmt_f64 esc_u s)) eqn:Eq.
      * apply str_eqb_eq in Eq. specialize (IH d Hrf). destruct (format d files) as [[ws reports] st]. destruct IH as (I1 & I2 & I3 & I4).
        split; [exact I1|]. split; [|split].
        -- intros g [<-|Hg]; [|apply I2; exact Hg]. exists buf. split; [exact E|]. rewrite I3; [rewrite E, Eff, <- Eq; reflexivity|].
           intros g Hg E'. symmetry in E'. exact (Hne g Hg E').
        -- intros q Hq. apply I3. intros g Hg. apply Hq. right. exact Hg.
        -- intros g. rewrite I4. split; [intros [H1 H2]; split; [right; exact H1|exact H2]|]. intros [[<-|H1] H2]; [|split; assumption].
           destruct H2 as (i & H2 & H3). congruence.
      * set (d2 := put d (f_path f) (pr_schema fmt_f64 esc_u s)).
        assert (Hd2 : forall g, In g files -> d2 (f_path g) = d (f_path g)) by (intros g Hg; apply put_other, Hne, Hg).
        specialize (IH d2 ltac:(intros g Hg; rewrite Hd2 by exact Hg; apply Hrf; exact Hg)).
        destruct (format d2 files) as [[ws reports] st]. destruct IH as (I1 & I2 & I3 & I4).
        split; [exact I1|]. change (run ((f_path f, pr_schema fmt_f64 esc_u s) :: ws) d) with (run ws d2). split; [|split].
        -- intros g [<-|Hg]; [|rewrite <- (Hd2 g Hg); apply I2; exact Hg]. exists buf. split; [exact E|]. rewrite I3.
           ++ rewrite Eff. apply put_same.
           ++ intros g Hg E'. symmetry in E'. exact (Hne g Hg E').
        -- intros q Hq. rewrite I3; [apply put_other, Hq; left; reflexivity|]. intros g Hg. apply Hq. right. exact Hg.
        -- intros g. rewrite I4. split.
           ++ intros [H1 H2]. split; [right; exact H1|]. rewrite (Hd2 g H1) in H2. exact H2.
           ++ intros [[<-|H1] H2]; [destruct H2 as (i & H2 & H3); congruence|]. split; [exact H1|]. rewrite (Hd2 g H1). exact H2.
    + assert (Eff : format_file buf = buf) by (unfold Printer.format_file; rewrite Es; reflexivity).
      specialize (IH d Hrf). destruct (format d files) as [[ws reports] st]. destruct IH as (I1 & I2 & I3 & I4).
      split; [exact I1|]. split; [|split].
      * intros g [<-|Hg]; [|apply I2; exact Hg]. exists buf. split; [exact E|]. rewrite I3; [rewrite E, Eff; reflexivity|].
        intros g Hg E'. symmetry in E'. exact (Hne g Hg E').
      * intros q Hq. apply I3. intros g Hg. apply Hq. right. exact Hg.
      * intros g. cbn [In]. rewrite I4. split; [intros [<-|[H1 H2]]; (split; [auto|]); eauto|].
        intros [[<-|H1] H2]; [left; reflexivity|right; split; assumption].
Qed.
Lemma format_unreadable pre f post : forall d, (forall g, In g pre -> f_path g <> f_path f) -> d (f_path f) = None -> (forall g, In g pre -> d (f_path g) <> None) ->
  fst (format d (pre ++ f :: post)) = fst (format d pre) /\ snd (format d (pre ++ f :: post)) = Failure.
Proof.
  induction pre as [|g pre IH]; intros d Hne Hn Hr; cbn [app Tools.format]; [rewrite Hn; split; reflexivity|].
  destruct (d (f_path g)) as [buf|] eqn:E; [|exfalso; apply (Hr g); [left; reflexivity|exact E]].
  assert (Hr' : forall x, In x pre -> d (f_path x) <> None) by (intros x Hx; apply Hr; right; exact Hx).
  assert (Hne' : forall x, In x pre -> f_path x <> f_path f) by (intros x Hx; apply Hne; right; exact Hx).
  destruct (schema_parse parse_f64 buf) as [s|].
  - destruct (str_eqb buf (pr_schema fmt_f64 esc_u s)); [apply IH; assumption|].
    set (d2 := put d (f_path g) (pr_schema fmt_f64 esc_u s)). destruct (IH d2) as [I1 I2].
    + exact Hne'.
    + unfold d2. rewrite put_other; [exact Hn|]. intros E'. apply (Hne g (or_introl eq_refl)). symmetry. exact E'.
    + intros x Hx. unfold d2, put. destruct (path_eqb (f_path x) (f_path g)); [discriminate|apply Hr'; exact Hx].
    + destruct (format d2 (pre ++ f :: post)) as [[ws1 r1] s1], (format d2 pre) as [[ws2 r2] s2]. cbn [fst snd] in *. injection I1 as -> ->. auto.
  - destruct (IH d Hne' Hn Hr') as [I1 I2]. destruct (format d (pre ++ f :: post)) as [[ws1 r1] s1], (format d pre) as [[ws2 r2] s2]. cbn [fst snd] in *. injection I1 as -> ->. auto.
Qed.
End Fmt.

(** Every file that parses is replaced by its formatted text, every other file, listed or
    not, keeps its content; those that do not parse are reported. *)
Theorem C57_effect : forall (F : Type) (parse_f64 : str -> option F) fmt_f64 esc_u (files : list sfile) (disk disk' : path -> option str),
  NoDup files -> (forall f, In f files -> disk (f_path f) <> None) ->
  let '(ws, reports, st) := format parse_f64 fmt_f64 esc_u disk files in
  after ws disk disk' ->
  st = Success
  /\ (forall f i s, In f files -> disk (f_path f) = Some i -> schema_parse parse_f64 i = Some s -> disk' (f_path f) = Some (pr_schema fmt_f64 esc_u s))
  /\ (forall f i, In f files -> disk (f_path f) = Some i -> schema_parse parse_f64 i = None -> disk' (f_path f) = Some i /\ In f reports)
  /\ (forall q, (forall f, In f files -> q <> f_path f) -> disk' q = disk q).
Proof.
  intros F pf ff eu files disk disk' Hn Hr. pose proof (format_run pf ff eu files Hn disk Hr) as H.
  destruct (format pf ff eu disk files) as [[ws reports] st]. intros Ha. destruct H as (H1 & H2 & H3 & H4). pose proof (after_run _ _ _ Ha) as Hq.
  split; [exact H1|]. split; [|split].
  - intros f i s Hf Hi Hs. destruct (H2 f Hf) as (i' & Hi' & Hc). rewrite Hq, Hc. rewrite Hi in Hi'. injection Hi' as <-. unfold format_file. rewrite Hs. reflexivity.
  - intros f i Hf Hi Hs. destruct (H2 f Hf) as (i' & Hi' & Hc). rewrite Hi in Hi'. injection Hi' as <-. split; [|apply H4; eauto].
    rewrite Hq, Hc. unfold format_file. rewrite Hs. reflexivity.
  - intros q Hn'. rewrite Hq. apply H3. exact Hn'.
Qed.
Print Assumptions C57_effect.

(** Formatting a project does not change the meaning of any schema, if its floating point numbers
    print with a fraction and its strings have no NUL, and formatting again writes nothing. *)
Theorem C57_meaning_partial : forall (F : Type) (parse_f64 : str -> option F) fmt_f64 esc_u (files : list sfile) (disk disk' : path -> option str),
  NoDup files -> (forall f, In f files -> exists i, disk (f_path f) = Some i /\ text i
     /\ forall s, schema_parse parse_f64 i = Some s -> Forall (Reprintable fmt_f64 parse_f64) (schema_lits s)) ->
  after (fst (fst (format parse_f64 fmt_f64 esc_u disk files))) disk disk' ->
  (forall f, In f files -> exists i i', disk (f_path f) = Some i /\ disk' (f_path f) = Some i' /\ schema_parse parse_f64 i' = schema_parse parse_f64 i)
  /\ fst (fst (format parse_f64 fmt_f64 esc_u disk' files)) = [].
Proof.
  intros F pf ff eu files disk disk' Hn Hall Ha.
  assert (Hr : forall f, In f files -> disk (f_path f) <> None) by (intros f Hf E; destruct (Hall f Hf) as (i & H & _); congruence).
  pose proof (format_run pf ff eu files Hn disk Hr) as H. destruct (format pf ff eu disk files) as [[ws reports] st]. cbn [fst] in Ha.
  destruct H as (_ & H2 & _ & _). pose proof (after_run _ _ _ Ha) as Hq.
  assert (HF : forall f, In f files -> exists i, disk (f_path f) = Some i /\ disk' (f_path f) = Some (format_file ff eu pf i)
     /\ schema_parse pf (format_file ff eu pf i) = schema_parse pf i /\ format_file ff eu pf (format_file ff eu pf i) = format_file ff eu pf i).
  { intros f Hf. destruct (H2 f Hf) as (i & Hi & Hc). destruct (Hall f Hf) as (i' & Hi' & Ht & Hp). rewrite Hi in Hi'. injection Hi' as <-.
    exists i. split; [exact Hi|]. split; [rewrite Hq; exact Hc|]. destruct (schema_parse pf i) as [s|] eqn:Es.
    - split; [eapply C38_fmt_preserves_partial; [exact Ht|exact Es|apply Hp; reflexivity]|].
      eapply C38_fmt_idempotent_partial; [exact Ht|exact Es|apply Hp; reflexivity].
    - assert (E : format_file ff eu pf i = i) by (apply C38_invalid_untouched; exact Es). rewrite !E. auto. }
  split; [intros f Hf; destruct (HF f Hf) as (i & K1 & K2 & K3 & _); eauto|].
  clear - HF. induction files as [|f files IH]; [reflexivity|]. cbn [format]. destruct (HF f (or_introl eq_refl)) as (i & K1 & K2 & K3 & K4).
  rewrite K2, K3. assert (Hfs : forall g, In g files -> exists i, disk (f_path g) = Some i /\ disk' (f_path g) = Some (format_file ff eu pf i)
     /\ schema_parse pf (format_file ff eu pf i) = schema_parse pf i /\ format_file ff eu pf (format_file ff eu pf i) = format_file ff eu pf i)
    by (intros g Hg; apply HF; right; exact Hg). specialize (IH Hfs).
  destruct (schema_parse pf i) as [s|] eqn:Es.
  - assert (Ep : format_file ff eu pf i = pr_schema ff eu s) by (unfold format_file; rewrite Es; reflexivity). rewrite Ep, str_eqb_refl. exact IH.
  - destruct (format pf ff eu disk' files) as [[ws2 r2] s2]. exact IH.
Qed.
Print Assumptions C57_meaning_partial.

(** At the first file that cannot be read the command fails; the files before it have been formatted,
    those after it are not looked at. *)
Theorem C57_unreadable : forall (F : Type) (parse_f64 : str -> option F) fmt_f64 esc_u pre f post (disk : path -> option str),
  ~ In f pre -> disk (f_path f) = None -> (forall g, In g pre -> disk (f_path g) <> None) ->
  snd (format parse_f64 fmt_f64 esc_u disk (pre ++ f :: post)) = Failure
  /\ fst (fst (format parse_f64 fmt_f64 esc_u disk (pre ++ f :: post))) = fst (fst (format parse_f64 fmt_f64 esc_u disk pre)).
Proof.
  intros F pf ff eu pre f post disk Hn H1 H2. destruct (format_unreadable pf ff eu pre f post disk) as [E1 E2]; try assumption.
  - intros g Hg E. apply f_path_inj in E. subst. contradiction.
  - rewrite E1. auto.
Qed.
Print Assumptions C57_unreadable.

(** Stopped anywhere, every file but one is as it was or completely formatted. *)
Theorem C57_stopped_partial : forall (F : Type) (parse_f64 : str -> option F) fmt_f64 esc_u files (disk disk' : path -> option str),
  NoDup files -> (forall f, In f files -> disk (f_path f) <> None) ->
  stopped (fst (fst (format parse_f64 fmt_f64 esc_u disk files))) disk disk' ->
  exists p, forall q i, q <> p -> disk q = Some i ->
    disk' q = Some i \/ exists s, schema_parse parse_f64 i = Some s /\ disk' q = Some (pr_schema fmt_f64 esc_u s).
Proof.
  intros F pf ff eu files disk disk' Hn Hr Hs. pose proof (format_run pf ff eu files Hn disk Hr) as H.
  pose proof (format_nodup pf ff eu files Hn disk) as Hnd. pose proof (format_in pf ff eu files disk) as Hin.
  destruct (format pf ff eu disk files) as [[ws reports] st]. cbn [fst] in *. destruct H as (_ & H2 & H3 & _).
  destruct (stopped_whole_nodup ws disk disk' Hnd Hs) as (p & Hp). exists p. intros q i Hq Hi. destruct (Hp q Hq) as [E|E]; [left; congruence|].
  destruct (last_or ws q) as [(c & Hc)|Hno].
  - destruct (Hin ws reports st eq_refl q c (last_write_in _ _ _ Hc)) as (f & Hf & ->). destruct (H2 f Hf) as (i' & Hi' & Hrun).
    rewrite Hi in Hi'. injection Hi' as <-. rewrite E, Hrun. unfold format_file. destruct (schema_parse pf i) as [s|] eqn:Es; [right; eauto|left; reflexivity].
  - left. rewrite E, (run_other _ _ _ Hno). exact Hi.
Qed.
Print Assumptions C57_stopped_partial.

(** Refuted for that one: the schema can be lost, as the file is overwritten in place. *)
Definition fmt_disk : path -> option str := fun p => if path_eqb p [tx "a.mabo"] then Some (tx "struct  A(u8)") else None.
Theorem C57_stopped_refuted : forall (F : Type) (parse_f64 : str -> option F) fmt_f64 esc_u,
  exists disk', stopped (fst (fst (format parse_f64 fmt_f64 esc_u fmt_disk [File [] (tx "a")]))) fmt_disk disk' /\ disk' [tx "a.mabo"] = Some [].
Proof.
  intros F pf ff eu. assert (E : fst (fst (format pf ff eu fmt_disk [File [] (tx "a")])) = [([tx "a.mabo"], tx "struct A(u8)" ++ [10; 10])]) by (vm_compute; reflexivity).
  rewrite E. exists (run [([tx "a.mabo"], [])] fmt_disk). split; [|reflexivity].
  exists [], [([tx "a.mabo"], tx "struct A(u8)" ++ [10; 10])]. split; [reflexivity|]. right.
  exists [tx "a.mabo"], (tx "struct A(u8)" ++ [10; 10]), [], (tx "struct A(u8)" ++ [10; 10]), []. split; [reflexivity|]. split; [reflexivity|]. apply run_after.
Qed.
Print Assumptions C57_stopped_refuted.
Example C57_ex :
  let files := [File [] (tx "syntax"); File [] (tx "ids"); File [] (tx "types")] in
  NoDup files /\ (forall f, In f files -> check_disk (f_path f) <> None)
  /\ format (F := unit) (fun _ => None) (fun _ => []) (fun _ => true) check_disk files
     = ([([tx "ids.mabo"], tx "struct A(u8 @1, u8 @1)" ++ [10; 10]); ([tx "types.mabo"], tx "struct A(Missing)" ++ [10; 10])], [File [] (tx "syntax")], Success).
Proof.
  split; [repeat constructor; cbn; intuition discriminate|]. split; [|vm_compute; reflexivity].
  intros f [<-|[<-|[<-|[]]]]; vm_compute; discriminate.
Qed.
