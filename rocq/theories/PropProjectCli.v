(** C90: the commands of the command line tool on a project directory. *)
From Verif Require Import Base Syntax Parser Printer ParserSpec Compiler Resolve Package PropPackage ProjectCli.
From Verif Require Tools ToolsSpec ToolsProofs PropCli PropDoc.
Require Coq.Strings.String.
Import Coq.Strings.String.StringSyntax.
Local Open Scope N_scope.

(** * Specification *)

(** The project file [Mabo.toml] of the directory [n] is readable and lists [patterns], which are valid; everything below that is not left out can be listed. *)
Definition project_of (glob : str -> option (path -> bool)) (read_toml : str -> option (list str)) (skip : path -> path -> bool) (base : path) (n : node) (patterns : list str) : Prop :=
  (exists c, reaches true n [tx "Mabo.toml"] (File (Some c)) /\ read_toml c = Some patterns) /\ (forall pattern, In pattern patterns -> glob pattern <> None)
  /\ forall rel, reaches true n rel Broken -> ~ visible (skip base) rel.
(** [rel] is a schema file of the project. *)
Definition member (glob : str -> option (path -> bool)) (skip : path -> path -> bool) (base : path) (n : node) (patterns : list str) (rel : path) : Prop :=
  (exists m, reaches true n rel m) /\ visible (skip base) rel /\ mabo_named rel /\ selected glob patterns rel.
(** The text of the file at [rel]. *)
Definition content (n : node) (rel : path) (i : str) : Prop := reaches true n rel (File (Some i)).

(** * Proofs *)
Lemma sfile_path p : mabo_named p -> Tools.f_path (sfile_of p) = p.
Proof.
  intros (dir & stem & Hs & ->). unfold sfile_of. rewrite rev_app_distr. cbn [rev app]. rewrite rev_involutive. unfold Tools.f_path. cbn [Tools.f_dir Tools.f_stem].
  pose proof (split_dot_spec (stem ++ tx ".mabo")) as H. destruct (split_dot _) as [[b a]|].
  - destruct H as [E Ha]. change (tx ".mabo") with (46 :: tx "mabo") in E. destruct (last_dot stem b (tx "mabo") a E) as [-> _]; [vm_compute; intuition discriminate|exact Ha|]. reflexivity.
  - exfalso. apply H. apply in_or_app. right. vm_compute. auto.
Qed.
Lemma sfile_of_path f : mabo_named (Tools.f_path f) -> sfile_of (Tools.f_path f) = f.
Proof. intros H. apply ToolsProofs.f_path_inj. apply sfile_path. exact H. Qed.
Lemma named_app base rel : mabo_named rel -> mabo_named (base ++ rel).
Proof. intros (dir & stem & H & ->). exists (base ++ dir), stem. split; [exact H|apply app_assoc]. Qed.
Lemma strip_app base p : strip base (base ++ p) = Some p.
Proof. induction base as [|x b IH]; [reflexivity|]. cbn [strip app]. rewrite str_eqb_refl. exact IH. Qed.
Lemma lookup_reaches n p m : proper n -> reaches true n p m -> exists k, lookup n p = Some k /\ reaches true k [] m.
Proof.
  intros Hp. revert n Hp. induction p as [|x p IH]; intros n Hp H; [exists n; auto|]. apply reaches_resolve in H. pose proof (resolve_proper n Hp) as Hr. cbn [lookup]. destruct (resolve n) as [c|l|k|]; try (destruct H as [H _]; discriminate).
  destruct H as [[H _]|(y & q & k & E & Hin & H)]; [discriminate|]. injection E as <- <-. inversion Hr as [|l' Hd Hc| |]; subst. rewrite (in_child _ _ _ Hd Hin). exact (IH k (Hc _ _ Hin) H).
Qed.
Lemma reaches_lookup n p k m : lookup n p = Some k -> reaches true k [] m -> reaches true n p m.
Proof.
  revert n. induction p as [|x p IH]; intros n; cbn [lookup]; [intros H; congruence|]. destruct (resolve n) as [c|l|j|] eqn:E; try discriminate. destruct (child x l) as [j|] eqn:Ec; [|discriminate]. intros H Hm.
  apply (through n (Dir l)); [exact E|]. apply (reach_in _ _ _ j); [exact (child_in _ _ _ Ec)|exact (IH j H Hm)].
Qed.
Lemma read_content outside base n rel i : proper n -> (read_at outside base n (base ++ rel) = Some i <-> content n rel i).
Proof.
  intros Hp. unfold read_at. rewrite strip_app. split.
  - destruct (lookup n rel) as [k|] eqn:E; [|discriminate]. intros H. exact (reaches_lookup n rel k _ E (read_reaches _ _ H)).
  - intros H. destruct (lookup_reaches n rel _ Hp H) as (k & -> & Hk). exact (reaches_read _ _ Hk).
Qed.

Section Claims.
Variables (glob : str -> option (path -> bool)) (read_toml : str -> option (list str)) (skip : path -> path -> bool) (entries : str -> option (list (option path))).
Notation load := (load glob read_toml skip).
Notation project_of := (project_of glob read_toml skip).
Notation member := (member glob skip).

Lemma load_project base n pj : load base n = POk pj -> exists patterns, project_of base n patterns /\ (forall f, In f (pj_files pj) <-> exists rel, f = base ++ rel /\ member base n patterns rel) /\ (proper n -> NoDup (pj_files pj)).
Proof.
  intros H. unfold Package.load in H. destruct (match resolve n with Dir l => _ | _ => None end) as [[c|]|] eqn:Et; try discriminate. destruct (read_toml c) as [patterns|] eqn:Er; [|discriminate].
  destruct (collect_files glob skip base n patterns) as [fs|e] eqn:Ec; [|discriminate]. assert (pj = Project (base ++ [tx "Mabo.toml"]) fs) as -> by congruence. destruct (collected glob skip base n patterns fs Ec) as (H1 & H2 & H3 & H4).
  exists patterns. split; [split; [exists c; split; [exact (toml_text n c Et)|exact Er]|split; assumption]|]. split; [|exact H4]. cbn [pj_files]. intros f. rewrite H3. split.
  - intros (rel & m & E & Hr & Hv & Hn & Hs). exists rel. split; [exact E|]. split; [exists m; exact Hr|auto].
  - intros (rel & E & (m & Hr) & Hv & Hn & Hs). exists rel, m. auto.
Qed.
Lemma project_loads base n patterns : proper n -> project_of base n patterns -> exists pj, load base n = POk pj.
Proof. intros Hp ((c & H1 & H2) & H3 & H4). apply C88_loads_exact; [exact Hp|]. exists c, patterns. auto. Qed.
Lemma same_patterns base n p q : proper n -> project_of base n p -> project_of base n q -> p = q.
Proof.
  intros Hp ((c & H1 & H2) & _) ((c' & H1' & H2') & _). pose proof (text_toml n c Hp H1) as E. rewrite (text_toml n c' Hp H1') in E. congruence.
Qed.
Lemma members base n patterns pj : (forall f, In f (pj_files pj) <-> exists rel, f = base ++ rel /\ member base n patterns rel) ->
  forall f, In f (map sfile_of (pj_files pj)) <-> exists rel, Tools.f_path f = base ++ rel /\ member base n patterns rel.
Proof.
  intros H f. rewrite in_map_iff. split.
  - intros (p & <- & Hp). apply H in Hp as (rel & -> & Hm). exists rel. split; [|exact Hm]. apply sfile_path, named_app, Hm.
  - intros (rel & E & Hm). exists (base ++ rel). split; [|apply H; eauto]. rewrite <- E. apply sfile_of_path. rewrite E. apply named_app, Hm.
Qed.
Lemma members_nodup base n patterns pj : (forall f, In f (pj_files pj) <-> exists rel, f = base ++ rel /\ member base n patterns rel) -> NoDup (pj_files pj) -> NoDup (map sfile_of (pj_files pj)).
Proof.
  intros H Hd. assert (G : forall f, In f (pj_files pj) -> mabo_named f) by (intros f Hf; apply H in Hf as (rel & -> & Hm); apply named_app, Hm). clear H. induction Hd as [|p l Hp Hd IH]; [constructor|]. cbn [map]. constructor; [|apply IH; intros f Hf; apply G; right; exact Hf].
  intros Hin. apply in_map_iff in Hin as (q & E & Hq). apply Hp. apply (f_equal Tools.f_path) in E. rewrite !sfile_path in E by (apply G; (left; reflexivity) || (right; exact Hq)). congruence.
Qed.
Context {F : Type}.
Variables (parse_f64 : str -> option F) (fmt_f64 : F -> str) (esc_u : N -> bool) (outside : path -> option str).

Lemma check_project base n : proper n ->
  let '(reports, st) := check_command glob read_toml skip entries parse_f64 outside base n [] in
  (st = Tools.Success <-> exists patterns, project_of base n patterns /\ forall rel, member base n patterns rel -> exists i, content n rel i)
  /\ (st = Tools.Success -> exists patterns, project_of base n patterns
        /\ forall f, In f reports <-> exists rel i, Tools.f_path f = base ++ rel /\ member base n patterns rel /\ content n rel i /\ schema_parse parse_f64 i = None).
Proof.
  intros Hp. unfold check_command, project_or_files. destruct (load base n) as [pj|e] eqn:E.
  - destruct (load_project base n pj E) as (patterns & Hof & Hf & _). pose proof (PropCli.C56_reports F parse_f64 (read_at outside base n) (map sfile_of (pj_files pj))) as H.
    destruct (Tools.check parse_f64 _ _) as [reports st]. destruct H as [H1 H2]. split.
    + rewrite H1. split.
      * intros Hall. exists patterns. split; [exact Hof|]. intros rel Hm. assert (Hin : In (base ++ rel) (pj_files pj)) by (apply Hf; eauto). specialize (Hall (sfile_of (base ++ rel)) (in_map _ _ _ Hin)).
        rewrite sfile_path in Hall by (apply named_app, Hm). destruct (read_at outside base n (base ++ rel)) as [i|] eqn:Er; [|contradiction]. exists i. apply (read_content outside base n rel i Hp). exact Er.
      * intros (patterns' & Hof' & Hall) f Hin. rewrite (same_patterns base n patterns' patterns Hp Hof' Hof) in Hall. apply (members base n patterns pj Hf) in Hin as (rel & -> & Hm). destruct (Hall rel Hm) as (i & Hi). apply (read_content outside base n rel i Hp) in Hi. congruence.
    + intros Hs. exists patterns. split; [exact Hof|]. intros f. rewrite (H2 Hs), (members base n patterns pj Hf). split.
      * intros [(rel & Er & Hm) (i & Hi & Hn)]. exists rel, i. rewrite Er in Hi. apply (read_content outside base n rel i Hp) in Hi. auto.
      * intros (rel & i & Er & Hm & Hi & Hn). split; [eauto|]. exists i. rewrite Er. split; [apply (read_content outside base n rel i Hp); exact Hi|exact Hn].
  - split; [|discriminate]. split; [discriminate|]. intros (patterns & Hof & _). destruct (project_loads base n patterns Hp Hof) as [pj H]. congruence.
Qed.
Lemma format_project base n patterns disk' : proper n -> project_of base n patterns -> (forall rel, member base n patterns rel -> exists i, content n rel i) ->
  let '(ws, reports, st) := format_command glob read_toml skip entries parse_f64 fmt_f64 esc_u outside base n [] in
  ToolsSpec.after ws (read_at outside base n) disk' ->
  st = Tools.Success
  /\ (forall rel i s, member base n patterns rel -> content n rel i -> schema_parse parse_f64 i = Some s -> disk' (base ++ rel) = Some (pr_schema fmt_f64 esc_u s))
  /\ (forall rel i, member base n patterns rel -> content n rel i -> schema_parse parse_f64 i = None -> disk' (base ++ rel) = Some i /\ exists f, Tools.f_path f = base ++ rel /\ In f reports)
  /\ (forall q, (forall rel, member base n patterns rel -> q <> base ++ rel) -> disk' q = read_at outside base n q).
Proof.
  intros Hp Hof Hall. unfold format_command, project_or_files. destruct (project_loads base n patterns Hp Hof) as [pj E]. rewrite E. destruct (load_project base n pj E) as (patterns' & Hof' & Hf & Hd).
  rewrite (same_patterns base n patterns' patterns Hp Hof' Hof) in *. pose proof (members base n patterns pj Hf) as Hm. pose proof (members_nodup base n patterns pj Hf (Hd Hp)) as Hnd.
  assert (Hr : forall f, In f (map sfile_of (pj_files pj)) -> read_at outside base n (Tools.f_path f) <> None).
  { intros f Hin. apply Hm in Hin as (rel & -> & Hrel). destruct (Hall rel Hrel) as (i & Hi). apply (read_content outside base n rel i Hp) in Hi. congruence. }
  pose proof (PropCli.C57_effect F parse_f64 fmt_f64 esc_u _ (read_at outside base n) disk' Hnd Hr) as H. destruct (Tools.format parse_f64 fmt_f64 esc_u _ _) as [[ws reports] st]. intros Ha. destruct (H Ha) as (H1 & H2 & H3 & H4).
  assert (G : forall rel, member base n patterns rel -> In (sfile_of (base ++ rel)) (map sfile_of (pj_files pj)) /\ Tools.f_path (sfile_of (base ++ rel)) = base ++ rel).
  { intros rel Hrel. assert (Hpath := sfile_path (base ++ rel) (named_app base rel (proj1 (proj2 (proj2 Hrel))))). split; [|exact Hpath]. apply Hm. eauto. }
  split; [exact H1|]. split; [|split].
  - intros rel i s Hrel Hi Hs. destruct (G rel Hrel) as [G1 G2]. specialize (H2 _ i s G1). rewrite G2 in H2. apply H2; [apply (read_content outside base n rel i Hp); exact Hi|exact Hs].
  - intros rel i Hrel Hi Hs. destruct (G rel Hrel) as [G1 G2]. specialize (H3 _ i G1). rewrite G2 in H3. destruct H3 as [H3 H3']; [apply (read_content outside base n rel i Hp); exact Hi|exact Hs|]. split; [exact H3|]. eauto.
  - intros q Hq. apply H4. intros f Hin. apply Hm in Hin as (rel & -> & Hrel). exact (Hq rel Hrel).
Qed.
Lemma doc_project chk out base n patterns rel : proper n -> project_of base n patterns -> member base n patterns rel ->
  let '(pages, st) := doc_command glob read_toml skip parse_f64 chk out outside base n in
  st = Tools.Success -> exists f i s pg, Tools.f_path f = base ++ rel /\ content n rel i /\ schema_parse parse_f64 i = Some s /\ In (out ++ [Tools.f_stem f; Tools.f_stem f; tx "index.html"], pg) pages /\ Tools.pg_name pg = Tools.f_stem f.
Proof.
  intros Hp Hof Hrel. unfold doc_command. destruct (project_loads base n patterns Hp Hof) as [pj E]. rewrite E. destruct (load_project base n pj E) as (patterns' & Hof' & Hf & Hd). rewrite (same_patterns base n patterns' patterns Hp Hof' Hof) in *.
  pose proof (PropDoc.C58_complete F parse_f64 chk out (read_at outside base n) (map sfile_of (pj_files pj)) (sfile_of (base ++ rel))) as H. destruct (Tools.doc parse_f64 chk out _ _) as [pages st]. intros Hs.
  assert (Hpath := sfile_path (base ++ rel) (named_app base rel (proj1 (proj2 (proj2 Hrel))))). destruct (H Hs) as (i & s & c & ds & H1 & H2 & _ & (pg & H3 & H4) & _).
  { apply (members base n patterns pj Hf). eauto. }
  exists (sfile_of (base ++ rel)), i, s, pg. rewrite Hpath in H1. apply (read_content outside base n rel i Hp) in H1. auto.
Qed.

(** ** Files given as arguments *)
Lemma take_spec es : match take_entries es with Some fs => ~ In None es /\ forall f, In f fs <-> In (Some f) es /\ mabo_named f | None => In None es end.
Proof.
  induction es as [|[p|] es IH]; cbn [take_entries].
  - split; [intros []|]. intros f. split; [intros []|intros [[] _]].
  - destruct (take_entries es) as [fs|]; [|right; exact IH]. destruct IH as [H1 H2]. split; [intros [H|H]; [discriminate|exact (H1 H)]|]. intros f. pose proof (extension_mabo p) as He. destruct (match extension p with Some x => str_eqb x (tx "mabo") | None => false end).
    + cbn [In]. rewrite H2. split; [intros [<-|[H H']]; [split; [left; reflexivity|apply He; reflexivity]|auto]|]. intros [[H|H] H']; [left; congruence|right; auto].
    + rewrite H2. cbn [In]. split; [intros [H H']; auto|]. intros [[H|H] H']; [|auto]. exfalso. assert (p = f) as -> by congruence. apply He in H'. discriminate.
  - left. reflexivity.
Qed.
Lemma entries_spec ps : match all_entries entries ps with
  | Some fs => (forall p, In p ps -> exists es, entries p = Some es /\ ~ In None es) /\ forall f, In f fs <-> mabo_named f /\ exists p es, In p ps /\ entries p = Some es /\ In (Some f) es
  | None => exists p, In p ps /\ (entries p = None \/ exists es, entries p = Some es /\ In None es) end.
Proof.
  induction ps as [|p ps IH]; cbn [all_entries].
  - split; [intros p []|]. intros f. split; [intros []|intros (_ & p & es & [] & _)].
  - destruct (entries p) as [es|] eqn:E; [|exists p; split; [left; reflexivity|left; exact E]]. pose proof (take_spec es) as Ht. destruct (take_entries es) as [a|]; [|exists p; split; [left; reflexivity|right; eauto]].
    destruct (all_entries entries ps) as [b|]; [|destruct IH as (q & H1 & H2); exists q; split; [right; exact H1|exact H2]]. destruct Ht as [T1 T2]. destruct IH as [I1 I2]. split.
    + intros q [<-|Hq]; [eauto|auto].
    + intros f. rewrite in_app_iff, T2, I2. split.
      * intros [[H1 H2]|[H1 (q & es' & H2 & H3)]]; (split; [assumption|]); [exists p, es; repeat split; auto; left; reflexivity|exists q, es'; split; [right; exact H2|exact H3]].
      * intros [H1 (q & es' & [<-|H2] & H3 & H4)]; [left; split; [congruence|exact H1]|right; split; [exact H1|]]. exists q, es'. auto.
Qed.
End Claims.

(** * Theorems *)

(** [mabo check] in a project: it succeeds exactly if the project is readable, and then reports exactly the files of the project that are not schemas. *)
Theorem C90_check : forall glob read_toml skip entries (F : Type) (parse_f64 : str -> option F) outside base n, proper n ->
  let '(reports, st) := check_command glob read_toml skip entries parse_f64 outside base n [] in
  (st = Tools.Success <-> exists patterns, project_of glob read_toml skip base n patterns /\ forall rel, member glob skip base n patterns rel -> exists i, content n rel i)
  /\ (st = Tools.Success -> exists patterns, project_of glob read_toml skip base n patterns
        /\ forall f, In f reports <-> exists rel i, Tools.f_path f = base ++ rel /\ member glob skip base n patterns rel /\ content n rel i /\ schema_parse parse_f64 i = None).
Proof. intros. apply check_project. assumption. Qed.
Print Assumptions C90_check.

(** [mabo format] in a project whose files can be read: the files of the project that are schemas hold their formatted text, the others are reported, and nothing else on the disk
    changes.  (As in C57 a path is a file of its own; that two of them can be links to the same file is left out.) *)
Theorem C90_format : forall glob read_toml skip entries (F : Type) (parse_f64 : str -> option F) fmt_f64 esc_u outside base n patterns disk',
  proper n -> project_of glob read_toml skip base n patterns -> (forall rel, member glob skip base n patterns rel -> exists i, content n rel i) ->
  let '(ws, reports, st) := format_command glob read_toml skip entries parse_f64 fmt_f64 esc_u outside base n [] in
  ToolsSpec.after ws (read_at outside base n) disk' ->
  st = Tools.Success
  /\ (forall rel i s, member glob skip base n patterns rel -> content n rel i -> schema_parse parse_f64 i = Some s -> disk' (base ++ rel) = Some (pr_schema fmt_f64 esc_u s))
  /\ (forall rel i, member glob skip base n patterns rel -> content n rel i -> schema_parse parse_f64 i = None -> disk' (base ++ rel) = Some i /\ exists f, Tools.f_path f = base ++ rel /\ In f reports)
  /\ (forall q, (forall rel, member glob skip base n patterns rel -> q <> base ++ rel) -> disk' q = read_at outside base n q).
Proof. intros. apply format_project; assumption. Qed.
Print Assumptions C90_format.

(** [mabo doc] in a project: if it succeeds, every file of the project is a schema and has its page. *)
Theorem C90_doc : forall glob read_toml skip (F : Type) (parse_f64 : str -> option F) outside chk out base n patterns rel,
  proper n -> project_of glob read_toml skip base n patterns -> member glob skip base n patterns rel ->
  let '(pages, st) := doc_command glob read_toml skip parse_f64 chk out outside base n in
  st = Tools.Success -> exists f i s pg, Tools.f_path f = base ++ rel /\ content n rel i /\ schema_parse parse_f64 i = Some s /\ In (out ++ [Tools.f_stem f; Tools.f_stem f; tx "index.html"], pg) pages /\ Tools.pg_name pg = Tools.f_stem f.
Proof. intros. eapply doc_project; eassumption. Qed.
Print Assumptions C90_doc.

(** With patterns on the command line the project is not looked at: the files are the entries they match that are called [x.mabo]. *)
Theorem C90_arguments : forall glob read_toml skip entries base n p ps, match project_or_files glob read_toml skip entries base n (p :: ps) with
  | Some fs => (forall q, In q (p :: ps) -> exists es, entries q = Some es /\ ~ In None es)
               /\ forall f, In f fs <-> mabo_named f /\ exists q es, In q (p :: ps) /\ entries q = Some es /\ In (Some f) es
  | None => exists q, In q (p :: ps) /\ (entries q = None \/ exists es, entries q = Some es /\ In None es)
  end.
Proof. intros. exact (entries_spec entries (p :: ps)). Qed.
Print Assumptions C90_arguments.

(** A directory called [x.mabo] keeps the commands from the files behind it: a file that is no schema is not reported. *)
Definition stuck : node := Dir [(tx "Mabo.toml", File (Some (tx "*.mabo"))); (tx "x.mabo", Dir []); (tx "y.mabo", File (Some (tx "struct")))].
Theorem C90_directory_refuted : forall (F : Type) (parse_f64 : str -> option F),
  check_command any_glob ex_toml see (fun _ => None) parse_f64 (fun _ => None) [tx "p"] stuck [] = ([], Tools.Failure)
  /\ member any_glob see [tx "p"] stuck [tx "*.mabo"] [tx "y.mabo"] /\ content stuck [tx "y.mabo"] (tx "struct") /\ schema_parse parse_f64 (tx "struct") = None.
Proof.
  intros F pf. split; [vm_compute; reflexivity|]. assert (H : reaches true stuck [tx "y.mabo"] (File (Some (tx "struct")))) by (apply (reach_in _ _ _ (File (Some (tx "struct")))); [right; right; left; reflexivity|constructor]).
  split; [|split; [exact H|vm_compute; reflexivity]]. split; [eauto|]. split; [intros a b _ _; reflexivity|]. split; [exists [], (tx "y"); split; [discriminate|reflexivity]|]. exists (tx "*.mabo"), (fun p => match p with [_] => true | x :: _ => str_eqb (tx "*.mabo") x | [] => false end).
  split; [left; reflexivity|]. split; reflexivity.
Qed.
Print Assumptions C90_directory_refuted.

(** A project with a file that is no schema, one that is formatted, and one that is not part of it. *)
Example C90_ex :
  let n := Dir [(tx "Mabo.toml", File (Some (tx "*.mabo"))); (tx "a.mabo", File (Some (tx "struct"))); (tx "b.mabo", File (Some (tx "struct  A(u8)"))); (tx "sub", Dir [(tx "c.mabo", File (Some (tx "struct")))])] in
  proper n /\ project_of any_glob ex_toml see [tx "p"] n [tx "*.mabo"]
  /\ check_command any_glob ex_toml see (fun _ => None) (F := unit) (fun _ => None) (fun _ => None) [tx "p"] n [] = ([Tools.File [tx "p"] (tx "a")], Tools.Success)
  /\ format_command any_glob ex_toml see (fun _ => None) (F := unit) (fun _ => None) (fun _ => []) (fun _ => true) (fun _ => None) [tx "p"] n []
     = ([([tx "p"; tx "b.mabo"], tx "struct A(u8)" ++ [10; 10])], [Tools.File [tx "p"] (tx "a")], Tools.Success).
Proof.
  intros n. assert (Hp : proper n).
  { constructor; [cbn [map fst]; repeat constructor; cbn [In]; intuition discriminate|]. intros x m [E|[E|[E|[E|[]]]]]; injection E as <- <-; try constructor; [cbn; repeat constructor; intros []|]. intros y k [F|[]]; injection F as <- <-. constructor. }
  split; [exact Hp|]. split; [|split; vm_compute; reflexivity]. assert (exists pj, load any_glob ex_toml see [tx "p"] n = POk pj) as [pj E] by (eexists; vm_compute; reflexivity). destruct (load_project _ _ _ _ _ _ E) as (patterns & H & _).
  destruct H as ((c & H1 & H2) & H3). pose proof (text_toml n c Hp H1) as Et. assert (c = tx "*.mabo") as -> by (vm_compute in Et; vm_compute; congruence). assert (patterns = [tx "*.mabo"]) as -> by (vm_compute in H2; vm_compute; congruence). split; [eauto|exact H3].
Qed.
