(** Property theorem C55 (the build): [mabo::include!] finds what the build wrote. *)
From Verif Require Import Base Syntax Parser Compiler Resolve Tools ToolsSpec ToolsProofs PropBuild.
Require Coq.Strings.String.
Import Coq.Strings.String.StringSyntax.
Local Open Scope N_scope.

(** crates/mabo/src/lib.rs L129-133: [concat!(env!("OUT_DIR"), "/mabo/", $name, ".rs")], the text
    handed to Rust's [include!]. *)
Definition include_text (out_dir name : str) : str := out_dir ++ tx "/mabo/" ++ name ++ tx ".rs".

(** ** Specification: the path a text denotes
    Paths of Unix: the parts between slashes; empty parts do not count. ([OUT_DIR] is absolute, so
    that [include!] does not look next to the including file. Dot and dot-dot parts stand for
    themselves.) *)
Fixpoint parts (s cur : str) : list str :=
  match s with
  | [] => [cur]
  | c :: s' => if c =? 47 then cur :: parts s' [] else parts s' (cur ++ [c])
  end.
Definition denoted (s : str) : path := filter (fun p => match p with [] => false | _ => true end) (parts s []).

(** A file name of Unix. *)
Definition file_name (n : str) : Prop := n <> [] /\ ~ In 47 n.

Lemma parts_nil_slash a b cur : parts (a ++ 47 :: b) cur = parts a cur ++ parts b [].
Proof.
  revert cur. induction a as [|c a IH]; intros cur; cbn [app parts].
  - reflexivity.
  - destruct (c =? 47); rewrite IH; reflexivity.
Qed.
Lemma parts_name n cur : ~ In 47 n -> parts n cur = [cur ++ n].
Proof.
  revert cur. induction n as [|c n IH]; intros cur H; cbn [parts].
  - rewrite app_nil_r. reflexivity.
  - destruct (N.eqb_spec c 47) as [->|Hc]; [exfalso; apply H; left; reflexivity|].
    rewrite IH by (intros Hi; apply H; right; exact Hi). rewrite <- app_assoc. reflexivity.
Qed.
Lemma denoted_slash a b : denoted (a ++ 47 :: b) = denoted a ++ denoted b.
Proof. unfold denoted. rewrite parts_nil_slash. apply filter_app. Qed.
Lemma denoted_name n : file_name n -> denoted n = [n].
Proof.
  intros [Hn Hs]. unfold denoted. rewrite (parts_name _ _ Hs). cbn [app filter]. destruct n; [contradiction|reflexivity].
Qed.
Lemma rs_name n : ~ In 47 n -> file_name (n ++ tx ".rs").
Proof.
  intros H. split.
  - destruct n; discriminate.
  - intros Hi. apply in_app_or in Hi as [Hi|Hi]; [exact (H Hi)|]. revert Hi. cbn. intuition discriminate.
Qed.
Lemma denoted_include out_dir name : denoted (include_text out_dir name) = denoted (out_dir ++ tx "/mabo") ++ denoted (name ++ tx ".rs").
Proof.
  unfold include_text. rewrite <- denoted_slash. f_equal. rewrite <- app_assoc. reflexivity.
Qed.
Lemma denoted_out out_dir : denoted (out_dir ++ tx "/mabo") = denoted out_dir ++ [tx "mabo"].
Proof. change (tx "/mabo") with (47 :: tx "mabo"). rewrite denoted_slash. f_equal. Qed.

(** After a successful build of differently named files, including a schema by the name of its file
    includes its code, and what is included by any other name is what was there before the build. *)
Theorem C55_include_partial : forall (F : Type) (parse_f64 : str -> option F) pick chk order gen out_dir read files (disk disk' : path -> option str),
  distinct_stems files -> (forall f, In f files -> ~ In 47 (f_stem f)) ->
  let '(ws, e) := compile parse_f64 pick chk order gen (denoted out_dir ++ [tx "mabo"]) read files in
  e = BDone -> after ws disk disk' ->
  (forall f, In f files -> exists i s o code, read (f_path f) = Some i /\ schema_parse parse_f64 i = Some s
     /\ simplify_schema chk s = Some o /\ gen o = GCode code /\ disk' (denoted (include_text out_dir (f_stem f))) = Some code)
  /\ forall name, ~ In 47 name -> (forall f, In f files -> name <> f_stem f) ->
       disk' (denoted (include_text out_dir name)) = disk (denoted (include_text out_dir name)).
Proof.
  intros F pf pick chk order gen od read files disk disk' Hd Hs.
  pose proof (C55_outputs_partial F pf pick chk order gen (denoted od ++ [tx "mabo"]) read files disk disk' Hd) as H.
  destruct (compile pf pick chk order gen (denoted od ++ [tx "mabo"]) read files) as [ws e].
  intros He Ha. destruct (H He Ha) as [H1 H2]. clear H.
  assert (Hden : forall n, ~ In 47 n -> denoted (include_text od n) = (denoted od ++ [tx "mabo"]) ++ [n ++ tx ".rs"]).
  { intros n Hn. rewrite denoted_include, denoted_out, (denoted_name _ (rs_name _ Hn)). reflexivity. }
  split.
  - intros f Hf. rewrite (Hden _ (Hs f Hf)). exact (H1 f Hf).
  - intros name Hn Hne. apply H2. intros f Hf E. rewrite (Hden _ Hn) in E. apply app_inj_tail in E as [_ E].
    apply app_inv_tail in E. exact (Hne f Hf E).
Qed.
Print Assumptions C55_include_partial.

(** The documented case of the macro. *)
Example C55_include_ex : denoted (include_text (tx "/t/out") (tx "sample")) = [tx "t"; tx "out"; tx "mabo"; tx "sample.rs"].
Proof. reflexivity. Qed.
Example C55_include_ex2 :
  distinct_stems good_files /\ (forall f, In f good_files -> ~ In 47 (f_stem f))
  /\ snd (compile (fun _ => None) PropCompiler.pick0 true PropResolve.same gen0 (denoted (tx "/t/out/") ++ [tx "mabo"]) good_disk good_files) = BDone.
Proof.
  split; [exact (proj1 (proj2 C55_ex))|]. split; [|vm_compute; reflexivity].
  intros f [<-|[<-|[]]]; cbn; intuition discriminate.
Qed.
