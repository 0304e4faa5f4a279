(** C90: the build script on a project directory. *)
From Verif Require Import Base Syntax Parser Printer ParserSpec Compiler Resolve Package PropPackage ProjectCli PropProjectCli.
From Verif Require Tools ToolsSpec ToolsProofs PropBuild PropInclude.
Require Coq.Strings.String.
Import Coq.Strings.String.StringSyntax.
Local Open Scope N_scope.

(** crates/mabo-build/src/lib.rs L142-218 [Compiler::compile] with the directory of the manifest: the project is loaded, then its files are compiled (Tools.v).  The second component is
    [None] if the project cannot be loaded.  Simplification: creating the output directory (L148) succeeds; [OUT_DIR] is set. *)
Definition build_command (glob : str -> option (path -> bool)) (read_toml : str -> option (list str)) (skip : path -> path -> bool) {F : Type} (parse_f64 : str -> option F)
    pick chk order gen (out : path) (outside : path -> option str) (base : path) (n : node) : list (path * str) * option Tools.bexit :=
  match load glob read_toml skip base n with
  | PErr _ => ([], None)
  | POk pj => let (ws, e) := Tools.compile parse_f64 pick chk order gen out (read_at outside base n) (map sfile_of (pj_files pj)) in (ws, Some e)
  end.

(** ** Specification *)
(** The file [f] is a schema file of the project. *)
Definition project_file glob skip base n patterns (f : Tools.sfile) : Prop := exists rel, Tools.f_path f = base ++ rel /\ member glob skip base n patterns rel.
(** No two schema files of the project have the same name. *)
Definition names_differ glob skip base n patterns : Prop := forall f g,
  project_file glob skip base n patterns f -> project_file glob skip base n patterns g -> Tools.f_stem f = Tools.f_stem g -> f = g.

Lemma nodup_stems (l : list Tools.sfile) : NoDup l -> (forall f g, In f l -> In g l -> Tools.f_stem f = Tools.f_stem g -> f = g) -> PropBuild.distinct_stems l.
Proof.
  unfold PropBuild.distinct_stems. induction 1 as [|f l Hf Hd IH]; intros H; cbn [map]; constructor.
  - intros Hin. apply in_map_iff in Hin as (g & E & Hg). apply Hf. rewrite (H f g (or_introl eq_refl) (or_intror Hg) (eq_sym E)). exact Hg.
  - apply IH. intros a b Ha Hb. apply H; right; assumption.
Qed.

(** The build of a project whose files have different names: if it ends well there is, for every schema file of the project and for nothing else, the code of its schema, and no other file
    has changed.  Without a readable project nothing is written. *)
Theorem C90_build_partial : forall glob read_toml skip (F : Type) (parse_f64 : str -> option F) pick chk order gen out outside base n disk', proper n ->
  let '(ws, e) := build_command glob read_toml skip parse_f64 pick chk order gen out outside base n in
  (e = None <-> ~ exists patterns, project_of glob read_toml skip base n patterns)
  /\ ((e = None \/ exists x, e = Some (Tools.BErr x)) -> ws = [])
  /\ forall patterns, project_of glob read_toml skip base n patterns -> names_differ glob skip base n patterns -> e = Some Tools.BDone ->
       ToolsSpec.after ws (read_at outside base n) disk' ->
       (forall rel, member glob skip base n patterns rel -> exists f i s o code, Tools.f_path f = base ++ rel /\ content n rel i /\ schema_parse parse_f64 i = Some s
          /\ simplify_schema chk s = Some o /\ gen o = Tools.GCode code /\ disk' (out ++ [Tools.f_stem f ++ tx ".rs"]) = Some code)
       /\ forall q, (forall f, project_file glob skip base n patterns f -> q <> out ++ [Tools.f_stem f ++ tx ".rs"]) -> disk' q = read_at outside base n q.
Proof.
  intros glob read_toml skip F pf pick chk order gen out outside base n disk' Hp. unfold build_command. destruct (load glob read_toml skip base n) as [pj|x] eqn:E.
  - destruct (load_project glob read_toml skip base n pj E) as (patterns & Hof & Hf & Hd). pose proof (members glob skip base n patterns pj Hf) as Hm. pose proof (members_nodup glob skip base n patterns pj Hf (Hd Hp)) as Hnd.
    pose proof (PropBuild.C55_outputs_partial F pf pick chk order gen out (read_at outside base n) (map sfile_of (pj_files pj)) (read_at outside base n) disk') as Ho.
    pose proof (PropBuild.C55_error_writes_nothing F pf pick chk order gen out (read_at outside base n) (map sfile_of (pj_files pj))) as He.
    destruct (Tools.compile pf pick chk order gen out _ _) as [ws e]. cbn [fst snd] in He. split; [|split].
    + split; [discriminate|]. intros H. exfalso. apply H. eauto.
    + intros [H|[x H]]; [discriminate|]. injection H as ->. exact (He x eq_refl).
    + intros patterns' Hof' Hn H Ha. injection H as ->. rewrite (same_patterns glob read_toml skip base n patterns' patterns Hp Hof' Hof) in *. destruct Ho as [H1 H2]; [|reflexivity|exact Ha|split].
      * apply nodup_stems; [exact Hnd|]. intros f g Hf' Hg'. apply Hn; apply Hm; assumption.
      * intros rel Hrel. assert (Hpath := sfile_path (base ++ rel) (named_app base rel (proj1 (proj2 (proj2 Hrel))))). assert (Hin : In (sfile_of (base ++ rel)) (map sfile_of (pj_files pj))) by (apply Hm; eauto).
        destruct (H1 _ Hin) as (i & s & o & code & K1 & K2 & K3 & K4 & K5). rewrite Hpath in K1. apply (read_content outside base n rel i Hp) in K1. exists (sfile_of (base ++ rel)), i, s, o, code. auto 10.
      * intros q Hq. apply H2. intros f Hin. apply Hq. apply Hm. exact Hin.
  - split; [|split]; [|reflexivity|].
    + split; [|reflexivity]. intros _ (patterns & Hof). destruct (project_loads glob read_toml skip base n patterns Hp Hof) as [pj H]. congruence.
    + intros patterns _ _ H. discriminate.
Qed.
Print Assumptions C90_build_partial.

(** A project that is built. *)
Example C90_build_ex :
  let n := Dir [(tx "Mabo.toml", File (Some (tx "*.mabo"))); (tx "a.mabo", File (Some (tx "struct B(u8)")))] in
  proper n /\ names_differ any_glob see [tx "p"] n [tx "*.mabo"]
  /\ build_command any_glob ex_toml see (F := unit) (fun _ => None) PropCompiler.pick0 true PropResolve.same PropBuild.gen0 [tx "o"; tx "mabo"] (fun _ => None) [tx "p"] n
     = ([([tx "o"; tx "mabo"; tx "a.rs"], tx "B")], Some Tools.BDone).
Proof.
  intros n. split.
  { constructor; [cbn [map fst]; repeat constructor; cbn [In]; intuition discriminate|]. intros x m [E|[E|[]]]; injection E as <- <-; constructor. }
  split; [|vm_compute; reflexivity].
  assert (G : forall f, project_file any_glob see [tx "p"] n [tx "*.mabo"] f -> Tools.f_path f = [tx "p"; tx "a.mabo"]).
  { intros f (rel & -> & (m & Hm) & _ & (dir & stem & Hs & ->) & _). cbn [app]. f_equal. apply reaches_resolve in Hm. change (resolve n) with n in Hm. unfold n in Hm. cbn iota in Hm.
    destruct Hm as [[H _]|(y & q & k & E & Hin & H)]; [destruct dir; discriminate|]. destruct Hin as [Ek|[Ek|[]]]; injection Ek as <- <-.
    - apply reaches_resolve in H. cbn [resolve] in H. destruct H as [H _]. subst q. destruct dir as [|d [|]]; [|discriminate|discriminate]. injection E as E. exfalso.
      apply (f_equal (@rev N)) in E. rewrite rev_app_distr in E. cbn in E. discriminate.
    - apply reaches_resolve in H. cbn [resolve] in H. destruct H as [H _]. subst q. exact E. }
  intros f g Hf Hg _. apply ToolsProofs.f_path_inj. rewrite (G f Hf), (G g Hg). reflexivity.
Qed.
