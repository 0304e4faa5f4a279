(** C90: the Go generator on a project directory. *)
From Verif Require Import Base Syntax Parser Printer ParserSpec Compiler Resolve Package PropPackage ProjectCli PropProjectCli PropBuildProject.
From Verif Require Tools ToolsSpec ToolsProofs PropBuild PropGoOut PropGoMany.
Require Coq.Strings.String.
Import Coq.Strings.String.StringSyntax.
Local Open Scope N_scope.

(** crates/mabo-go/src/main.rs L16-93 [main] up to the call of gofmt: the project is loaded, then its files are compiled (Tools.v).  The second component is [None] if the project cannot be
    loaded (the check of L27-30 that Mabo.toml exists fails only where loading would).  Simplifications: creating directories succeeds; the name of the package, read from Mabo.toml as well, is
    a parameter. *)
Definition go_command (glob : str -> option (path -> bool)) (read_toml : str -> option (list str)) (skip : path -> path -> bool) {F : Type} (parse_f64 : str -> option F)
    pick chk order go_text (package : str) (out : path) (outside : path -> option str) (base : path) (n : node) : list (path * str) * option Tools.bexit :=
  match load glob read_toml skip base n with
  | PErr _ => ([], None)
  | POk pj => let (ws, e) := Tools.go_main parse_f64 pick chk order go_text package out (read_at outside base n) (map sfile_of (pj_files pj)) in (ws, Some e)
  end.

(** ** Specification *)
(** The schema file at [rel] has, once simplified, the module [m] with the comment [c] at the path [p]. *)
Definition has_module {F : Type} (parse_f64 : str -> option F) chk (n : node) (rel : path) (p : list str) (c : comment) (m : list (sdef F)) : Prop :=
  exists i s c0 ds, content n rel i /\ schema_parse parse_f64 i = Some s /\ simplify_schema chk s = Some (c0, ds) /\ PropGoOut.smodule_at ds p c m.

Lemma split_nodup {A} (l : list A) x : NoDup l -> In x l -> exists a b, l = a ++ x :: b /\ forall y, In y b -> y <> x.
Proof.
  intros Hd Hin. apply in_split in Hin as (a & b & ->). exists a, b. split; [reflexivity|]. intros y Hy ->. apply NoDup_remove_2 in Hd. apply Hd. apply in_or_app. right. exact Hy.
Qed.

(** If [mabo-go] ends well in a project, every module of every schema file of the project, wherever it is, has its Go file, as long as no other schema file has a module of the same path;
    without a readable project, or with an error in a schema, nothing is written. *)
Theorem C90_go_partial : forall glob read_toml skip (F : Type) (parse_f64 : str -> option F) pick chk order go_text package out outside base n disk', proper n ->
  PropBuild.readable (read_at outside base n) ->
  let '(ws, e) := go_command glob read_toml skip parse_f64 pick chk order go_text package out outside base n in
  (e = None <-> ~ exists patterns, project_of glob read_toml skip base n patterns)
  /\ ((e = None \/ exists x, e = Some (Tools.BErr x)) -> ws = [])
  /\ forall patterns, project_of glob read_toml skip base n patterns -> e = Some Tools.BDone -> ToolsSpec.after ws (read_at outside base n) disk' ->
       forall rel p c m, member glob skip base n patterns rel -> has_module parse_f64 chk n rel p c m ->
         (forall rel' c' m', member glob skip base n patterns rel' -> has_module parse_f64 chk n rel' p c' m' -> rel' = rel) ->
         disk' (out ++ [package] ++ p ++ [last p [] ++ tx ".go"]) = Some (go_text (last p []) c m).
Proof.
  intros glob read_toml skip F pf pick chk order go_text package out outside base n disk' Hp Hr. unfold go_command. destruct (load glob read_toml skip base n) as [pj|x] eqn:E.
  - destruct (load_project glob read_toml skip base n pj E) as (patterns & Hof & Hf & Hd). pose proof (members glob skip base n patterns pj Hf) as Hm. pose proof (members_nodup glob skip base n patterns pj Hf (Hd Hp)) as Hnd.
    assert (Hmany := fun pre f post p c m => PropGoMany.C59_modules_partial F pf pick chk order go_text package out (read_at outside base n) pre f post p c m (read_at outside base n) disk' Hr).
    pose proof (fun e => PropGoMany.C59_same_errors F pf pick chk order (fun _ => Tools.GInvalid) go_text package out out (read_at outside base n) (map sfile_of (pj_files pj)) e) as He.
    destruct (Tools.go_main pf pick chk order go_text package out (read_at outside base n) (map sfile_of (pj_files pj))) as [ws e] eqn:Eg. cbv beta in He.
    split; [|split].
    + split; [discriminate|]. intros H. exfalso. apply H. eauto.
    + intros [H|[x H]]; [discriminate|]. injection H as ->. specialize (He x). exact (proj1 (proj2 He eq_refl)).
    + intros patterns' Hof' H Ha rel p c m Hrel (i & s & c0 & ds & M1 & M2 & M3 & M4) Hu. rewrite (same_patterns glob read_toml skip base n patterns' patterns Hp Hof' Hof) in *.
      assert (Hpath := sfile_path (base ++ rel) (named_app base rel (proj1 (proj2 (proj2 Hrel))))). assert (Hin : In (sfile_of (base ++ rel)) (map sfile_of (pj_files pj))) by (apply Hm; eauto).
      destruct (split_nodup _ _ Hnd Hin) as (pre & post & El & Hpost). 
      specialize (Hmany pre (sfile_of (base ++ rel)) post p c m). rewrite <- El, Eg in Hmany. injection H as ->. apply Hmany; [|..|reflexivity|exact Ha].
      * exists i, s, c0, ds. rewrite Hpath. split; [apply (read_content outside base n rel i Hp); exact M1|]. auto.
      * intros g Hg c' m' (i' & s' & c1 & ds' & K1 & K2 & K3 & K4). assert (Hg' : In g (map sfile_of (pj_files pj))) by (rewrite El; apply in_or_app; right; right; exact Hg).
        apply Hm in Hg' as (rel' & Egp & Hrel'). rewrite Egp in K1. apply (read_content outside base n rel' i' Hp) in K1.
        assert (rel' = rel) as -> by (apply (Hu rel' c' m' Hrel'); exists i', s', c1, ds'; auto). apply (Hpost g Hg). apply ToolsProofs.f_path_inj. rewrite Egp, Hpath. reflexivity.
  - split; [|split]; [|reflexivity|].
    + split; [|reflexivity]. intros _ (patterns & Hof). destruct (project_loads glob read_toml skip base n patterns Hp Hof) as [pj H]. congruence.
    + intros patterns _ H. discriminate.
Qed.
Print Assumptions C90_go_partial.

(** Two schema files with a module each. *)
Example C90_go_ex :
  let n := Dir [(tx "Mabo.toml", File (Some (tx "*.mabo"))); (tx "a.mabo", File (Some (tx "mod m { struct A(u8) }"))); (tx "b.mabo", File (Some (tx "mod k { struct B(u8) }")))] in
  proper n
  /\ go_command any_glob ex_toml see (F := unit) (fun _ => None) PropCompiler.pick0 true PropResolve.same (fun x _ _ => x) (tx "pkg") [tx "o"] (fun _ => None) [tx "p"] n
     = ([([tx "o"; tx "pkg"; tx "pkg.go"], tx "pkg"); ([tx "o"; tx "pkg"; tx "m"; tx "m.go"], tx "m"); ([tx "o"; tx "pkg"; tx "pkg.go"], tx "pkg"); ([tx "o"; tx "pkg"; tx "k"; tx "k.go"], tx "k")], Some Tools.BDone)
  /\ (exists c m, has_module (F := unit) (fun _ => None) true n [tx "a.mabo"] [tx "m"] c m)
  /\ forall c m, ~ has_module (F := unit) (fun _ => None) true n [tx "b.mabo"] [tx "m"] c m.
Proof.
  intros n.
  assert (Hp : proper n).
  { constructor; [cbn [map fst]; repeat constructor; cbn [In]; intuition discriminate|]. intros x m [E|[E|[E|[]]]]; injection E as <- <-; constructor. }
  assert (R : forall x i, read_at (fun _ => None) [] n [x] = Some i <-> content n [x] i) by (intros x i; apply (read_content (fun _ => None) [] n [x] i Hp)).
  split; [exact Hp|]. split; [vm_compute; reflexivity|]. split.
  - eexists _, _, _, _, _, _. split; [apply R; vm_compute; reflexivity|]. split; [vm_compute; reflexivity|]. split; [vm_compute; reflexivity|]. apply PropGoOut.sat_last. left. reflexivity.
  - intros c m (i & s & c0 & ds & H1 & H2 & H3 & H4). apply R in H1. vm_compute in H1. injection H1 as <-. vm_compute in H2. injection H2 as <-. vm_compute in H3. injection H3 as <- <-.
    inversion H4 as [? ? ? ? Hin|? ? ? ? ? ? ? Hin Hs]; subst; destruct Hin as [Hin|[]]; discriminate.
Qed.
