(** Property theorems C59: the files of the Go generator for a project of several schema files. *)
From Verif Require Import Base Syntax Parser Printer ParserSpec PropParser Compiler CompilerSpec CompilerClaims
  CompilerProofs CompilerMore GenProofs Resolve ResolveSpec PropCompiler PropResolve Tools ToolsSpec ToolsProofs PropBuild PropGoOut.
Require Coq.Strings.String.
Import Coq.Strings.String.StringSyntax.
Local Open Scope N_scope.

Section Go.
Context {F : Type}.
Variables (go_text : str -> comment -> list (sdef F) -> str).

Lemma go_module_inv (d : sdef F) : forall parent q c0, In (q, c0) (go_module go_text parent d) ->
  exists p c m, smodule_at [d] p c m /\ q = parent ++ p ++ [last p [] ++ tx ".go"] /\ c0 = go_text (last p []) c m.
Proof.
  induction d as [c n ds IH|d Hd] using sdef_ind2; intros parent q c0 Hin.
  - cbn [go_module] in Hin. destruct Hin as [Hin|Hin].
    + injection Hin as <- <-. exists [n], c, ds. split; [constructor; left; reflexivity|]. split; reflexivity.
    + apply in_flat_map in Hin as (x & Hx & Hin). destruct (IH x Hx _ _ _ Hin) as (p & c' & m & Hp & -> & ->).
      assert (Hne : p <> []) by (intros ->; inversion Hp).
      exists (n :: p), c', m. assert (El : last (n :: p) [] = last p []) by (destruct p; [contradiction|reflexivity]). rewrite El. split; [|split; [rewrite <- app_assoc; reflexivity|reflexivity]].
      apply (sat_sub _ c n ds); [left; reflexivity|]. clear - Hp Hx. inversion Hp as [? ? ? ? Hin|? ? ? ? ? ? ? Hin Hs]; subst; destruct Hin as [->|[]]; [apply sat_last; exact Hx|eapply sat_sub; [exact Hx|exact Hs]].
  - destruct d; try contradiction. exfalso. eapply Hd. reflexivity.
Qed.
Lemma go_modules_inv (ds : list (sdef F)) parent q c0 : In (q, c0) (flat_map (go_module go_text parent) ds) ->
  exists p c m, smodule_at ds p c m /\ q = parent ++ p ++ [last p [] ++ tx ".go"] /\ c0 = go_text (last p []) c m.
Proof.
  intros Hin. apply in_flat_map in Hin as (x & Hx & Hin). destruct (go_module_inv x _ _ _ Hin) as (p & c & m & Hp & H). exists p, c, m. split; [|exact H].
  clear - Hp Hx. inversion Hp as [? ? ? ? Hin|? ? ? ? ? ? ? Hin Hs]; subst; destruct Hin as [->|[]]; [apply sat_last; exact Hx|eapply sat_sub; [exact Hx|exact Hs]].
Qed.
Lemma smodule_ne (ds : list (sdef F)) p c m : smodule_at ds p c m -> p <> [].
Proof. intros H. inversion H; discriminate. Qed.

Lemma go_emit_shape (chk : bool) package out (vs1 : list (str * pschema F)) : forall n s vs2 ws,
  go_emit chk go_text package out (vs1 ++ (n, s) :: vs2) = (ws, BDone) ->
  exists o ws1 ws2, simplify_schema chk s = Some o /\ ws = ws1 ++ go_schema go_text package out o ++ ws2
    /\ forall x, In x ws2 -> exists n' s' o', In (n', s') vs2 /\ simplify_schema chk s' = Some o' /\ In x (go_schema go_text package out o').
Proof.
  assert (G : forall vs ws, go_emit chk go_text package out vs = (ws, BDone) -> forall x, In x ws -> exists n' s' o', In (n', s') vs /\ simplify_schema chk s' = Some o' /\ In x (go_schema go_text package out o')).
  { induction vs as [|[n s] vs IH]; intros ws E x Hx; cbn [go_emit] in E.
    - injection E as <-. destruct Hx.
    - destruct (simplify_schema chk s) as [o|] eqn:Eo; [|discriminate]. destruct (go_emit chk go_text package out vs) as [ws' e']. apply pair_equal_spec in E as [<- ->].
      apply in_app_or in Hx as [Hx|Hx]; [exists n, s, o; split; [left; reflexivity|auto]|]. destruct (IH ws' eq_refl x Hx) as (n' & s' & o' & H1 & H2). exists n', s', o'. split; [right; exact H1|exact H2]. }
  induction vs1 as [|[n1 s1] vs1 IH]; intros n s vs2 ws E; cbn [app go_emit] in E.
  - destruct (simplify_schema chk s) as [o|] eqn:Eo; [|discriminate]. destruct (go_emit chk go_text package out vs2) as [ws' e'] eqn:E'. apply pair_equal_spec in E as [<- ->].
    exists o, [], ws'. split; [reflexivity|]. split; [reflexivity|]. exact (G vs2 ws' E').
  - destruct (simplify_schema chk s1) as [o1|]; [|discriminate]. destruct (go_emit chk go_text package out (vs1 ++ (n, s) :: vs2)) as [ws' e'] eqn:E'. apply pair_equal_spec in E as [<- ->].
    destruct (IH n s vs2 ws' E') as (o & ws1 & ws2 & H1 & -> & H2). exists o, (go_schema go_text package out o1 ++ ws1), ws2. split; [exact H1|]. split; [rewrite !app_assoc; reflexivity|exact H2].
Qed.
Lemma schema_unique (chk : bool) (s : pschema F) c ds : valid chk (ps_defs s) -> simplify_schema chk s = Some (c, ds) -> modules_unique ds.
Proof.
  intros Hval Es. unfold simplify_schema in Es. destruct (all_opt (simplify_definition chk) (ps_defs s)) as [l|] eqn:El; [|discriminate]. cbn in Es. injection Es as <- <-.
  eapply (simplify_unique chk (SModule [] [] l)); [reflexivity|exact El|]. destruct Hval as [V1 V2]. split; [exact V1|].
  intros c' n' sub Hw. destruct (V2 _ Hw) as (Hns & _). apply Hns. cbn. left. reflexivity.
Qed.
End Go.

(** The schema file [f] has a module at the path [p]. *)
Definition file_has {F} (parse_f64 : str -> option F) chk (read : path -> option str) (f : sfile) (p : list str) (c : comment) (m : list (sdef F)) : Prop :=
  exists i s c0 ds, read (f_path f) = Some i /\ schema_parse parse_f64 i = Some s /\ simplify_schema chk s = Some (c0, ds) /\ smodule_at ds p c m.

(** A project of any number of schema files: every module of every file has its Go file, unless a
    later schema file has a module of the same path.  (The definitions outside of modules are those
    of the last file, see below.) *)
Theorem C59_modules_partial : forall (F : Type) (parse_f64 : str -> option F) pick chk order go_text package out read pre f post p c m (disk disk' : path -> option str),
  readable read ->
  file_has parse_f64 chk read f p c m ->
  (forall g, In g post -> forall c' m', ~ file_has parse_f64 chk read g p c' m') ->
  let '(ws, e) := go_main parse_f64 pick chk order go_text package out read (pre ++ f :: post) in
  e = BDone -> after ws disk disk' ->
  disk' (out ++ [package] ++ p ++ [last p [] ++ tx ".go"]) = Some (go_text (last p []) c m).
Proof.
  intros F pf pick chk order go_text package out read pre f post p c m disk disk' Hr (i & s & c0 & ds & R1 & R2 & R3 & R4) Hpost.
  destruct (go_main pf pick chk order go_text package out read (pre ++ f :: post)) as [ws e] eqn:E. intros -> Ha.
  unfold go_main in E. destruct (front pf pick chk order read (pre ++ f :: post)) as [values| |] eqn:Ef; try discriminate.
  destruct (front_loaded pf _ _ _ _ _ _ Ef) as (Hl & Hv & _). unfold loaded in Hl. apply Forall2_app_inv_l in Hl as (vs1 & l & _ & Hl & ->).
  inversion Hl as [|? [n s'] ? vs2 (H1 & i' & H2 & H3) HF]; subst. cbn [fst snd] in *.
  assert (s' = s) as -> by congruence.
  destruct (go_emit_shape go_text chk package out vs1 n s vs2 ws E) as (o & ws1 & ws2 & Ho & -> & Hw2). assert (o = (c0, ds)) as -> by congruence.
  assert (Hval : valid chk (ps_defs s)).
  { apply (validate_schema_exact pick); [apply SchemaOk_u32; eapply C52_well_formed; [exact (Hr _ _ H2)|exact H3]|]. apply (Hv (n, s)). apply in_or_app. right. left. reflexivity. }
  pose proof (go_schema_nodup go_text package out (c0, ds) (schema_unique chk s c0 ds Hval Ho)) as Hn.
  assert (Hin : In (out ++ [package] ++ p ++ [last p [] ++ tx ".go"], go_text (last p []) c m) (go_schema go_text package out (c0, ds))).
  { right. cbn [snd]. pose proof (go_module_in go_text ds p c m R4 (out ++ [package])) as G. rewrite <- app_assoc in G. exact G. }
  apply (Ha _). pose proof (nodup_last _ _ _ Hn Hin) as Hlast. inversion Hlast as [w1 w2 q cq Hq Eq1 Eq2]. subst q cq.
  assert (EQ : forall x : path * str, ws1 ++ (w1 ++ x :: w2) ++ ws2 = (ws1 ++ w1) ++ x :: (w2 ++ ws2)) by (intros x; rewrite <- !app_assoc; reflexivity).
  rewrite EQ. clear EQ.
  constructor. intros q cq Hin' ->. apply in_app_or in Hin' as [Hin'|Hin']; [exact (Hq _ _ Hin' eq_refl)|].
  destruct (Hw2 _ Hin') as (n' & s' & [c1 ds1] & Hin2 & Ho' & Hin3). destruct Hin3 as [Hin3|Hin3].
  - injection Hin3 as Hp _. apply app_inv_head in Hp. cbn [app] in Hp. injection Hp as Hp. pose proof (smodule_ne _ _ _ _ R4) as Hne.
    destruct p as [|x p]; [contradiction|]. cbn [app] in Hp. injection Hp as _ Hp. destruct p; discriminate.
  - cbn [snd] in Hin3. apply go_modules_inv in Hin3 as (p' & c' & m' & Hp' & Hq' & _). rewrite <- app_assoc in Hq'. apply app_inv_head in Hq'. apply app_inv_head in Hq'.
    apply app_inj_tail in Hq' as [<- _].
    assert (Hg : exists g, In g post /\ exists i2, read (f_path g) = Some i2 /\ schema_parse pf i2 = Some s').
    { clear - HF Hin2. induction HF as [|g v post vs2 (_ & i2 & G1 & G2) HF IH]; [destruct Hin2|]. destruct Hin2 as [->|Hin2]; [exists g; split; [left; reflexivity|exists i2; auto]|].
      destruct (IH Hin2) as (g' & Hg' & K). exists g'. split; [right; exact Hg'|exact K]. }
    destruct Hg as (g & Hg & i2 & G1 & G2). apply (Hpost g Hg c' m'). exists i2, s', c1, ds1. auto.
Qed.
Print Assumptions C59_modules_partial.

(** The module [i] of the first of two files. *)
Example C59_modules_ex : exists c m, file_has (F := unit) (fun _ => None) true good_disk (File [] (tx "m")) [tx "i"] c m
  /\ (forall g, In g [File [] (tx "s")] -> forall c' m', ~ file_has (F := unit) (fun _ => None) true good_disk g [tx "i"] c' m')
  /\ snd (go_main (F := unit) (fun _ => None) pick0 true same (fun n _ _ => n) (tx "pkg") [tx "out"] good_disk ([] ++ File [] (tx "m") :: [File [] (tx "s")])) = BDone.
Proof.
  eexists _, _. split; [|split; [|vm_compute; reflexivity]].
  - eexists _, _, _, _. split; [vm_compute; reflexivity|]. split; [vm_compute; reflexivity|]. split; [vm_compute; reflexivity|]. apply sat_last. right. left. reflexivity.
  - intros g [<-|[]] c' m' (i & s & c0 & ds & H1 & H2 & H3 & H4). vm_compute in H1. injection H1 as <-. vm_compute in H2. injection H2 as <-. vm_compute in H3. injection H3 as <- <-.
    inversion H4 as [? ? ? ? Hin|? ? ? ? ? ? ? Hin Hs]; subst; destruct Hin as [Hin|[]]; discriminate.
Qed.

(** The Go generator and the Rust build reject the same projects, with the same error, and then
    neither writes anything. *)
Theorem C59_same_errors : forall (F : Type) (parse_f64 : str -> option F) pick chk order gen go_text package out out' read files e,
  (snd (go_main parse_f64 pick chk order go_text package out read files) = BErr e
   <-> snd (compile parse_f64 pick chk order gen out' read files) = BErr e)
  /\ (snd (go_main parse_f64 pick chk order go_text package out read files) = BErr e ->
      fst (go_main parse_f64 pick chk order go_text package out read files) = []
      /\ fst (compile parse_f64 pick chk order gen out' read files) = []).
Proof.
  intros F pf pick chk order gen go_text package out out' read files e.
  assert (G : snd (go_main pf pick chk order go_text package out read files) = BErr e <-> front pf pick chk order read files = CErr e).
  { unfold go_main. destruct (front pf pick chk order read files) as [values|x|]; [|split; intros H; injection H as ->; reflexivity|split; discriminate].
    split; [|discriminate]. intros H. exfalso. revert H. try clear G. induction values as [|[n s] values IH]; cbn [go_emit]; [discriminate|].
    destruct (simplify_schema chk s) as [o|]; [|discriminate]. destruct (go_emit chk go_text package out values) as [ws e']. exact IH. }
  assert (R : snd (compile pf pick chk order gen out' read files) = BErr e <-> front pf pick chk order read files = CErr e).
  { unfold compile. destruct (front pf pick chk order read files) as [values|x|]; [|split; intros H; injection H as ->; reflexivity|split; discriminate].
    split; [|discriminate]. intros H. exfalso. revert H. try clear G. induction values as [|[n s] values IH]; cbn [emit]; [discriminate|].
    destruct (simplify_schema chk s) as [o|]; [|discriminate]. destruct (gen o); [|discriminate..].
    destruct (emit chk gen out' values) as [ws e']. exact IH. }
  split; [rewrite G, R; reflexivity|]. intros H. apply G in H. unfold go_main, compile. rewrite H. split; reflexivity.
Qed.
Print Assumptions C59_same_errors.

Example C59_same_errors_ex : snd (go_main (fun _ : str => None (A := unit)) pick0 true same (fun n _ _ => n) (tx "pkg") [] good_disk [File [] (tx "m")])
  = BErr (FResolve (EImport (IMissingSchema [115]))).
Proof. vm_compute. reflexivity. Qed.
