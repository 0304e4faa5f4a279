(** Property theorems C58: the generated documentation. *)
From Verif Require Import Base Syntax Parser Printer ParserSpec PropParser Compiler CompilerSpec CompilerClaims
  CompilerProofs CompilerMore GenProofs Resolve ResolveSpec PropCompiler PropResolve Tools ToolsSpec ToolsProofs PropBuild PropGoOut PropCli.
Require Coq.Strings.String.
Import Coq.Strings.String.StringSyntax.
Local Open Scope N_scope.

Section Links.
Context {F : Type}.
Implicit Types (d : sdef F) (ds : list (sdef F)) (pages all : list (path * page)).

(** A link of a page at [q] leads to a page of [all] about the item it names. *)
Definition link_ok all (q : path) (l : link) : Prop := exists pg, In (follow q (l_up l) (l_to l), pg) all /\ pg_name pg = l_text l.

Lemma firstn_app_exact {A} (a b : list A) k : k = length a -> firstn k (a ++ b) = a.
Proof. intros ->. rewrite firstn_app, Nat.sub_diag, firstn_all. cbn. apply app_nil_r. Qed.
Lemma follow_down (dir : path) file to : follow (dir ++ [file]) 0 to = dir ++ to.
Proof. unfold follow. rewrite app_length. cbn [length]. f_equal. apply firstn_app_exact. lia. Qed.
Lemma follow_up (base path_ : path) file to i : (i < length path_)%nat ->
  follow ((base ++ path_) ++ [file]) (length path_ - i - 1) to = base ++ firstn (S i) path_ ++ to.
Proof.
  intros Hi. unfold follow. rewrite !app_length. cbn [length].
  replace (length base + length path_ + 1 - 1 - (length path_ - i - 1))%nat with (length base + S i)%nat by lia.
  rewrite <- app_assoc, firstn_app. rewrite (firstn_all2 base) by lia. rewrite <- app_assoc. f_equal.
  rewrite firstn_app. replace (length base + S i - length base)%nat with (S i) by lia.
  replace (S i - length path_)%nat with 0%nat by lia. cbn [firstn]. rewrite app_nil_r. reflexivity.
Qed.
Lemma crumb_in path_ k l : (k <= length path_)%nat -> In l (crumbs path_ k) -> exists i p, (i < k)%nat /\ nth_error path_ i = Some p /\ l = crumb (length path_) i p.
Proof.
  intros Hk H. unfold crumbs in H. apply in_map_iff in H as ([i p] & <- & H). exists i, p.
  assert (G : forall k l s, In (i, p) (combine (seq s k) l) -> (s <= i < s + k)%nat /\ nth_error l (i - s) = Some p).
  { clear. induction k as [|k IH]; intros l s H; [destruct H|]. destruct l as [|x l]; [destruct H|]. cbn [seq combine] in H. destruct H as [H|H].
    - injection H as -> ->. split; [lia|]. rewrite Nat.sub_diag. reflexivity.
    - destruct (IH _ _ H) as [H1 H2]. split; [lia|]. replace (i - s)%nat with (S (i - S s)) by lia. exact H2. }
  apply G in H as [H1 H2]. rewrite Nat.sub_0_r in H2. split; [lia|]. split; [exact H2|reflexivity].
Qed.

(** All modules above have their page. *)
Definition above all (base path_ : path) : Prop := forall i p, nth_error path_ i = Some p ->
  exists pg, In (base ++ firstn (S i) path_ ++ [lit_str "index.html"], pg) all /\ pg_name pg = p.

Lemma doc_item parent path_ d n : item_name d = Some n -> exists pg, In (parent ++ item_file d, pg) (doc_pages parent path_ d) /\ pg_name pg = n.
Proof. destruct d; cbn [item_name]; intros H; try discriminate; injection H as <-; eexists; (split; [left; reflexivity|reflexivity]). Qed.
Lemma doc_links d : forall all base path_, (forall q pg, In (q, pg) (doc_pages (base ++ path_) path_ d) -> In (q, pg) all) -> above all base path_ ->
  forall q pg l, In (q, pg) (doc_pages (base ++ path_) path_ d) -> In l (pg_links pg) -> link_ok all q l.
Proof.
  induction d as [c n ds IH|d Hd] using sdef_ind2; intros all base path_ Hall Hab q pg l Hin Hl.
  - cbn [doc_pages] in Hin.
    assert (Hab' : above all base (path_ ++ [n])).
    { intros i p Hp. destruct (Nat.lt_ge_cases i (length path_)) as [Hi|Hi].
      - rewrite nth_error_app1 in Hp by exact Hi. destruct (Hab i p Hp) as (pg' & H1 & H2). exists pg'. split; [|exact H2].
        rewrite firstn_app. replace (S i - length path_)%nat with 0%nat by lia. cbn [firstn]. rewrite app_nil_r. exact H1.
      - rewrite nth_error_app2 in Hp by exact Hi. destruct (i - length path_)%nat as [|k] eqn:E; [|destruct k; discriminate]. cbn in Hp. injection Hp as <-.
        eexists. split; [apply Hall; left; f_equal|reflexivity].
        rewrite firstn_all2 by (rewrite app_length; cbn [length]; lia). cbn [item_file]. rewrite <- !app_assoc. reflexivity. }
    destruct Hin as [Hin|Hin].
    + injection Hin as <- <-. cbn [pg_links] in Hl. cbn [item_file] in *.
      assert (Eq : (base ++ path_) ++ [n; lit_str "index.html"] = (base ++ (path_ ++ [n])) ++ [lit_str "index.html"]) by (rewrite <- !app_assoc; reflexivity).
      rewrite Eq. apply in_app_or in Hl as [Hl|Hl].
      * apply crumb_in in Hl as (i & p & Hi & Hp & ->); [|lia]. unfold link_ok, crumb. cbn [l_up l_to l_text].
        rewrite follow_up by lia. destruct (Hab' i p Hp) as (pg' & H1 & H2). exists pg'. split; assumption.
      * unfold item_links in Hl. apply in_flat_map in Hl as (x & Hx & Hl). destruct (item_name x) as [m|] eqn:Ex; [|destruct Hl].
        destruct Hl as [<-|[]]. unfold link_ok. cbn [l_up l_to l_text]. rewrite follow_down.
        destruct (doc_item (base ++ path_ ++ [n]) (path_ ++ [n]) x m Ex) as (pg' & H1 & H2). exists pg'. split; [|exact H2].
        apply Hall. cbn [doc_pages]. right. apply in_flat_map. exists x. split; [exact Hx|]. replace ((base ++ path_) ++ [n]) with (base ++ path_ ++ [n]) by apply app_assoc. exact H1.
    + apply in_flat_map in Hin as (x & Hx & Hin). replace ((base ++ path_) ++ [n]) with (base ++ path_ ++ [n]) in Hin by apply app_assoc. eapply (IH x Hx all base (path_ ++ [n])); [|exact Hab'|exact Hin|exact Hl].
      intros q' pg' H'. apply Hall. cbn [doc_pages]. right. apply in_flat_map. exists x. split; [exact Hx|]. replace ((base ++ path_) ++ [n]) with (base ++ path_ ++ [n]) by apply app_assoc. exact H'.
  - assert (Hleaf : exists file, (q, pg) = ((base ++ path_) ++ [file], Page (pg_name pg) (crumbs path_ (length path_)) (pg_style pg))).
    { destruct d; cbn [doc_pages] in Hin; try (destruct Hin as [Hin|[]]; injection Hin as <- <-; eexists; reflexivity); [|destruct Hin]. exfalso. eapply Hd. reflexivity. }
    destruct Hleaf as (file & E). injection E as -> E. rewrite E in Hl. cbn [pg_links] in Hl.
    apply crumb_in in Hl as (i & p & Hi & Hp & ->); [|lia]. unfold link_ok, crumb. cbn [l_up l_to l_text]. rewrite follow_up by lia.
    destruct (Hab i p Hp) as (pg' & H1 & H2). exists pg'. split; assumption.
Qed.
Lemma doc_schema_links out stem ds q pg l : In (q, pg) (doc_schema out stem ds) -> In l (pg_links pg) -> link_ok (doc_schema out stem ds) q l.
Proof.
  intros Hin Hl. set (all := doc_schema out stem ds).
  assert (Hab : above all (out ++ [stem]) [stem]).
  { intros i p Hp. destruct i as [|[|i]]; [|discriminate..]. injection Hp as <-. eexists. split; [left; cbn [firstn]; rewrite <- !app_assoc; reflexivity|reflexivity]. }
  unfold doc_schema in Hin. destruct Hin as [Hin|Hin].
  - injection Hin as <- <-. cbn [pg_links] in Hl. unfold item_links in Hl. apply in_flat_map in Hl as (x & Hx & Hl).
    destruct (item_name x) as [m|] eqn:Ex; [|destruct Hl]. destruct Hl as [<-|[]]. unfold link_ok. cbn [l_up l_to l_text].
    replace ((out ++ [stem]) ++ [stem; lit_str "index.html"]) with (((out ++ [stem]) ++ [stem]) ++ [lit_str "index.html"]) by (rewrite <- !app_assoc; reflexivity).
    rewrite follow_down. destruct (doc_item ((out ++ [stem]) ++ [stem]) [stem] x m Ex) as (pg' & H1 & H2). exists pg'. split; [|exact H2].
    right. apply in_flat_map. exists x. split; assumption.
  - apply in_flat_map in Hin as (x & Hx & Hin). eapply (doc_links x all (out ++ [stem]) [stem]); [|exact Hab|exact Hin|exact Hl].
    intros q' pg' H'. right. apply in_flat_map. exists x. split; assumption.
Qed.

(** * Distinct files *)
Definition item_names ds : list str := flat_map (fun d => match item_name d with Some n => [n] | None => [] end) ds.
Inductive items_unique : list (sdef F) -> Prop :=
| iu ds : NoDup (item_names ds) -> (forall c n sub, In (SModule c n sub) ds -> items_unique sub) -> items_unique ds.

(** Where the pages of a definition lie: a file of the directory, or below the module's own. *)
Definition is_leaf d : Prop := match d with SModule _ _ _ => False | _ => True end.
Lemma doc_prefix d : forall parent path_ q pg, In (q, pg) (doc_pages parent path_ d) ->
  (is_leaf d /\ q = parent ++ item_file d /\ item_name d <> None) \/
  (exists c n ds rest, d = SModule c n ds /\ q = parent ++ n :: rest /\ rest <> []).
Proof.
  induction d as [c n ds IH|d Hd] using sdef_ind2; intros parent path_ q pg Hin.
  - right. exists c, n, ds. cbn [doc_pages] in Hin. destruct Hin as [Hin|Hin].
    + injection Hin as <- _. exists [lit_str "index.html"]. split; [reflexivity|]. split; [reflexivity|discriminate].
    + apply in_flat_map in Hin as (x & Hx & Hin). destruct (IH x Hx _ _ _ _ Hin) as [(H1 & -> & H2)|(c' & n' & ds' & rest & -> & -> & Hr)].
      * exists (item_file x). split; [reflexivity|]. split; [rewrite <- app_assoc; reflexivity|]. destruct x; try discriminate. exfalso. apply H2. reflexivity.
      * exists (n' :: rest). split; [reflexivity|]. split; [rewrite <- app_assoc; reflexivity|discriminate].
  - left. destruct d; cbn [doc_pages] in Hin; try (destruct Hin as [Hin|[]]; injection Hin as <- _; split; [exact I|split; [reflexivity|discriminate]]); [|destruct Hin].
    exfalso. eapply Hd. reflexivity.
Qed.
Lemma leaf_file_inj d d' : is_leaf d -> is_leaf d' -> item_name d <> None -> item_file d = item_file d' -> item_name d = item_name d'.
Proof.
  intros H1 H2 H3 H. assert (G : forall (p : str) a b, p ++ a ++ lit_str ".html" = p ++ b ++ lit_str ".html" -> a = b).
  { intros p a b E. apply app_inv_head in E. exact (stem_inj _ _ _ E). }
  destruct d, d'; try contradiction; cbn [item_file item_name] in *; try discriminate H; injection H as H; try discriminate H;
    try (apply (f_equal (@Some str)); exact (stem_inj _ _ _ H)); exfalso; apply H3; reflexivity.
Qed.
Lemma index_not_leaf d : is_leaf d -> item_file d <> [lit_str "index.html"].
Proof. destruct d; cbn; intros H E; try contradiction; discriminate E. Qed.
Lemma single_file d : is_leaf d -> item_name d <> None -> exists f, item_file d = [f].
Proof. destruct d; cbn; intros H1 H2; try contradiction; eexists; reflexivity. Qed.
Lemma doc_disjoint parent path_ d d' q pg pg' n n' : item_name d = Some n -> item_name d' = Some n' -> n <> n' ->
  In (q, pg) (doc_pages parent path_ d) -> In (q, pg') (doc_pages parent path_ d') -> False.
Proof.
  intros E1 E2 Hne H1 H2. destruct (doc_prefix _ _ _ _ _ H1) as [(L1 & Q1 & N1)|(c1 & n1 & ds1 & r1 & -> & Q1 & R1)];
    destruct (doc_prefix _ _ _ _ _ H2) as [(L2 & Q2 & N2)|(c2 & n2 & ds2 & r2 & -> & Q2 & R2)].
  - rewrite Q1 in Q2. apply app_inv_head in Q2. pose proof (leaf_file_inj d d' L1 L2 N1 Q2). congruence.
  - rewrite Q1 in Q2. apply app_inv_head in Q2. destruct (single_file d L1 N1) as (f & Ef). rewrite Ef in Q2. injection Q2 as _ <-. contradiction.
  - rewrite Q2 in Q1. apply app_inv_head in Q1. destruct (single_file d' L2 N2) as (f & Ef). rewrite Ef in Q1. injection Q1 as _ <-. contradiction.
  - rewrite Q1 in Q2. apply app_inv_head in Q2. cbn in *. congruence.
Qed.
Lemma nodup_app {A} (a b : list A) : NoDup a -> NoDup b -> (forall x, In x a -> ~ In x b) -> NoDup (a ++ b).
Proof.
  induction 1 as [|x a Hx Ha IH]; intros Hb Hd; [exact Hb|]. cbn [app]. constructor.
  - intros Hin. apply in_app_or in Hin as [Hin|Hin]; [contradiction|]. exact (Hd x (or_introl eq_refl) Hin).
  - apply IH; [exact Hb|]. intros y Hy. apply Hd. right. exact Hy.
Qed.
Lemma doc_flat_nodup ds : forall parent path_, NoDup (item_names ds) ->
  (forall d, In d ds -> NoDup (map fst (doc_pages parent path_ d))) -> NoDup (map fst (flat_map (doc_pages parent path_) ds)).
Proof.
  intros parent path_. induction ds as [|d ds IH]; intros Hn Hall; [constructor|]. cbn [flat_map]. rewrite map_app.
  assert (Hds : NoDup (item_names ds)) by (unfold item_names in Hn; cbn [flat_map] in Hn; exact (nodup_tail _ _ Hn)).
  apply nodup_app.
  - apply Hall. left. reflexivity.
  - apply IH; [exact Hds|]. intros x Hx. apply Hall. right. exact Hx.
  - intros q Hq Hq'. apply in_map_iff in Hq as ([q1 p1] & E1 & Hq). apply in_map_iff in Hq' as ([q2 p2] & E2 & Hq'). cbn [fst] in *. subst q1 q2.
    apply in_flat_map in Hq' as (x & Hx & Hq').
    destruct (item_name d) as [n|] eqn:En; [|destruct d; try discriminate; destruct Hq].
    destruct (item_name x) as [m|] eqn:Em; [|destruct x; try discriminate; destruct Hq'].
    refine (doc_disjoint parent path_ d x q p1 p2 n m En Em _ Hq Hq'). intros ->.
    unfold item_names in Hn. cbn [flat_map] in Hn. rewrite En in Hn. cbn [app] in Hn. inversion Hn as [|? ? Hni _]; subst. apply Hni.
    apply in_flat_map. exists x. split; [exact Hx|]. rewrite Em. left. reflexivity.
Qed.
Lemma doc_nodup d : forall parent path_, match d with SModule _ _ ds => items_unique ds | _ => True end -> NoDup (map fst (doc_pages parent path_ d)).
Proof.
  induction d as [c n ds IH|d Hd] using sdef_ind2; intros parent path_ Hu.
  - inversion Hu as [? Hn Hall]; subst. cbn [doc_pages map fst]. constructor.
    + intros Hin. apply in_map_iff in Hin as ([q p] & E & Hin). cbn [fst] in E. subst q. apply in_flat_map in Hin as (x & Hx & Hin). cbn [item_file] in Hin.
      destruct (doc_prefix _ _ _ _ _ Hin) as [(L & Q & N)|(c1 & n1 & d1 & r & _ & Q & R)]; rewrite <- app_assoc in Q; apply app_inv_head in Q; cbn [app] in Q.
      * injection Q as Q. symmetry in Q. exact (index_not_leaf x L Q).
      * injection Q as _ <-. contradiction.
    + apply doc_flat_nodup; [exact Hn|]. intros x Hx. apply IH; [exact Hx|]. destruct x; try exact I. eapply Hall. exact Hx.
  - destruct d; try (repeat constructor; intros []; fail). exfalso. eapply Hd. reflexivity.
Qed.
Lemma doc_schema_nodup out stem ds : items_unique ds -> NoDup (map fst (doc_schema out stem ds)).
Proof.
  intros Hu. inversion Hu as [? Hn Hall]; subst. unfold doc_schema. cbn [map fst]. constructor.
  - intros Hin. apply in_map_iff in Hin as ([q p] & E & Hin). cbn [fst] in E. subst q. apply in_flat_map in Hin as (x & Hx & Hin).
    destruct (doc_prefix _ _ _ _ _ Hin) as [(L & Q & N)|(c1 & n1 & d1 & r & _ & Q & R)]; rewrite <- !app_assoc in Q; apply app_inv_head in Q; cbn [app] in Q.
    + injection Q as Q. symmetry in Q. exact (index_not_leaf x L Q).
    + injection Q as _ <-. contradiction.
  - apply doc_flat_nodup; [exact Hn|]. intros x Hx. apply doc_nodup. destruct x; try exact I. eapply Hall. exact Hx.
Qed.
Lemma doc_schema_prefix out stem ds q pg : In (q, pg) (doc_schema out stem ds) -> exists rest, q = out ++ stem :: rest.
Proof.
  intros [Hin|Hin].
  - injection Hin as <- _. eexists. rewrite <- app_assoc. reflexivity.
  - apply in_flat_map in Hin as (x & Hx & Hin).
    destruct (doc_prefix _ _ _ _ _ Hin) as [(L & -> & N)|(c1 & n1 & d1 & r & _ & -> & R)]; rewrite <- !app_assoc; eexists; reflexivity.
Qed.

(** Simplified schemas with the names of the parsed ones. *)
Lemma simplify_item_name chk (d : pdef F) o n : simplify_definition chk d = Some o -> item_name o = Some n -> introduces d = [n].
Proof.
  destruct d as [c1 n1 ds1|c1 a1 n1 g1 fs1|c1 a1 n1 g1 vs1|c1 n1 g1 t1|c1 n1 t1 v1|segs e]; cbn [simplify_definition introduces]; intros H E.
  - destruct (all_opt (simplify_definition chk) ds1); [|discriminate]. cbn in H. injection H as <-. injection E as <-. reflexivity.
  - destruct (simplify_fields chk fs1); [|discriminate]. cbn in H. injection H as <-. injection E as <-. reflexivity.
  - destruct (simplify_variants chk 1 (p_values vs1)); [|discriminate]. cbn in H. injection H as <-. injection E as <-. reflexivity.
  - injection H as <-. injection E as <-. reflexivity.
  - injection H as <-. injection E as <-. reflexivity.
  - injection H as <-. discriminate.
Qed.
Lemma simplify_items chk (ds : list (pdef F)) out : Forall2 (fun a b => simplify_definition chk a = Some b) ds out ->
  NoDup (introduced ds) -> NoDup (item_names out).
Proof.
  assert (Hsub : forall (ds : list (pdef F)) (out : list (sdef F)), Forall2 (fun a b => simplify_definition chk a = Some b) ds out -> forall n, In n (item_names out) -> In n (introduced ds)).
  { induction 1 as [|d o l l' Hd HF IH]; intros n Hn; [destruct Hn|]. unfold item_names in Hn. cbn [flat_map] in Hn. unfold introduced. cbn [flat_map].
    apply in_or_app. apply in_app_or in Hn as [Hn|Hn]; [left|right; apply IH; exact Hn]. destruct (item_name o) as [m|] eqn:E; [|destruct Hn].
    destruct Hn as [<-|[]]. rewrite (simplify_item_name _ _ _ _ Hd E). left. reflexivity. }
  induction 1 as [|d o l l' Hd HF IH]; intros Hn; [constructor|]. unfold introduced in Hn. cbn [flat_map] in Hn.
  specialize (IH (nodup_tail _ _ Hn)). unfold item_names. cbn [flat_map]. destruct (item_name o) as [m|] eqn:E; [|exact IH]. cbn [app]. constructor; [|exact IH].
  intros Hc. apply (Hsub _ _ HF) in Hc. rewrite (simplify_item_name _ _ _ _ Hd E) in Hn. cbn [app] in Hn. inversion Hn; contradiction.
Qed.
Lemma simplify_items_unique chk (d : sdef F) : forall (ds' : list (pdef F)) c n sub, d = SModule c n sub ->
  all_opt (simplify_definition chk) ds' = Some sub -> names_unique ds' -> items_unique sub.
Proof.
  induction d as [c n ds IH|d Hd] using sdef_ind2; intros ds' c' n' sub E H Hu; [|exfalso; eapply Hd; exact E].
  injection E as <- <- <-. apply all_opt_forall2 in H. destruct Hu as [Hu1 Hu2]. constructor; [eapply simplify_items; eassumption|].
  intros c1 n1 sub Hin. destruct (Forall2_in_r _ _ _ _ H Hin) as (d & Hd & Hs). apply simplify_is_module in Hs as (ds1 & -> & Hs).
  eapply (IH _ Hin); [reflexivity|exact Hs|]. split; [eapply Hu2; constructor; exact Hd|].
  intros c2 n2 sub2 Hw. eapply Hu2. eapply within_module; eassumption.
Qed.
Lemma simplify_schema_items chk (s : pschema F) c ds : simplify_schema chk s = Some (c, ds) -> names_unique (ps_defs s) -> items_unique ds.
Proof.
  unfold simplify_schema. destruct (all_opt (simplify_definition chk) (ps_defs s)) as [l|] eqn:El; [|discriminate]. cbn. intros E. injection E as <- <-.
  apply (simplify_items_unique chk (SModule [] [] l) (ps_defs s) [] [] l eq_refl El).
Qed.
End Links.

(** * C58 *)
(** Every link of every page (apart from the stylesheet) leads to a page that is written by the same run
    and is about the item the link names; whatever the schemas, valid or not, and even if
    the run fails at a later file. *)
Theorem C58_links : forall (F : Type) (parse_f64 : str -> option F) chk out read files q pg l,
  let pages := fst (doc parse_f64 chk out read files) in
  In (q, pg) pages -> In l (pg_links pg) ->
  exists pg', In (follow q (l_up l) (l_to l), pg') pages /\ pg_name pg' = l_text l.
Proof.
  intros F pf chk out read files q pg l. cbn zeta. induction files as [|f files IH]; cbn [doc]; [intros []|].
  destruct (read (f_path f)) as [i|]; [|intros []]. destruct (schema_parse pf i) as [s|]; [|intros []].
  destruct (simplify_schema chk s) as [[c ds]|]; [|intros []]. destruct (doc pf chk out read files) as [ws st]. cbn [fst] in *.
  intros Hin Hl. apply in_app_or in Hin as [Hin|Hin].
  - destruct (doc_schema_links out (f_stem f) ds q pg l Hin Hl) as (pg' & H1 & H2). exists pg'. split; [apply in_or_app; left; exact H1|exact H2].
  - destruct (IH Hin Hl) as (pg' & H1 & H2). exists pg'. split; [apply in_or_app; right; exact H1|exact H2].
Qed.
Print Assumptions C58_links.

(** Every definition has its page: for the definitions of the schema itself and of its modules. *)
Theorem C58_complete : forall (F : Type) (parse_f64 : str -> option F) chk out read files f,
  let '(pages, st) := doc parse_f64 chk out read files in
  st = Success -> In f files -> exists i s c ds, read (f_path f) = Some i /\ schema_parse parse_f64 i = Some s /\ simplify_schema chk s = Some (c, ds)
  /\ (exists pg, In (out ++ [f_stem f; f_stem f; tx "index.html"], pg) pages /\ pg_name pg = f_stem f)
  /\ (forall d n, In d ds -> item_name d = Some n -> exists pg, In (out ++ [f_stem f; f_stem f] ++ item_file d, pg) pages /\ pg_name pg = n)
  /\ (forall p c m d n, smodule_at ds p c m -> In d m -> item_name d = Some n ->
        exists pg, In (out ++ [f_stem f; f_stem f] ++ p ++ item_file d, pg) pages /\ pg_name pg = n).
Proof.
  intros F pf chk out read files f. induction files as [|g files IH]; cbn [doc]; [intros _ []|].
  destruct (read (f_path g)) as [i|] eqn:Ei; [|discriminate]. destruct (schema_parse pf i) as [s|] eqn:Es; [|discriminate].
  destruct (simplify_schema chk s) as [[c ds]|] eqn:Ed; [|discriminate]. destruct (doc pf chk out read files) as [ws st].
  intros Hst Hin. destruct Hin as [->|Hin].
  - exists i, s, c, ds. split; [exact Ei|]. split; [exact Es|]. split; [exact Ed|].
    assert (HD : forall d n, In d ds -> item_name d = Some n ->
       exists pg, In (out ++ [f_stem f; f_stem f] ++ item_file d, pg) (doc_schema out (f_stem f) ds) /\ pg_name pg = n).
    { intros d n Hd Hn. destruct (doc_item ((out ++ [f_stem f]) ++ [f_stem f]) [f_stem f] d n Hn) as (pg & H1 & H2). exists pg. split; [|exact H2].
      right. apply in_flat_map. exists d. split; [exact Hd|].
      replace (out ++ [f_stem f; f_stem f] ++ item_file d) with (((out ++ [f_stem f]) ++ [f_stem f]) ++ item_file d) by (rewrite <- !app_assoc; reflexivity). exact H1. }
    split; [|split].
    + eexists. split; [apply in_or_app; left; left; rewrite <- app_assoc; reflexivity|reflexivity].
    + intros d n Hd Hn. destruct (HD d n Hd Hn) as (pg & H1 & H2). exists pg. split; [apply in_or_app; left; exact H1|exact H2].
    + intros p c' m d n Hm Hd Hn.
      assert (G : forall parent path_, exists pg, In (parent ++ p ++ item_file d, pg) (flat_map (doc_pages parent path_) ds) /\ pg_name pg = n).
      { clear - Hm Hd Hn. induction Hm as [ds c n' sub Hin|ds c n' sub p c' m Hin Hm IH]; intros parent path_.
        - destruct (doc_item (parent ++ [n']) (path_ ++ [n']) d n Hn) as (pg & H1 & H2). exists pg. split; [|exact H2].
          apply in_flat_map. exists (SModule c n' sub). split; [exact Hin|]. cbn [doc_pages]. right. apply in_flat_map. exists d. split; [exact Hd|].
          replace (parent ++ [n'] ++ item_file d) with ((parent ++ [n']) ++ item_file d) by (rewrite <- app_assoc; reflexivity). exact H1.
        - destruct (IH Hd (parent ++ [n']) (path_ ++ [n'])) as (pg & H1 & H2). exists pg. split; [|exact H2].
          apply in_flat_map. exists (SModule c n' sub). split; [exact Hin|]. cbn [doc_pages]. right.
          replace (parent ++ (n' :: p) ++ item_file d) with ((parent ++ [n']) ++ p ++ item_file d) by (rewrite <- app_assoc; reflexivity). exact H1. }
      destruct (G ((out ++ [f_stem f]) ++ [f_stem f]) [f_stem f]) as (pg & H1 & H2). exists pg. split; [|exact H2].
      apply in_or_app. left. right.
      replace (out ++ [f_stem f; f_stem f] ++ p ++ item_file d) with (((out ++ [f_stem f]) ++ [f_stem f]) ++ p ++ item_file d) by (rewrite <- !app_assoc; reflexivity). exact H1.
  - destruct (IH Hst Hin) as (i' & s' & c' & ds' & K1 & K2 & K3 & (pg & K4 & K4') & K5 & K6). exists i', s', c', ds'. repeat (split; [assumption|]).
    split; [exists pg; split; [apply in_or_app; right; exact K4|exact K4']|]. split.
    + intros d n Hd Hn. destruct (K5 d n Hd Hn) as (pg' & H1 & H2). exists pg'. split; [apply in_or_app; right; exact H1|exact H2].
    + intros p c2 m d n Hm Hd Hn. destruct (K6 p c2 m d n Hm Hd Hn) as (pg' & H1 & H2). exists pg'. split; [apply in_or_app; right; exact H1|exact H2].
Qed.
Print Assumptions C58_complete.

(** No page overwrites another, if the schemas are valid and their files have different names. *)
Theorem C58_distinct_partial : forall (F : Type) (parse_f64 : str -> option F) chk out read files,
  distinct_stems files ->
  (forall f i s, In f files -> read (f_path f) = Some i -> schema_parse parse_f64 i = Some s -> valid chk (ps_defs s)) ->
  NoDup (map fst (fst (doc parse_f64 chk out read files))).
Proof.
  intros F pf chk out read files. induction files as [|f files IH]; intros Hd Hv; cbn [doc]; [constructor|].
  destruct (read (f_path f)) as [i|] eqn:Ei; [|constructor]. destruct (schema_parse pf i) as [s|] eqn:Es; [|constructor].
  destruct (simplify_schema chk s) as [[c ds]|] eqn:Ed; [|constructor].
  unfold distinct_stems in Hd. cbn [map] in Hd. inversion Hd as [|? ? Hni Hd']; subst.
  specialize (IH Hd' ltac:(intros g j t Hg; apply Hv; right; exact Hg)).
  assert (Hpre : forall q pg, In (q, pg) (fst (doc pf chk out read files)) -> exists g rest, In g files /\ q = out ++ f_stem g :: rest).
  { clear. induction files as [|g files IH]; cbn [doc]; intros q pg Hin; [destruct Hin|].
    destruct (read (f_path g)) as [i|]; [|destruct Hin]. destruct (schema_parse pf i) as [s|]; [|destruct Hin].
    destruct (simplify_schema chk s) as [[c ds]|]; [|destruct Hin]. destruct (doc pf chk out read files) as [ws st]. cbn [fst] in *.
    apply in_app_or in Hin as [Hin|Hin].
    - apply doc_schema_prefix in Hin as (rest & ->). exists g, rest. split; [left; reflexivity|reflexivity].
    - destruct (IH q pg Hin) as (h & rest & Hh & ->). exists h, rest. split; [right; exact Hh|reflexivity]. }
  destruct (doc pf chk out read files) as [ws st]. cbn [fst] in *. rewrite map_app. apply nodup_app; [|exact IH|].
  - apply doc_schema_nodup. eapply simplify_schema_items; [exact Ed|]. destruct (Hv f i s (or_introl eq_refl) Ei Es) as [V1 V2]. split; [exact V1|].
    intros c' n' sub Hw. destruct (V2 _ Hw) as (Hns & _). apply Hns. cbn. left. reflexivity.
  - intros q Hq Hq'. apply in_map_iff in Hq as ([q1 p1] & E1 & Hq). apply in_map_iff in Hq' as ([q2 p2] & E2 & Hq'). cbn [fst] in *. subst q1 q2.
    apply doc_schema_prefix in Hq as (r1 & ->). destruct (Hpre _ _ Hq') as (g & r2 & Hg & E). apply app_inv_head in E. injection E as E _.
    apply Hni. rewrite E. apply in_map. exact Hg.
Qed.
Print Assumptions C58_distinct_partial.

(** Refuted without validation, which this command does not do: of two structs of the same name one is lost. *)
Definition dup_disk : path -> option str := fun p => if path_eqb p [tx "a.mabo"] then Some (tx "struct A(u8) struct A(u16)") else None.
Theorem C58_distinct_refuted : forall (F : Type) (parse_f64 : str -> option F) chk out,
  let '(pages, st) := doc parse_f64 chk out dup_disk [File [] (tx "a")] in
  st = Success /\ map fst pages = [out ++ [tx "a"; tx "a"; tx "index.html"]; out ++ [tx "a"; tx "a"; tx "struct.A.html"]; out ++ [tx "a"; tx "a"; tx "struct.A.html"]].
Proof.
  intros F pf chk out. cbn [doc].
  assert (E1 : dup_disk (f_path (File [] (tx "a"))) = Some (tx "struct A(u8) struct A(u16)")) by reflexivity. rewrite E1.
  assert (E2 : schema_parse pf (tx "struct A(u8) struct A(u16)")
    = Some (PSchema [] [PStruct [] [] (tx "A") None (FUnnamed (Punct [] (UField (PPrim PrU8) None) false));
                        PStruct [] [] (tx "A") None (FUnnamed (Punct [] (UField (PPrim PrU16) None) false))])) by (vm_compute; reflexivity).
  rewrite E2. assert (E3 : exists a b, simplify_schema (F := F) chk (PSchema [] [PStruct [] [] (tx "A") None (FUnnamed (Punct [] (UField (PPrim PrU8) None) false));
                        PStruct [] [] (tx "A") None (FUnnamed (Punct [] (UField (PPrim PrU16) None) false))]) = Some ([], [SStruct [] (tx "A") [] a; SStruct [] (tx "A") [] b]))
    by (destruct chk; eexists; eexists; reflexivity).
  destruct E3 as (a & b & E3). rewrite E3. split; [reflexivity|]. cbn [doc_schema flat_map doc_pages item_file map fst app f_stem]. rewrite <- !app_assoc. reflexivity.
Qed.
Print Assumptions C58_distinct_refuted.

(** Refuted: every page refers to a stylesheet, and no run writes one. *)
Theorem C58_stylesheet_refuted : forall (F : Type) (parse_f64 : str -> option F) chk out read files q pg q' pg',
  let pages := fst (doc parse_f64 chk out read files) in
  In (q, pg) pages -> In (q', pg') pages -> follow q (pg_style pg) [tx "assets"; tx "style.css"] <> q'.
Proof.
  intros F pf chk out read files q pg q' pg' pages _ H' E. subst q'. subst pages.
  assert (G : ends_with (follow q (pg_style pg) [tx "assets"; tx "style.css"]) 108).
  { revert H'. generalize (follow q (pg_style pg) [tx "assets"; tx "style.css"]) as p. intros p Hin.
    induction files as [|f files IH]; cbn [doc] in Hin; [destruct Hin|].
    destruct (read (f_path f)) as [i|]; [|destruct Hin]. destruct (schema_parse pf i) as [s|]; [|destruct Hin].
    destruct (simplify_schema chk s) as [[c ds]|]; [|destruct Hin]. destruct (doc pf chk out read files) as [ws st]. cbn [fst] in *.
    apply in_app_or in Hin as [Hin|Hin]; [|exact (IH Hin)]. clear - Hin.
    destruct Hin as [Hin|Hin]; [injection Hin as <- _; exists (out ++ [f_stem f; f_stem f]), (tx "index.htm"); rewrite <- !app_assoc; reflexivity|].
    apply in_flat_map in Hin as (x & Hx & Hin). revert Hin. generalize ((out ++ [f_stem f]) ++ [f_stem f]) as parent. generalize [f_stem f] as path_.
    clear Hx. induction x as [c n l IH|x Hd] using sdef_ind2; intros path_ parent Hin.
    - cbn [doc_pages] in Hin. destruct Hin as [Hin|Hin]; [injection Hin as <- _; exists (parent ++ [n]), (tx "index.htm"); rewrite <- app_assoc; reflexivity|].
      apply in_flat_map in Hin as (y & Hy & Hin). exact (IH y Hy _ _ Hin).
    - destruct x; cbn [doc_pages item_file] in Hin; try (destruct Hin as [Hin|[]]; injection Hin as <- _).
      + exfalso. eapply Hd. reflexivity.
      + exists parent, (lit_str "struct." ++ name ++ lit_str ".htm"). rewrite <- !app_assoc. reflexivity.
      + exists parent, (lit_str "enum." ++ name ++ lit_str ".htm"). rewrite <- !app_assoc. reflexivity.
      + exists parent, (lit_str "alias." ++ name ++ lit_str ".htm"). rewrite <- !app_assoc. reflexivity.
      + exists parent, (lit_str "constant." ++ name ++ lit_str ".htm"). rewrite <- !app_assoc. reflexivity.
      + destruct Hin. }
  assert (G' : ends_with (follow q (pg_style pg) [tx "assets"; tx "style.css"]) 115).
  { unfold follow. exists (firstn (length q - 1 - pg_style pg) q ++ [tx "assets"]), (tx "style.cs"). rewrite <- app_assoc. reflexivity. }
  pose proof (ends_ne _ _ _ _ G G' eq_refl). discriminate.
Qed.
Print Assumptions C58_stylesheet_refuted.

(** A schema with a module: its pages, and a link up from the struct in the module. *)
Example C58_ex :
  let pages := fst (doc (F := unit) (fun _ => None) true [tx "out"] good_disk good_files) in
  map fst pages = [[tx "out"; tx "m"; tx "m"; tx "index.html"]; [tx "out"; tx "m"; tx "m"; tx "i"; tx "index.html"];
                   [tx "out"; tx "m"; tx "m"; tx "i"; tx "struct.K.html"]; [tx "out"; tx "m"; tx "m"; tx "struct.N.html"];
                   [tx "out"; tx "s"; tx "s"; tx "index.html"]; [tx "out"; tx "s"; tx "s"; tx "struct.P.html"]]
  /\ In ([tx "out"; tx "m"; tx "m"; tx "i"; tx "struct.K.html"], Page (tx "K") [Link (tx "m") 1 [tx "index.html"]; Link (tx "i") 0 [tx "index.html"]] 2) pages
  /\ distinct_stems good_files.
Proof.
  split; [vm_compute; reflexivity|]. split; [vm_compute; right; right; left; reflexivity|]. repeat constructor; cbn; intuition discriminate.
Qed.
