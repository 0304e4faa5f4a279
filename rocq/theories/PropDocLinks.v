(** C94, continued: the links of the documentation pages are the links of Tools.v (C58), and lead to these pages. *)
From Verif Require Import Base Syntax Parser Printer Compiler Meta Tools DocText Html DocPage PropDocPage.
From Verif Require PropGoOut PropDoc ToolsSpec.
Require Import Permutation.
Require Coq.Strings.String.
Import Coq.Strings.String.StringSyntax.
Local Open Scope N_scope.

(** The address of a link, relative to its page. *)
Fixpoint slashes (l : list str) : str := match l with [] => [] | [x] => x | x :: l => x ++ tx "/" ++ slashes l end.
Definition address (up : nat) (to : list str) : str := concat (repeat (tx "../") up) ++ slashes to.
(** The links and the stylesheet that a reader of a page finds: those in front of the name of the item, and those of the tables (which have a class,
    and are sorted by kind). *)
Definition links_ok (p : page) (text : str) : Prop :=
  found (tx "link rel=""stylesheet"" href=""") text = [(address (pg_style p) [tx "assets"; tx "style.css"] ++ tx """ /", [10; 10; 32; 32; 32; 32])] /\
  exists above table,
    found (tx "a href=""") text = map (fun l => (address (l_up l) (l_to l) ++ [34], l_text l)) above /\
    found (tx "a class=""text-lg name-") text = map (fun '(cls, l) => (cls ++ tx """ href=""" ++ address (l_up l) (l_to l) ++ [34], l_text l)) table /\
    Permutation (above ++ map snd table) (pg_links p).

Lemma crumbs_links p k : crumb_found p k = map (fun l => (address (l_up l) (l_to l) ++ [34], l_text l)) (crumbs p k).
Proof.
  unfold crumb_found, crumbs. generalize (combine (seq 0 k) p). intros l. induction l as [|[i s] l IH]; [reflexivity|].
  cbn [flat_map map]. rewrite IH. cbn [app]. f_equal. unfold crumb, address, ups. cbn [l_up l_to l_text slashes]. rewrite <- app_assoc. reflexivity.
Qed.
(** The tables. *)
Definition cell {F} (k : kind) (d : sdef F) : list (str * link) :=
  match in_table k d with Some (n, _) => [(kind_class k, Link n 0 (item_file d))] | None => [] end.
Definition cells {F} (ds : list (sdef F)) : list (str * link) := flat_map (fun k => flat_map (cell k) ds) kinds.
Lemma cells_rows {F} (ds : list (sdef F)) : entries ds = map (fun '(cls, l) => (cls ++ tx """ href=""" ++ address (l_up l) (l_to l) ++ [34], l_text l)) (cells ds).
Proof.
  rewrite <- rows_entries. unfold rows_found, cells. generalize kinds. intros ks. induction ks as [|k ks IH]; [reflexivity|]. cbn [flat_map]. rewrite map_app, IH. f_equal.
  induction ds as [|d ds IHd]; [reflexivity|]. cbn [flat_map]. rewrite map_app. f_equal; [|apply IHd].
  2: { clear. induction ks as [|k' ks IH]; [reflexivity|]. cbn [flat_map]. rewrite map_app, IH. f_equal. clear IH.
       induction ds as [|d' ds IH]; [reflexivity|]. cbn [flat_map]. rewrite map_app, IH. f_equal.
       unfold row_found, cell. destruct k', d'; try reflexivity; cbn; rewrite <- ?app_assoc; reflexivity. }
  unfold row_found, cell. destruct k, d; try reflexivity; cbn; rewrite <- ?app_assoc; reflexivity.
Qed.
Lemma flat_map_split {A B} (f g : A -> list B) l : Permutation (flat_map (fun x => f x ++ g x) l) (flat_map f l ++ flat_map g l).
Proof.
  induction l as [|x l IH]; [constructor|]. cbn [flat_map]. rewrite IH, <- !app_assoc. apply Permutation_app_head. rewrite !app_assoc. apply Permutation_app_tail. apply Permutation_app_comm.
Qed.
Lemma cells_links {F} (ds : list (sdef F)) : Permutation (map snd (cells ds)) (item_links ds).
Proof.
  induction ds as [|d ds IH]; [constructor|].
  assert (E : Permutation (cells (d :: ds)) (flat_map (fun k => cell k d) kinds ++ cells ds)) by (apply flat_map_split).
  rewrite E, map_app. cbn [item_links flat_map]. apply Permutation_app; [|exact IH]. destruct d; reflexivity.
Qed.

Section Links.
Context {F : Type}.
Variable fmt_f64 : F -> str.
Variable esc_u : N -> bool.
Variable blank : str -> bool.
Variable markdown : str -> str.
Variable size_html : nat -> sty -> str.
Hypothesis Hm : forall s, fragment true (markdown s).
Hypothesis Hs : forall n t, fragment true (size_html n t).
Definition file_ok (a : path * page) (b : path * list piece) : Prop :=
  fst b = fst a /\ found (tx "title") (page_text (snd b)) = [([], pg_name (snd a) ++ tx " - Mabo")] /\ links_ok (snd a) (page_text (snd b)).
Lemma block_file q p q' ps A ls tb : block true [] ps [] A -> q' = q ->
  A QTitle = [([], pg_name p ++ tx " - Mabo")] -> A QStyle = [style (ups (pg_style p))] -> A QLink = map (fun l => (address (l_up l) (l_to l) ++ [34], l_text l)) ls ->
  A QRow = map (fun '(cls, l) => (cls ++ tx """ href=""" ++ address (l_up l) (l_to l) ++ [34], l_text l)) tb ->
  Permutation (ls ++ map snd tb) (pg_links p) -> file_ok (q, p) (q', ps).
Proof.
  intros H Hq H1 H2 H3 H4 H5. split; [exact Hq|]. cbn [fst snd]. split.
  - rewrite <- H1. exact (block_found true _ _ QTitle ltac:(discriminate) H).
  - split.
    + transitivity (A QStyle); [exact (block_found true _ _ QStyle ltac:(discriminate) H)|]. rewrite H2. unfold style, address, ups. cbn [slashes]. rewrite <- !app_assoc. reflexivity.
    + exists ls, tb. rewrite <- H3, <- H4. split; [exact (block_found true _ _ QLink (fun _ => eq_refl) H)|]. split; [exact (block_found true _ _ QRow ltac:(discriminate) H)|exact H5].
Qed.
Lemma files_ok d : forall parent path_, Forall2 file_ok (doc_pages parent path_ d) (page_files fmt_f64 esc_u blank markdown size_html parent path_ d).
Proof.
  induction d as [c n ds IH|d Hd] using PropGoOut.sdef_ind2; intros parent path_.
  - cbn [doc_pages page_files]. constructor.
    + eapply block_file; [apply (module_block true); exact Hm|reflexivity|reflexivity|reflexivity|apply crumbs_links| |].
      * cbn [module_found]. rewrite rows_entries. apply cells_rows.
      * cbn [pg_links]. apply Permutation_app_head, cells_links.
    + apply Forall2_flat. intros x Hx. apply (IH x Hx).
  - destruct d; try (exfalso; eapply Hd; reflexivity); cbn [doc_pages page_files]; [| | | |constructor].
    all: constructor; [|constructor].
    + eapply block_file with (tb := []); [apply (struct_block true); assumption|reflexivity|reflexivity|reflexivity|apply crumbs_links|reflexivity|]. cbn [map pg_links]. rewrite app_nil_r. reflexivity.
    + eapply block_file with (tb := []); [apply (enum_block true); assumption|reflexivity|reflexivity|reflexivity|apply crumbs_links|reflexivity|]. cbn [map pg_links]. rewrite app_nil_r. reflexivity.
    + eapply block_file with (tb := []); [apply (alias_block true); assumption|reflexivity|reflexivity|reflexivity|apply crumbs_links|reflexivity|]. cbn [map pg_links]. rewrite app_nil_r. reflexivity.
    + eapply block_file with (tb := []); [apply (const_block true); assumption|reflexivity|reflexivity|reflexivity|apply crumbs_links|reflexivity|]. cbn [map pg_links]. rewrite app_nil_r. reflexivity.
Qed.
Lemma schema_ok out stem c ds : Forall2 file_ok (doc_schema out stem ds) (schema_files fmt_f64 esc_u blank markdown size_html out stem c ds).
Proof.
  unfold doc_schema, schema_files. constructor.
  - eapply block_file with (ls := []); [apply (index_block true); exact Hm|rewrite <- app_assoc; reflexivity|reflexivity|reflexivity|reflexivity| |].
    + cbn [index_found]. rewrite rows_entries. apply cells_rows.
    + cbn [pg_links app]. apply cells_links.
  - rewrite <- app_assoc. cbn [app]. apply Forall2_flat. intros d _. apply files_ok.
Qed.
End Links.
(** The files are those of Tools.v, in the same order, and a reader of each finds its title, its stylesheet and exactly its links there (when the
    comments have no links of their own). *)
Theorem C94_files : forall (F : Type) (fmt_f64 : F -> str) esc_u blank markdown size_html,
  (forall s, fragment true (markdown s)) -> (forall n t, fragment true (size_html n t)) -> forall out stem c (ds : list (sdef F)),
  Forall2 (fun '(q, p) '(q', ps) => q' = q /\ found (tx "title") (page_text ps) = [([], pg_name p ++ tx " - Mabo")] /\ links_ok p (page_text ps))
    (doc_schema out stem ds) (schema_files fmt_f64 esc_u blank markdown size_html out stem c ds).
Proof.
  intros F fmt_f64 esc_u blank markdown size_html Hm Hs out stem c ds. pose proof (schema_ok fmt_f64 esc_u blank markdown size_html Hm Hs out stem c ds) as H.
  induction H as [|[q p] [q' ps] a b H _ IH]; constructor; [exact H|exact IH].
Qed.
Print Assumptions C94_files.

(** Where a link leads: to a file whose title is the text of the link. *)
Definition leads {X} (files : list (path * list X)) (read : list X -> str) (q : path) (up : nat) (to : list str) (text : str) : Prop :=
  exists ps, In (ToolsSpec.follow q up to, ps) files /\ found (tx "title") (read ps) = [([], text ++ tx " - Mabo")].
Lemma Forall2_in {A B} (R : A -> B -> Prop) l m : Forall2 R l m -> (forall b, In b m -> exists a, In a l /\ R a b) /\ (forall a, In a l -> exists b, In b m /\ R a b).
Proof.
  induction 1 as [|a b l m H _ [I1 I2]]; split; [intros ? []|intros ? []| |].
  - intros x [<-|Hx]; [exists a; split; [left; reflexivity|exact H]|]. destruct (I1 x Hx) as (y & Hy & K). exists y. split; [right; exact Hy|exact K].
  - intros x [<-|Hx]; [exists b; split; [left; reflexivity|exact H]|]. destruct (I2 x Hx) as (y & Hy & K). exists y. split; [right; exact Hy|exact K].
Qed.
(** Every link that a reader finds in a file (without a class, above the name of the item; or with one, in a table) leads to a file of the documentation
    of the same schema, and that file is titled with the text of the link. *)
Theorem C94_links_lead : forall (F : Type) (fmt_f64 : F -> str) esc_u blank markdown size_html,
  (forall s, fragment true (markdown s)) -> (forall n t, fragment true (size_html n t)) -> forall out stem c (ds : list (sdef F)) q ps,
  let files := schema_files fmt_f64 esc_u blank markdown size_html out stem c ds in
  In (q, ps) files ->
  (forall r text, In (r, text) (found (tx "a href=""") (page_text ps)) -> exists up to, r = address up to ++ tx """" /\ leads files page_text q up to text) /\
  (forall r text, In (r, text) (found (tx "a class=""text-lg name-") (page_text ps)) -> exists cls up to, r = cls ++ tx """ href=""" ++ address up to ++ tx """" /\ leads files page_text q up to text).
Proof.
  intros F fmt_f64 esc_u blank markdown size_html Hm Hs out stem c ds q ps files Hin.
  pose proof (C94_files F fmt_f64 esc_u blank markdown size_html Hm Hs out stem c ds) as H. fold files in H. apply Forall2_in in H. destruct H as [H1 H2].
  destruct (H1 _ Hin) as ([q0 p] & Hp & -> & _ & _ & above & table & Ha & Ht & Hperm).
  assert (L : forall l, In l (above ++ map snd table) -> leads files page_text q0 (l_up l) (l_to l) (l_text l)).
  { intros l Hl. pose proof (Permutation_in _ Hperm Hl) as Hl2. destruct (PropDoc.doc_schema_links out stem ds q0 p l Hp Hl2) as (pg' & K1 & K2).
    destruct (H2 _ K1) as ([q1 ps1] & J1 & J2 & J3 & _). exists ps1. split; [rewrite <- J2; exact J1|]. rewrite J3, K2. reflexivity. }
  split; intros r text Hr.
  - rewrite Ha in Hr. apply in_map_iff in Hr. destruct Hr as (l & E & Hl). injection E as <- <-. exists (l_up l), (l_to l). split; [reflexivity|]. apply L, in_or_app. left. exact Hl.
  - rewrite Ht in Hr. apply in_map_iff in Hr. destruct Hr as ([cls l] & E & Hl). injection E as <- <-. exists cls, (l_up l), (l_to l). split; [reflexivity|]. apply L, in_or_app. right. apply in_map_iff. exists (cls, l). split; [reflexivity|exact Hl].
Qed.
Print Assumptions C94_links_lead.
