(** Property theorems C75: which schemas give Rust code that can be parsed, and how a build ends. *)
From Verif Require Import Base Syntax Parser ParserSpec Compiler CompilerSpec CompilerClaims CompilerProofs CompilerMore GenProofs Resolve ResolveSpec ProjectSpec
  Const Tools ToolsSpec ToolsProofs PropParser ResolveClaims PropResolve PropBuild RustTokens RustTokensProofs.
Require Coq.Strings.String.
Import Coq.Strings.String.StringSyntax.
Local Open Scope N_scope.

(** * Specification: names that mean something else in Rust *)

(** The keywords of The Rust Reference, edition 2021: strict ones and reserved ones. *)
Definition rust_keywords : list str :=
  [w "as"; w "break"; w "const"; w "continue"; w "crate"; w "else"; w "enum"; w "extern"; w "false"; w "fn"; w "for"; w "if"; w "impl"; w "in"; w "let"; w "loop"; w "match";
   w "mod"; w "move"; w "mut"; w "pub"; w "ref"; w "return"; w "self"; w "Self"; w "static"; w "struct"; w "super"; w "trait"; w "true"; w "type"; w "unsafe"; w "use"; w "where"; w "while";
   w "async"; w "await"; w "dyn"; w "abstract"; w "become"; w "box"; w "do"; w "final"; w "macro"; w "override"; w "priv"; w "typeof"; w "unsized"; w "virtual"; w "yield"; w "try"].
Definition reserved (n : str) : Prop := In n rust_keywords.
Section Spec.
Context {F : Type}.
(** A definition that uses a keyword as a name.  [try] is let through as the name of a module; the names that have a meaning at the start
    of a path, and [try], are let through in imports. *)
Definition takes_keyword (d : pdef F) : Prop :=
  match d with
  | PModule _ n _ => reserved n /\ n <> w "try"
  | PStruct _ _ n g fs => n = w "Self" \/ In (w "Self") (parameters d) \/ exists f, In f (field_names fs) /\ reserved f
  | PEnum _ _ n g vs => n = w "Self" \/ In (w "Self") (parameters d)
      \/ exists v, In v (p_values vs) /\ (pv_name v = w "Self" \/ exists f, In f (field_names (pv_fields v)) /\ reserved f)
  | PAlias _ n g _ => n = w "Self" \/ exists ps, g = Some ps /\ In (w "Self") (p_values ps)
  | PConst _ _ _ _ => False
  | PImport segs e => e = Some (w "Self") \/ exists s, In s segs /\ reserved s /\ ~ In s [w "self"; w "super"; w "crate"; w "try"]
  end.
(** A definition with a reference [try::..]. *)
Definition starts_with_try (d : pdef F) : Prop :=
  exists t path n g, In t (mentioned d) /\ part anywhere (PExternal (w "try" :: path) n g) t.
(** No definition of the schema does either. *)
Definition names_free (ds : list (pdef F)) : Prop := forall d, within d ds -> ~ takes_keyword d /\ ~ starts_with_try d.
(** The paths of references consist of names of modules of the schema. *)
Definition paths_known (ds : list (pdef F)) : Prop := forall d t path n g s, within d ds -> In t (mentioned d) ->
  part anywhere (PExternal path n g) t -> In s path -> exists c sub, within (PModule c s sub) ds.
End Spec.

(** * Keywords *)
Lemma reserved_iff n : reserved n <-> is_ident n = false.
Proof.
  unfold reserved, is_ident, one_of. rewrite negb_false_iff, existsb_exists.
  assert (H : forall l, (exists x, In x l /\ str_eqb n x = true) <-> In n l).
  { intros l. split; [intros (x & Hx & E); apply str_eqb_eq in E; subst; exact Hx|]. intros Hn. exists n. split; [exact Hn|]. apply str_eqb_eq. reflexivity. }
  rewrite H. assert (Hi : incl rust_keywords keywords /\ incl keywords rust_keywords).
  { split; intros x Hx; vm_compute in Hx; vm_compute; repeat (destruct Hx as [<-|Hx]; [tauto|]); destruct Hx. }
  destruct Hi as [H1 H2]. split; [apply H1|apply H2].
Qed.
Lemma one_of_iff l n : one_of l n = true <-> In n l.
Proof.
  unfold one_of. rewrite existsb_exists. split; [intros (x & Hx & E); apply str_eqb_eq in E; subst; exact Hx|].
  intros Hn. exists n. split; [exact Hn|]. apply str_eqb_eq. reflexivity.
Qed.
(** The only keyword with a capital letter. *)
Lemma reserved_upper n : reserved n -> (match n with c :: _ => upper c | [] => False end) -> n = w "Self".
Proof.
  intros H Hu. unfold reserved, rust_keywords in H. cbv [In] in H. unfold upper in Hu.
  repeat (destruct H as [<-|H]; [try reflexivity; exfalso; revert Hu; vm_compute; intros [H1 H2]; auto|]). destruct H.
Qed.
Lemma self_reserved : reserved (w "Self").
Proof. vm_compute. tauto. Qed.
Lemma named_upper more n : named upper more n -> match n with c :: _ => upper c | [] => False end.
Proof. intros (c & r & -> & H & _). exact H. Qed.
Lemma type_name_ident n : TypeName n -> (is_ident n = true <-> n <> w "Self").
Proof.
  intros H. split.
  - intros Hi ->. assert (E := proj1 (reserved_iff _) self_reserved). congruence.
  - intros Hn. destruct (is_ident n) eqn:E; [reflexivity|]. apply reserved_iff in E. destruct Hn. apply reserved_upper; [exact E|]. exact (named_upper _ _ H).
Qed.
Lemma const_name_ident n : ConstName n -> is_ident n = true.
Proof.
  intros H. destruct (is_ident n) eqn:E; [reflexivity|]. apply reserved_iff in E. apply reserved_upper in E; [|exact (named_upper _ _ H)]. subst n.
  destruct H as (c & r & E & _ & Hr). vm_compute in E. injection E as <- <-. inversion Hr as [|? ? He _]; subst. unfold upper, digit, underscore in He. lia.
Qed.
Lemma mod_name_iff n : mod_name n = true <-> ~ (reserved n /\ n <> w "try").
Proof.
  unfold mod_name. rewrite orb_true_iff, reserved_iff, str_eqb_eq. destruct (is_ident n) eqn:E.
  - split; [intros _ [? _]; discriminate|auto].
  - split; [intros [H|H]; [discriminate|]; intros [_ Hn]; apply Hn; exact H|]. intros H. right.
    destruct (str_eqb n (w "try")) eqn:Et; [apply str_eqb_eq; exact Et|]. destruct H. split; [reflexivity|]. intros Hn. rewrite Hn in Et. vm_compute in Et. discriminate.
Qed.
Lemma use_name_iff n : use_name n = true <-> ~ (reserved n /\ ~ In n [w "self"; w "super"; w "crate"; w "try"]).
Proof.
  unfold use_name. rewrite orb_true_iff, reserved_iff, one_of_iff. change [tx "self"; tx "super"; tx "crate"; tx "try"] with [w "self"; w "super"; w "crate"; w "try"].
  destruct (is_ident n) eqn:E.
  - split; [intros _ [? _]; discriminate|auto].
  - split; [intros [H|H]; [discriminate|]; intros [_ Hn]; apply Hn; exact H|]. intros H. right.
    destruct (one_of [w "self"; w "super"; w "crate"; w "try"] n) eqn:Et; [apply one_of_iff; exact Et|]. destruct H. split; [reflexivity|]. intros Hn. apply one_of_iff in Hn. congruence.
Qed.
Lemma ref_segment n first : RefName n -> segment_name first n = true /\ takes_args n = true.
Proof.
  intros H. apply named_upper in H. unfold segment_name, takes_args. split.
  - destruct (is_ident n) eqn:E; [reflexivity|]. apply reserved_iff, reserved_upper in E; [|exact H]. subst n. destruct first; vm_compute; reflexivity.
  - destruct (one_of _ n) eqn:E; [|reflexivity]. apply one_of_iff in E. unfold upper in H. repeat (destruct E as [<-|E]; [exfalso; revert H; vm_compute; intros [H1 H2]; auto|]). destruct E.
Qed.

(** * Types *)
Lemma ok_ty_no_try u t : part anywhere u t -> ok_ty (simplify_type t) = true -> ok_ty (simplify_type u) = true.
Proof.
  induction 1 as [|c t _ Hc Hp IH]; [trivial|]. intros H. apply IH. clear IH Hp.
  destruct t as [p|t|k v|t|t|t|ts|t n|path name [ts|]]; rewrite ?simplify_tuple, ?simplify_external in H; cbn [simplify_type ok_ty children] in *;
    try (destruct Hc as [<-|[]]; exact H); try (destruct Hc).
  - subst c. apply andb_true_iff in H. apply H.
  - destruct H0 as [<-|[]]. apply andb_true_iff in H. apply H.
  - rewrite forallb_forall in H. apply H. apply in_map. exact Hc.
  - apply andb_true_iff in H as [_ H]. rewrite forallb_forall in H. apply H. apply in_map. exact Hc.
Qed.
Lemma simplify_external_any path n g : exists gs, simplify_type (PExternal path n g) = SExternal path n gs.
Proof. destruct g as [ts|]; [rewrite simplify_external|]; eexists; reflexivity. Qed.
Lemma try_refused path n g : ok_ty (simplify_type (PExternal (w "try" :: path) n g)) = false.
Proof. destruct (simplify_external_any (w "try" :: path) n g) as [gs ->]. reflexivity. Qed.
Lemma unnamed_no_try st t path n g : ok_unnamed st (simplify_type t) = true -> ~ part anywhere (PExternal (w "try" :: path) n g) t.
Proof.
  intros H Hp. unfold ok_unnamed in H. apply orb_true_iff in H as [H|H].
  - apply (ok_ty_no_try _ _ Hp) in H. rewrite try_refused in H. discriminate.
  - apply andb_true_iff in H as [_ H]. inversion Hp as [E|c t' _ Hc Hp']; subst.
    + destruct (simplify_external_any (w "try" :: path) n g) as [gs E]. rewrite E in H. apply andb_true_iff in H as [H _]. vm_compute in H. discriminate.
    + destruct t as [p|t|k v|t|t|t|ts|t m|[|s pa] name [ts|]]; rewrite ?simplify_tuple, ?simplify_external in H; cbn [simplify_type] in H; try discriminate.
      * apply andb_true_iff in H as [_ H]. apply andb_true_iff in H as [_ H].
        rewrite forallb_forall in H. specialize (H (simplify_type c) (in_map _ _ _ Hc)). apply (ok_ty_no_try _ _ Hp') in H. rewrite try_refused in H. discriminate.
      * destruct Hc.
Qed.

Definition segments_ok (path : list str) : Prop := match path with [] => True | s :: r => segment_name true s = true /\ forall x, In x r -> segment_name false x = true end.
Lemma path_ok_of path name has : segments_ok path -> RefName name -> path_ok true path name has = true.
Proof.
  intros Hs Hn. assert (Ht : forall r first, (forall x, In x r -> segment_name false x = true) -> r <> [] \/ first = false -> path_ok false r name has = true).
  { intros r first Hr _. clear Hs. induction r as [|s r IH]; cbn [path_ok].
    - destruct (ref_segment name false Hn) as [-> ->]. rewrite orb_true_r. reflexivity.
    - rewrite (Hr s (or_introl eq_refl)), IH; [reflexivity|]. intros x Hx. apply Hr. right. exact Hx. }
  destruct path as [|s r]; cbn [path_ok].
  - destruct (ref_segment name true Hn) as [-> ->]. rewrite orb_true_r. reflexivity.
  - destruct Hs as [-> Hr]. rewrite (Ht r false Hr (or_intror eq_refl)). reflexivity.
Qed.
Lemma fold_types (l : list pty) x b : fold_right (fun t P => TypeOk t /\ P) True l /\ TypeOk x -> forall t, In t (p_values (Punct l x b)) -> TypeOk t.
Proof.
  intros [H Hx] t Ht. unfold p_values in Ht. cbn [p_init p_last] in Ht. apply in_app_or in Ht as [Ht|[<-|[]]]; [|exact Hx].
  induction l as [|y l IH]; [destruct Ht|]. destruct H as [H1 H2]. destruct Ht as [<-|Ht]; [exact H1|apply IH; assumption].
Qed.
Lemma ok_ty_of t : TypeOk t -> (forall path n g, part anywhere (PExternal path n g) t -> segments_ok path) -> ok_ty (simplify_type t) = true.
Proof.
  assert (Step : forall t c, In c (children t) -> (forall path n g, part anywhere (PExternal path n g) t -> segments_ok path) ->
     forall path n g, part anywhere (PExternal path n g) c -> segments_ok path).
  { intros t0 c Hc H path n g Hp. apply (H path n g). apply part_child with c; [reflexivity|exact Hc|exact Hp]. }
  induction t as [p|t IH|k v IHk IHv|t IH|t IH|t IH|ts IH|t n IH|path name|path name ts IH] using pty_ind2;
    rewrite ?simplify_tuple, ?simplify_external; cbn [simplify_type ok_ty TypeOk]; intros Hok Hs.
  - reflexivity.
  - apply IH; [exact Hok|]. apply (Step (PVec t)); [left; reflexivity|exact Hs].
  - destruct Hok as [H1 H2]. rewrite IHk, IHv; [reflexivity| | | |]; try assumption; apply (Step (PHashMap k v)); cbn [children In]; auto.
  - apply IH; [exact Hok|]. apply (Step (PHashSet t)); [left; reflexivity|exact Hs].
  - apply IH; [exact Hok|]. apply (Step (POption t)); [left; reflexivity|exact Hs].
  - apply IH; [exact Hok|]. apply (Step (PNonZero t)); [left; reflexivity|exact Hs].
  - apply forallb_forall. intros x Hx. apply in_map_iff in Hx as (y & <- & Hy). apply IH; [exact Hy| |apply (Step (PTuple ts)); [exact Hy|exact Hs]].
    destruct ts as [l x b]. exact (fold_types l x b Hok y Hy).
  - apply IH; [apply Hok|]. apply (Step (PArray t n)); [left; reflexivity|exact Hs].
  - destruct Hok as (_ & Hn & _). cbn [negb forallb]. rewrite path_ok_of; [reflexivity| |exact Hn]. apply (Hs path name None). apply part_self.
  - destruct Hok as (_ & Hn & Ht). rewrite path_ok_of; [|apply (Hs path name (Some ts)); apply part_self|exact Hn]. cbn [andb].
    apply forallb_forall. intros x Hx. apply in_map_iff in Hx as (y & <- & Hy). apply IH; [exact Hy| |apply (Step (PExternal path name (Some ts))); [exact Hy|exact Hs]].
    destruct ts as [l x b]. exact (fold_types l x b Ht y Hy).
Qed.

(** * Fields *)
Definition tries (fs : pfields) : Prop := exists t path n g, In t (field_types fs) /\ part anywhere (PExternal (w "try" :: path) n g) t.
Definition fields_known (fs : pfields) : Prop := forall t path n g, In t (field_types fs) -> part anywhere (PExternal path n g) t -> segments_ok path.
Lemma forallb_types st (ss : list sfield) (ts : list pty) : map sf_ty ss = map simplify_type ts ->
  (forallb (fun f => ok_unnamed st (sf_ty f)) ss = true <-> forall t, In t ts -> ok_unnamed st (simplify_type t) = true).
Proof.
  intros E. rewrite forallb_forall. split; intros H.
  - intros t Ht. assert (Hin : In (simplify_type t) (map sf_ty ss)) by (rewrite E; apply in_map; exact Ht). apply in_map_iff in Hin as (f & <- & Hf). apply H. exact Hf.
  - intros f Hf. assert (Hin : In (sf_ty f) (map simplify_type ts)) by (rewrite <- E; apply in_map; exact Hf). apply in_map_iff in Hin as (t & <- & Ht). apply H. exact Ht.
Qed.
Lemma fields_spec chk fs ss st : u32_ids (field_decls fs) -> simplify_fields chk fs = Some ss ->
  (ok_fields st ss = true -> (forall f, In f (field_names fs) -> ~ reserved f) /\ ~ tries fs)
  /\ ((forall f, In f (field_names fs) -> ~ reserved f) -> FieldsOk fs -> fields_known fs -> ok_fields st ss = true).
Proof.
  intros Hu H. pose proof (simplify_fields_types _ _ _ H) as Ht. destruct (simplify_fields_compiled _ _ _ Hu H) as (_ & _ & Hk). unfold ok_fields.
  destruct fs as [l|l|]; cbn [field_names field_types] in *.
  - destruct Hk as (-> & Hn & _). split.
    + intros Ho. rewrite forallb_forall in Ho. split.
      * intros f Hf. rewrite <- Hn in Hf. apply in_map_iff in Hf as (x & <- & Hx). specialize (Ho x Hx). apply andb_true_iff in Ho as [Ho _].
        intros Hr. apply reserved_iff in Hr. congruence.
      * intros (t & path & n & g & Hin & Hp). cbn [field_types] in Hin. assert (Hin' : In (simplify_type t) (map sf_ty (ss_fields ss))) by (rewrite Ht; apply in_map; exact Hin).
        apply in_map_iff in Hin' as (x & Ex & Hx). specialize (Ho x Hx). apply andb_true_iff in Ho as [_ Ho]. rewrite Ex in Ho.
        apply (ok_ty_no_try _ _ Hp) in Ho. rewrite try_refused in Ho. discriminate.
    + intros Hr Hok Hs. apply forallb_forall. intros x Hx. apply andb_true_iff. split.
      * assert (Hin : In (sf_name x) (map nf_name (p_values l))) by (rewrite <- Hn; apply in_map; exact Hx). apply Hr in Hin.
        destruct (is_ident (sf_name x)) eqn:E; [reflexivity|]. destruct Hin. apply reserved_iff. exact E.
      * assert (Hin : In (sf_ty x) (map simplify_type (map nf_ty (p_values l)))) by (rewrite <- Ht; apply in_map; exact Hx).
        apply in_map_iff in Hin as (t & <- & Hin). apply ok_ty_of.
        -- apply in_map_iff in Hin as (f & <- & Hf). cbn [FieldsOk] in Hok. rewrite Forall_forall in Hok. apply (Hok f Hf).
        -- intros path n g Hp. exact (Hs t path n g Hin Hp).
  - destruct Hk as (-> & _). rewrite (forallb_types st _ _ Ht). split.
    + intros Ho. split; [intros f []|]. intros (t & path & n & g & Hin & Hp). exact (unnamed_no_try _ _ _ _ _ (Ho t Hin) Hp).
    + intros _ Hok Hs t Hin. unfold ok_unnamed. rewrite ok_ty_of; [reflexivity| |].
      * apply in_map_iff in Hin as (f & <- & Hf). cbn [FieldsOk] in Hok. rewrite Forall_forall in Hok. apply (Hok f Hf).
      * intros path n g Hp. exact (Hs t path n g Hin Hp).
  - destruct Hk as (-> & _). split; [|reflexivity]. intros _. split; [intros f []|]. intros (t & path & n & g & [] & _).
Qed.

(** * Definitions *)
Section Defs.
Context {F : Type}.
Implicit Types (d : pdef F).
Definition refs_known d : Prop := forall t path n g, In t (mentioned d) -> part anywhere (PExternal path n g) t -> segments_ok path.
Lemma generics_spec (g : option generics) : GenericsOk g ->
  (forallb is_ident (match g with Some g => p_values g | None => [] end) = true <-> ~ exists ps, g = Some ps /\ In (w "Self") (p_values ps)).
Proof.
  destruct g as [ps|]; cbn [GenericsOk].
  - intros H. rewrite Forall_forall in H. rewrite forallb_forall. split.
    + intros Hi (ps' & E & Hin). injection E as <-. apply Hi in Hin. vm_compute in Hin. discriminate.
    + intros Hn x Hx. apply type_name_ident; [apply H; exact Hx|]. intros ->. apply Hn. exists ps. auto.
  - intros _. split; [intros _ (ps & E & _); discriminate|reflexivity].
Qed.
Lemma def_spec st chk d : forall o, DefOk d -> simplify_definition chk d = Some o -> (forall x, below x d -> generator_ok x) ->
  (ok_def_at st o = true -> forall x, below x d -> ~ takes_keyword x /\ ~ starts_with_try x)
  /\ ((forall x, below x d -> ~ takes_keyword x /\ refs_known x) -> ok_def_at st o = true).
Proof.
  assert (Hown : forall (P : pdef F -> Prop) (x : pdef F), (forall c n sub, x <> PModule c n sub) -> (P x <-> forall y, below y x -> P y)).
  { intros P x Hne. split; [|intros H; apply H; left; reflexivity].
    intros H y [->|(c & n & sub & -> & _)]; [exact H|]. destruct (Hne c n sub eq_refl). }
  induction d as [c n ds IH|c a n g fs|c a n g vs|c n g t|c n t v|sg el] using pdef_ind2; intros o Hok H Hgen; cbn [simplify_definition] in H.
  - destruct (all_opt _ ds) as [os|] eqn:E; [|discriminate]. cbn [option_map] in H. injection H as <-.
    apply all_opt_some in E. cbn [ok_def_at]. destruct Hok as (_ & _ & Hsub). pose proof (fold_all _ _ Hsub) as Hsub'. clear Hsub.
    assert (Hb : forall y x, In y ds -> below x y -> below x (PModule c n ds)).
    { intros y x Hy Hx. right. exists c, n, ds. split; [reflexivity|]. eapply below_within; eassumption. }
    assert (Hall : (forallb (ok_def_at st) os = true -> forall d, In d ds -> forall x, below x d -> ~ takes_keyword x /\ ~ starts_with_try x)
       /\ ((forall d, In d ds -> forall x, below x d -> ~ takes_keyword x /\ refs_known x) -> forallb (ok_def_at st) os = true)).
    { assert (Hg : forall d, In d ds -> forall x, below x d -> generator_ok x) by (intros y Hy x Hx; apply Hgen; eapply Hb; eassumption).
      clear -E IH Hsub' Hg. induction E as [|d o ds os Hd E IHE]; [split; [intros _ d []|reflexivity]|].
      destruct (IH d (or_introl eq_refl) o (Hsub' d (or_introl eq_refl)) Hd (Hg d (or_introl eq_refl))) as [H1 H2].
      destruct IHE as [H3 H4]; [intros x Hx; apply IH; right; exact Hx|intros x Hx; apply Hsub'; right; exact Hx|intros x Hx; apply Hg; right; exact Hx|].
      cbn [forallb]. split.
      - intros Ho. apply andb_true_iff in Ho as [Ho1 Ho2]. intros x [<-|Hx]; [apply H1; exact Ho1|exact (H3 Ho2 x Hx)].
      - intros Hx. apply andb_true_iff. split; [apply H2; apply Hx; left; reflexivity|]. apply H4. intros y Hy. apply Hx. right. exact Hy. }
    destruct Hall as [H1 H2]. split.
    + intros Ho. apply andb_true_iff in Ho as [Hn Ho]. intros x [->|(c' & n' & sub & Heq & Hw)].
      * cbn [takes_keyword]. split; [apply mod_name_iff; exact Hn|]. intros (t & p & m & g & Hin & _). destruct Hin.
      * injection Heq as <- <- <-. inversion Hw as [? Hin|c2 n2 sub2 ? Hm Hw2]; subst.
        -- apply (H1 Ho x Hin). left. reflexivity.
        -- apply (H1 Ho _ Hm). right. exists c2, n2, sub2. auto.
    + intros Hx. apply andb_true_iff. split; [apply mod_name_iff; apply (Hx (PModule c n ds)); left; reflexivity|].
      apply H2. intros d Hd x Hb'. apply Hx. eapply Hb; eassumption.
  - destruct (simplify_fields chk fs) as [ss|] eqn:E; [|discriminate]. cbn [option_map] in H. injection H as <-.
    rewrite <- (Hown (fun x => ~ takes_keyword x /\ ~ starts_with_try x) (PStruct c a n g fs)) by discriminate.
    rewrite <- (Hown (fun x => ~ takes_keyword x /\ refs_known x) (PStruct c a n g fs)) by discriminate.
    destruct Hok as (_ & _ & Hn & Hg & Hf). destruct (fields_spec chk fs ss true (fields_u32 fs Hf) E) as [F1 F2].
    pose proof (generics_spec g Hg) as G. cbn [ok_def_at]. rewrite !andb_true_iff, (type_name_ident n Hn), G. cbn [takes_keyword parameters].
    unfold starts_with_try, refs_known. cbn [mentioned field_lists flat_map]. rewrite app_nil_r. split.
    + intros (H1 & H2 & H3). destruct (F1 H3) as [F3 F4]. split; [|exact F4]. intros [Hs|[Hs|(f & Hfi & Hr)]]; [contradiction| |exact (F3 f Hfi Hr)].
      destruct g as [ps|]; [|destruct Hs]. apply H2. exists ps. auto.
    + intros (H1 & H2). split; [tauto|]. split.
      * intros (ps & -> & Hs). apply H1. right. left. exact Hs.
      * apply F2; [|exact Hf|exact H2]. intros f Hfi Hr. apply H1. right. right. exists f. auto.
  - destruct (simplify_variants chk 1 (p_values vs)) as [ws|] eqn:E; [|discriminate]. cbn [option_map] in H. injection H as <-.
    rewrite <- (Hown (fun x => ~ takes_keyword x /\ ~ starts_with_try x) (PEnum c a n g vs)) by discriminate.
    rewrite <- (Hown (fun x => ~ takes_keyword x /\ refs_known x) (PEnum c a n g vs)) by discriminate.
    destruct Hok as (_ & _ & Hn & Hg & Hv).
    pose proof (generics_spec g Hg) as G. cbn [ok_def_at]. rewrite !andb_true_iff, (type_name_ident n Hn), G. cbn [takes_keyword parameters].
    assert (V : (forallb (ok_variant_at st) ws = true -> forall v, In v (p_values vs) -> pv_name v <> w "Self" /\ (forall f, In f (field_names (pv_fields v)) -> ~ reserved f) /\ ~ tries (pv_fields v))
       /\ ((forall v, In v (p_values vs) -> pv_name v <> w "Self" /\ (forall f, In f (field_names (pv_fields v)) -> ~ reserved f) /\ fields_known (pv_fields v)) -> forallb (ok_variant_at st) ws = true)).
    { apply simplify_variants_comment in E. clear -E Hv. induction E as [|v x l ws (Ev & _ & Es) E IHE]; [split; [intros _ v []|reflexivity]|].
      inversion Hv as [|? ? (_ & Hvn & Hvf & _) Hv']; subst. destruct (IHE Hv') as [I1 I2]. destruct (fields_spec chk _ _ st (fields_u32 _ Hvf) Es) as [F1 F2].
      cbn [forallb]. unfold ok_variant_at at 1 3. rewrite !andb_true_iff, Ev, (type_name_ident _ Hvn). split.
      - intros [[H1 H2] H3] y [<-|Hy]; [split; [exact H1|exact (F1 H2)]|exact (I1 H3 y Hy)].
      - intros Hy. destruct (Hy v (or_introl eq_refl)) as (Y1 & Y2 & Y3). split; [split; [exact Y1|apply F2; assumption]|]. apply I2. intros y Hin. apply Hy. right. exact Hin. }
    destruct V as [V1 V2]. unfold starts_with_try, refs_known. cbn [mentioned field_lists]. split.
    + intros (H1 & H2 & H3). specialize (V1 H3). split.
      * intros [Hs|[Hs|(v & Hvi & Hr)]]; [contradiction| |].
        -- destruct g as [ps|]; [|destruct Hs]. apply H2. exists ps. auto.
        -- destruct (V1 v Hvi) as (W1 & W2 & _). destruct Hr as [Hr|(f & Hfi & Hr)]; [contradiction|exact (W2 f Hfi Hr)].
      * intros (t & path & m & g' & Hin & Hp). apply in_flat_map in Hin as (fs & Hfs & Hin). apply in_map_iff in Hfs as (v & <- & Hvi).
        destruct (V1 v Hvi) as (_ & _ & W3). apply W3. exists t, path, m, g'. auto.
    + intros (H1 & H2). split; [tauto|]. split; [intros (ps & -> & Hs); apply H1; right; left; exact Hs|].
      apply V2. intros v Hvi. split; [intros Hs; apply H1; right; right; exists v; auto|]. split.
      * intros f Hfi Hr. apply H1. right. right. exists v. split; [exact Hvi|]. right. exists f. auto.
      * intros t path m g' Hin Hp. apply (H2 t path m g'); [|exact Hp]. apply in_flat_map. exists (pv_fields v). split; [apply in_map; exact Hvi|exact Hin].
  - injection H as <-.
    rewrite <- (Hown (fun x => ~ takes_keyword x /\ ~ starts_with_try x) (PAlias c n g t)) by discriminate.
    rewrite <- (Hown (fun x => ~ takes_keyword x /\ refs_known x) (PAlias c n g t)) by discriminate.
    destruct Hok as (_ & Hn & Hg & Ht & _). pose proof (generics_spec g Hg) as G. cbn [ok_def_at]. rewrite !andb_true_iff, (type_name_ident n Hn), G.
    cbn [takes_keyword]. unfold starts_with_try, refs_known. cbn [mentioned]. split.
    + intros (H1 & H2 & H3). split; [tauto|]. intros (u & path & m & g' & [<-|[]] & Hp). apply (ok_ty_no_try _ _ Hp) in H3. rewrite try_refused in H3. discriminate.
    + intros (H1 & H2). split; [tauto|]. split; [tauto|]. apply ok_ty_of; [exact Ht|]. intros path m g'. apply H2. left. reflexivity.
  - injection H as <-.
    rewrite <- (Hown (fun x => ~ takes_keyword x /\ ~ starts_with_try x) (PConst c n t v)) by discriminate.
    assert (Hc : const_content t) by (apply (Hgen (PConst c n t v)); left; reflexivity).
    destruct Hok as (_ & Hn & _). cbn [ok_def_at takes_keyword]. rewrite (const_name_ident n Hn). split; [|reflexivity]. intros _. split; [tauto|].
    unfold starts_with_try. cbn [mentioned]. intros (u & path & m & g' & [<-|[]] & Hp). destruct t; try destruct Hc. inversion Hp as [|x y _ Hx _]; subst. destruct Hx.
  - injection H as <-.
    rewrite <- (Hown (fun x => ~ takes_keyword x /\ ~ starts_with_try x) (PImport sg el)) by discriminate.
    rewrite <- (Hown (fun x => ~ takes_keyword x /\ refs_known x) (PImport sg el)) by discriminate.
    destruct Hok as (_ & _ & He). cbn [ok_def_at takes_keyword]. unfold starts_with_try, refs_known. cbn [mentioned field_lists flat_map].
    assert (Hel : (match el with Some n => use_name n | None => true end) = true <-> el <> Some (w "Self")).
    { destruct el as [n|]; [|split; [discriminate|reflexivity]]. rewrite use_name_iff. split.
      - intros Hx E. injection E as ->. apply Hx. split; [apply self_reserved|]. vm_compute. intros Hy. repeat (destruct Hy as [Hy|Hy]; [discriminate|]). exact Hy.
      - intros Hx [Hr _]. apply Hx. f_equal. apply reserved_upper; [exact Hr|exact (named_upper _ _ He)]. }
    assert (Hsg : forallb use_name sg = true <-> ~ exists s, In s sg /\ reserved s /\ ~ In s [w "self"; w "super"; w "crate"; w "try"]).
    { rewrite forallb_forall. split.
      - intros Hx (s & Hs & Hr). apply Hx in Hs. apply use_name_iff in Hs. contradiction.
      - intros Hx s Hs. apply use_name_iff. intros Hr. apply Hx. exists s. auto. }
    rewrite andb_true_iff, Hsg, Hel. split; [|tauto]. intros [H1 H2]. split; [tauto|]. intros (u & path & m & g' & [] & _).
Qed.

Lemma schema_ok st chk (s : pschema F) o : SchemaOk s -> simplify_schema chk s = Some o -> forallb generates (snd o) = true ->
  paths_known (ps_defs s) -> (forallb (ok_def_at st) (snd o) = true <-> names_free (ps_defs s)).
Proof.
  intros Hs H Hg Hp. destruct o as [c out]. cbn [snd] in *.
  assert (Hgen := proj1 (generates_schema chk s c out H) Hg).
  unfold simplify_schema in H. destruct (all_opt _ _) as [os|] eqn:E; [|discriminate]. cbn [option_map] in H. injection H as <- <-.
  apply all_opt_some in E. destruct Hs as [_ Hd]. rewrite Forall_forall in Hd.
  assert (Hdef : forall d o, In d (ps_defs s) -> simplify_definition chk d = Some o ->
     (ok_def_at st o = true -> forall x, below x d -> ~ takes_keyword x /\ ~ starts_with_try x) /\ ((forall x, below x d -> ~ takes_keyword x /\ refs_known x) -> ok_def_at st o = true)).
  { intros d o Hin Ho. apply (def_spec st chk d o (Hd d Hin) Ho). intros x Hx. apply Hgen. eapply below_within; eassumption. }
  unfold names_free. split.
  - intros Ho. assert (Hall : forall d, In d (ps_defs s) -> forall x, below x d -> ~ takes_keyword x /\ ~ starts_with_try x).
    { clear -E Ho Hdef. induction E as [|d o ds os Hd E IH]; [intros d []|]. cbn [forallb] in Ho. apply andb_true_iff in Ho as [H1 H2].
      intros x [<-|Hx]; [apply (Hdef d o (or_introl eq_refl) Hd); exact H1|]. apply IH; [intros y p Hy; apply Hdef; right; exact Hy|exact H2|exact Hx]. }
    intros d Hw. inversion Hw as [? Hin|c2 n2 sub2 ? Hm Hw2]; subst; [apply (Hall d Hin); left; reflexivity|].
    apply (Hall _ Hm). right. exists c2, n2, sub2. auto.
  - intros Hf. assert (Hk : forall x, within x (ps_defs s) -> ~ takes_keyword x /\ refs_known x).
    { intros x Hx. split; [apply (Hf x Hx)|]. intros t path n g Ht Hpt.
      assert (Hseg : forall y, In y path -> is_ident y = true \/ y = w "try").
      { intros y Hy. destruct (Hp x t path n g y Hx Ht Hpt Hy) as (c' & sub & Hm). destruct (Hf _ Hm) as [Hm' _]. cbn [takes_keyword] in Hm'.
        apply mod_name_iff in Hm'. unfold mod_name in Hm'. apply orb_true_iff in Hm' as [Hm'|Hm']; [left; exact Hm'|right; apply str_eqb_eq; exact Hm']. }
      destruct path as [|y path]; [exact I|]. split.
      - destruct (Hseg y (or_introl eq_refl)) as [Hi| ->]; [unfold segment_name; rewrite Hi; reflexivity|]. exfalso. apply (Hf x Hx). exists t, path, n, g. auto.
      - intros z Hz. destruct (Hseg z (or_intror Hz)) as [Hi| ->]; [unfold segment_name; rewrite Hi; reflexivity|reflexivity]. }
    clear Hf Hp Hg Hgen. assert (Hk' : forall d, In d (ps_defs s) -> forall x, below x d -> ~ takes_keyword x /\ refs_known x).
    { intros d Hin x Hx. apply Hk. eapply below_within; eassumption. }
    clear Hk Hd. induction E as [|d o ds os Hdo E IH]; [reflexivity|]. cbn [forallb]. apply andb_true_iff. split.
    + apply (Hdef d o (or_introl eq_refl) Hdo). apply Hk'. left. reflexivity.
    + apply IH; [intros y p Hy; apply Hdef; right; exact Hy|intros y Hy; apply Hk'; right; exact Hy].
Qed.
Theorem schema_spec chk (s : pschema F) bc o : SchemaOk s -> simplify_schema chk s = Some o -> forallb generates (snd o) = true ->
  paths_known (ps_defs s) -> (syn_parse2 (emit_schema bc o) = true <-> names_free (ps_defs s)).
Proof. intros Hs H Hg Hp. rewrite (syn_parse2_exact bc o Hg). exact (schema_ok false chk s o Hs H Hg Hp). Qed.
End Defs.

(** * C75 *)

(** The items generated for a schema parse as Rust exactly if no name in it is a keyword.  Part of the claim: the [impl] blocks, which use
    the same names, are left out here; paths in aliases and in [non_zero], which the compiler does not check, have to be in order.
    [C75_file_parses] (PropRustFile.v) has neither restriction. *)
Theorem C75_code_parses_partial : forall (F : Type) (parse_f64 : str -> option F) chk bytes_crate i (s : pschema F) o,
  text i -> schema_parse parse_f64 i = Some s -> simplify_schema chk s = Some o -> (forall d, within d (ps_defs s) -> generator_ok d) ->
  paths_known (ps_defs s) ->
  (syn_parse2 (emit_schema bytes_crate o) = true <-> names_free (ps_defs s)).
Proof.
  intros F pf chk bc i s [c out] Hi Hp Ho Hg Hk. apply (schema_spec chk); try assumption; [eapply C52_well_formed; eassumption|].
  apply (generates_schema chk s c out Ho). exact Hg.
Qed.
Print Assumptions C75_code_parses_partial.

(** Resolution makes sure of the paths in fields, outside of [non_zero]. *)
Theorem C75_resolved_paths : forall (F : Type) (values : list (str * pschema F)) nm s m path t k seg,
  resolved values -> In (nm, s) values -> refers (ps_defs s) m path t k -> In seg path -> exists c sub, within (PModule c seg sub) (ps_defs s).
Proof.
  intros F values nm s m path t k seg Hres Hin Hr Hseg.
  assert (Hd : In (nm, ps_defs s) (definitions_of values)) by (unfold definitions_of; apply in_map_iff; exists (nm, s); auto).
  destruct (Hres nm _ Hd) as [_ H]. destruct (H m path t k Hr) as [(target & Hm & _)|[-> _]]; [|destruct Hseg].
  destruct Hr as (at_ & d & t' & g & Ha & _). clear H Hres Hd Hin.
  assert (Hdown : forall ds p (m0 : list (pdef F)), module_at ds p m0 -> forall x, within x m0 -> within x ds).
  { clear. intros ds p m0 H. induction H as [|ds c n sub p m0 Hin H IH]; [trivial|]. intros x Hx. eapply within_module; [exact Hin|apply IH; exact Hx]. }
  assert (Hpath : forall (ds : list (pdef F)) p m0, module_at ds p m0 -> In seg p -> exists c sub, within (PModule c seg sub) ds).
  { clear. intros ds p m0 H. induction H as [|ds c n sub p m0 Hin H IH]; [intros []|]. intros [->|Hs]; [exists c, sub; constructor; exact Hin|].
    destruct (IH Hs) as (c' & sub' & Hw). exists c', sub'. eapply within_module; eassumption. }
  destruct (Hpath m path target Hm Hseg) as (c & sub & Hw). exists c, sub. exact (Hdown _ _ _ Ha _ Hw).
Qed.
Print Assumptions C75_resolved_paths.

(** The generator has code for everything in the schema; in particular its floating point constants are finite. *)
Definition expressible {F} (finite : F -> bool) (ds : list (pdef F)) : Prop := forall d, within d ds ->
  generator_ok d /\ match d with PConst _ _ _ (LFloat f) => finite f = true | _ => True end.

Section Gen.
Context {F : Type} (finite : F -> bool).
Lemma floats_spec chk (d : pdef F) : forall o, simplify_definition chk d = Some o ->
  (forallb finite (floats o) = true <-> forall x, below x d -> match x with PConst _ _ _ (LFloat f) => finite f = true | _ => True end).
Proof.
  set (P := fun x : pdef F => match x with PConst _ _ _ (LFloat f) => finite f = true | _ => True end).
  change (forall o, simplify_definition chk d = Some o -> (forallb finite (floats o) = true <-> forall x, below x d -> P x)).
  assert (Hown : forall x : pdef F, (forall c n sub, x <> PModule c n sub) -> (P x <-> forall y, below y x -> P y)).
  { intros x Hne. split; [|intros H; apply H; left; reflexivity].
    intros H y [->|(c & n & sub & -> & _)]; [exact H|]. destruct (Hne c n sub eq_refl). }
  induction d as [c n ds IH|c a n g fs|c a n g vs|c n g t|c n t v|sg el] using pdef_ind2; intros o H; cbn [simplify_definition] in H.
  - destruct (all_opt _ ds) as [os|] eqn:E; [|discriminate]. cbn [option_map] in H. injection H as <-. apply all_opt_some in E. cbn [floats].
    assert (Hall : forallb finite (flat_map floats os) = true <-> forall d, In d ds -> forall x, below x d -> P x).
    { clear -E IH. induction E as [|d o ds os Hd E IHE]; [split; [intros _ d []|reflexivity]|].
      cbn [flat_map]. rewrite forallb_app, andb_true_iff, (IH d (or_introl eq_refl) o Hd), IHE.
      - split; [intros [H1 H2] x [<-|Hx]; [exact H1|apply H2; exact Hx]|].
        intros H. split; [apply H; left; reflexivity|intros x Hx; apply H; right; exact Hx].
      - intros x Hx. apply IH. right. exact Hx. }
    rewrite Hall. split.
    + intros H x [->|(c' & n' & sub & Heq & Hw)]; [exact I|]. injection Heq as <- <- <-.
      inversion Hw as [? Hin|c2 n2 sub2 ? Hm Hw2]; subst.
      * apply (H x Hin). left. reflexivity.
      * apply (H _ Hm). right. exists c2, n2, sub2. auto.
    + intros H d Hd x Hx. apply H. right. exists c, n, ds. split; [reflexivity|]. eapply below_within; eassumption.
  - destruct (simplify_fields chk fs) as [ss|]; [|discriminate]. cbn [option_map] in H. injection H as <-.
    rewrite <- (Hown (PStruct c a n g fs)) by discriminate. cbn. tauto.
  - destruct (simplify_variants chk 1 (p_values vs)) as [ws|]; [|discriminate]. cbn [option_map] in H. injection H as <-.
    rewrite <- (Hown (PEnum c a n g vs)) by discriminate. cbn. tauto.
  - injection H as <-. rewrite <- (Hown (PAlias c n g t)) by discriminate. cbn. tauto.
  - injection H as <-. rewrite <- (Hown (PConst c n t v)) by discriminate. unfold P. destruct v; cbn; rewrite ?andb_true_r; tauto.
  - injection H as <-. rewrite <- (Hown (PImport sg el)) by discriminate. cbn. tauto.
Qed.
Lemma expressible_iff chk (s : pschema F) o : simplify_schema chk s = Some o ->
  (forallb generates (snd o) && forallb finite (flat_map floats (snd o)) = true <-> expressible finite (ps_defs s)).
Proof.
  intros H. destruct o as [c out]. rewrite andb_true_iff. cbn [snd]. rewrite (generates_schema chk s c out H). unfold expressible.
  unfold simplify_schema in H. destruct (all_opt _ _) as [os|] eqn:E; [|discriminate].
  cbn [option_map] in H. injection H as <- <-.
  assert (Hm : simplify_definition chk (PModule [] [] (ps_defs s)) = Some (SModule [] [] os)).
  { cbn [simplify_definition]. rewrite E. reflexivity. }
  pose proof (floats_spec chk _ _ Hm) as G. cbn [floats] in G. rewrite G. split.
  - intros [H1 H2] d Hd. split; [apply H1; exact Hd|]. apply H2. right. exists [], [], (ps_defs s). auto.
  - intros HH. split; [intros d Hd; apply HH; exact Hd|]. intros x [->|(c' & n' & sub & Heq & Hw)]; [exact I|]. injection Heq as <- <- <-. apply HH. exact Hw.
Qed.
End Gen.

(** How a build ends after all schemas of a project passed all checks: it writes the files of the schemas one after the other until it
    finds one it has no code for (a panic) or one whose code does not parse. *)
Theorem C75_build_partial : forall (F : Type) (parse_f64 : str -> option F) pick chk order bytes_crate finite unparse out read files values,
  readable read -> front parse_f64 pick chk order read files = COk values -> (forall n s, In (n, s) values -> paths_known (ps_defs s)) ->
  let fine v := expressible finite (ps_defs (snd v)) /\ names_free (ps_defs (snd v)) in
  let written l := map (fun v => out ++ [fst v ++ tx ".rs"]) l in
  let '(ws, e) := compile parse_f64 pick chk order (rust_gen bytes_crate finite unparse) out read files in
  match e with
  | BDone => (forall v, In v values -> fine v) /\ map fst ws = written values
  | BInvalidCode n => exists before s after, values = before ++ (n, s) :: after /\ (forall v, In v before -> fine v)
      /\ expressible finite (ps_defs s) /\ ~ names_free (ps_defs s) /\ map fst ws = written before
  | BPanic => exists before n s after, values = before ++ (n, s) :: after /\ (forall v, In v before -> fine v)
      /\ ~ expressible finite (ps_defs s) /\ map fst ws = written before
  | BErr _ => False
  end.
Proof.
  intros F pf pick chk order bc finite unparse out read files values Hr Hf Hk fine written. unfold compile. rewrite Hf.
  destruct (front_loaded pf _ _ _ _ _ _ Hf) as (Hl & Hv & _). pose proof (loaded_ok pf _ _ _ Hr Hl) as Hok. clear Hl Hf.
  induction values as [|[n s] values IH]; cbn [emit]; [split; [intros v []|reflexivity]|].
  assert (Hs : SchemaOk s) by (apply (Hok n s); left; reflexivity).
  destruct (simplify_schema_total pick chk s (SchemaOk_u32 s Hs) (Hv _ (or_introl eq_refl))) as (c & o & Ho). rewrite Ho.
  pose proof (expressible_iff finite chk s _ Ho) as He. unfold rust_gen.
  destruct (forallb generates (snd (c, o)) && forallb finite (flat_map floats (snd (c, o)))) eqn:Eg.
  - assert (Hex : expressible finite (ps_defs s)) by (apply He; reflexivity). apply andb_true_iff in Eg as [Eg _].
    pose proof (schema_spec chk s bc (c, o) Hs Ho Eg (Hk n s (or_introl eq_refl))) as Hn.
    destruct (syn_parse2 (emit_schema bc (c, o))).
    + assert (Hfine : fine (n, s)) by (split; [exact Hex|apply Hn; reflexivity]).
      assert (IH' := IH (fun m s' H => Hk m s' (or_intror H)) (fun v H => Hv v (or_intror H)) (fun m s' H => Hok m s' (or_intror H))).
      change (fun o => if forallb generates (snd o) && forallb finite (flat_map floats (snd o)) then if syn_parse2 (emit_schema bc o) then GCode (unparse (emit_schema bc o)) else GInvalid else GPanic)
        with (rust_gen bc finite unparse). clear IH. destruct (emit chk (rust_gen bc finite unparse) out values) as [ws e]. destruct e as [|e|m|].
      * destruct IH' as [H1 H2]. split; [intros v [<-|H]; [exact Hfine|apply H1; exact H]|]. cbn [map fst written]. unfold written in *. cbn [map fst]. rewrite H2. reflexivity.
      * exact IH'.
      * destruct IH' as (before & s' & after & -> & H1 & H2 & H3 & H4). exists ((n, s) :: before), s', after. split; [reflexivity|].
        split; [intros v [<-|H]; [exact Hfine|apply H1; exact H]|]. split; [exact H2|]. split; [exact H3|]. unfold written in *. cbn [map fst]. rewrite H4. reflexivity.
      * destruct IH' as (before & m & s' & after & -> & H1 & H2 & H3). exists ((n, s) :: before), m, s', after. split; [reflexivity|].
        split; [intros v [<-|H]; [exact Hfine|apply H1; exact H]|]. split; [exact H2|]. unfold written in *. cbn [map fst]. rewrite H3. reflexivity.
    + exists [], s, values. split; [reflexivity|]. split; [intros v []|]. split; [exact Hex|]. split; [|reflexivity]. intros H. apply Hn in H. discriminate.
  - exists [], n, s, values. split; [reflexivity|]. split; [intros v []|]. split; [|reflexivity]. intros H. apply He in H. discriminate.
Qed.
Print Assumptions C75_build_partial.

(** * What is missing *)

(** A project of two files that passes all checks of the compiler; the build fails after it has written the code of the first file. *)
Definition keyword_files : list sfile := [File [] (tx "a"); File [] (tx "b")].
Definition keyword_disk : path -> option str := fun p =>
  if path_eqb p [tx "a.mabo"] then Some (tx "struct A(u8)") else
  if path_eqb p [tx "b.mabo"] then Some (tx "struct B { type: u8 @1 }") else None.
Theorem C75_keyword_refuted : forall (F : Type) (parse_f64 : str -> option F) pick chk bytes_crate finite unparse out,
  (exists values, front parse_f64 pick chk (fun l => l) keyword_disk keyword_files = COk values) /\
  let '(ws, e) := compile parse_f64 pick chk (fun l => l) (rust_gen bytes_crate finite unparse) out keyword_disk keyword_files in
  e = BInvalidCode (tx "b") /\ map fst ws = [out ++ [tx "a.rs"]].
Proof.
  intros F pf pick chk bc fin unp out.
  assert (Ef : front pf pick chk (fun l => l) keyword_disk keyword_files
       = COk [(tx "a", PSchema [] [PStruct [] [] (tx "A") None (FUnnamed (Punct [] (UField (PPrim PrU8) None) false))]);
              (tx "b", PSchema [] [PStruct [] [] (tx "B") None (FNamed (Punct [] (NField [] (tx "type") (PPrim PrU8) (Some 1)) false))])])
      by (vm_compute; destruct chk; reflexivity).
  split; [eexists; exact Ef|]. unfold compile. rewrite Ef. cbn [emit].
  set (a := PSchema _ [PStruct _ _ (tx "A") _ _]). set (b := PSchema _ [PStruct _ _ (tx "B") _ _]).
  assert (Ea : simplify_schema chk a = Some ([], [@SStruct F [] (tx "A") [] (SFields SKUnnamed [SField [] (tx "n0") (SPrim PrU8) 1])])) by (destruct chk; reflexivity).
  assert (Eb : simplify_schema chk b = Some ([], [@SStruct F [] (tx "B") [] (SFields SKNamed [SField [] (tx "type") (SPrim PrU8) 1])])) by (destruct chk; reflexivity).
  rewrite Ea, Eb. unfold rust_gen. cbn [snd].
  assert (Pa : syn_parse2 (emit_schema bc ([], [@SStruct F [] (tx "A") [] (SFields SKUnnamed [SField [] (tx "n0") (SPrim PrU8) 1])])) = true) by (destruct bc; vm_compute; reflexivity).
  assert (Pb : syn_parse2 (emit_schema bc ([], [@SStruct F [] (tx "B") [] (SFields SKNamed [SField [] (tx "type") (SPrim PrU8) 1])])) = false) by (destruct bc; vm_compute; reflexivity).
  rewrite Pa, Pb. cbn. split; reflexivity.
Qed.
Print Assumptions C75_keyword_refuted.

(** The hypotheses of the theorems are met by a project with a module and a path into it, and by the one above. *)
Definition path_disk : path -> option str := fun p =>
  if path_eqb p [tx "a.mabo"] then Some (tx "mod inner { struct A(u8) } struct B { first: inner::A @1 }") else None.
Example C75_ex : exists values, front (F := unit) (fun _ => None) (fun _ => 0%nat) false (fun l => l) path_disk [File [] (tx "a")] = COk values
  /\ (forall n s, In (n, s) values -> paths_known (ps_defs s) /\ expressible (fun _ => true) (ps_defs s))
  /\ snd (compile (F := unit) (fun _ => None) (fun _ => 0%nat) false (fun l => l) (rust_gen false (fun _ => true) (fun _ => [])) [] path_disk [File [] (tx "a")]) = BDone.
Proof.
  eexists. split; [vm_compute; reflexivity|]. split; [|vm_compute; reflexivity]. intros n s [E|[]]. apply (f_equal snd) in E. cbn [snd] in E. subst s. cbn [ps_defs].
  assert (Hw : forall (P : pdef unit -> Prop) m a b, P (PModule [] m [a]) -> P a -> P b -> (forall c k l, a <> PModule c k l) -> (forall c k l, b <> PModule c k l) ->
     forall d, within d [PModule [] m [a]; b] -> P d).
  { intros P m a b H1 H2 H3 Na Nb d Hd. inversion Hd as [? Hin|c k sub ? Hin Hd2]; subst.
    - destruct Hin as [<-|[<-|[]]]; assumption.
    - destruct Hin as [E|[E|[]]]; [|destruct (Nb _ _ _ E)]. injection E as <- <- <-. inversion Hd2 as [? Hin2|c' k' sub' ? Hin2 _]; subst.
      + destruct Hin2 as [<-|[]]. exact H2.
      + destruct Hin2 as [E|[]]. destruct (Na _ _ _ E). }
  split.
  - intros d t path n' g seg Hd. revert t path n' g seg. pattern d. revert d Hd. apply Hw; try discriminate.
    + intros t path n' g seg [].
    + intros t path n' g seg [<-|[]] Hp. inversion Hp as [|x y _ Hx _]; subst. destruct Hx.
    + intros t path n' g seg [<-|[]] Hp Hs. inversion Hp as [E|x y _ Hx _]; subst; [|destruct Hx]. destruct Hs as [<-|[]]. eexists _, _. constructor. left. reflexivity.
  - intros d Hd. pattern d. revert d Hd. apply Hw; try discriminate.
    + split; exact I.
    + split; [|exact I]. intros t [<-|[]]. split; intros u Hp; inversion Hp as [|x y _ Hx _]; subst; destruct Hx.
    + split; [|exact I]. intros t [<-|[]]. split; intros u Hp; inversion Hp as [|x y _ Hx _]; subst; destruct Hx.
Qed.
