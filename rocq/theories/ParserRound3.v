(** Printing and parsing back: definitions and whole schemas. *)
From Verif Require Import Base Syntax Parser Printer ParserSpec ParserTotal ParserRound ParserRound2.
Require Import ZifyN ZifyBool.
Require Coq.Strings.String.
Import Coq.Strings.String.StringSyntax.
Local Open Scope N_scope.

Lemma ws_idem {A B} (q : parser A) (f : A -> parser B) i : ws (pdo c <- ws q; f c) i = (pdo c <- ws q; f c) i.
Proof.
  destruct (span_split is_mspace i) as (a & r & _ & -> & Ha & Hr).
  rewrite ws_ok by assumption. unfold pbind. rewrite (ws_ok q a r) by assumption. rewrite (ws_none q r) by assumption. reflexivity.
Qed.

Section Lit.
Context {F : Type}.
Variable parse_f64 : str -> option F.
Variable fmt_f64 : F -> str.
Variable esc_u : N -> bool.
Local Notation good := (Reprintable fmt_f64 parse_f64).
Local Notation pr_def := (pr_def fmt_f64 esc_u).
Local Notation parse_definition := (parse_definition parse_f64).

(** * The parts of a printed definition *)
Definition def_comment (d : pdef F) : comment :=
  match d with
  | PModule c _ _ | PStruct c _ _ _ _ | PEnum c _ _ _ _ | PAlias c _ _ _ | PConst c _ _ _ => c
  | PImport _ _ => []
  end.
Definition def_attrs (d : pdef F) : list (attr F) :=
  match d with PStruct _ a _ _ _ | PEnum _ a _ _ _ => a | _ => [] end.
Definition def_body (level : nat) (d : pdef F) : str :=
  match d with
  | PModule c n ds =>
      tx "mod" ++ tx " " ++ n ++ tx " {" ++ [10] ++
      join [10] (map (pr_def (S level)) ds) ++ indent level ++ tx "}"
  | PStruct c a n g fs =>
      tx "struct" ++ tx " " ++ n ++ pr_generics g ++ pr_fields level fs
  | PEnum c a n g vs =>
      tx "enum" ++ tx " " ++ n ++
      pr_generics g ++ tx " " ++ pr_surround 123 125 (pr_variant (S level)) level true vs
  | PAlias c n g t =>
      tx "type" ++ tx " " ++ n ++ pr_generics g ++ tx " = " ++ pr_type t ++ tx ";"
  | PConst c n t v =>
      tx "const" ++ tx " " ++ n ++ tx ": " ++ pr_type t ++
      tx " = " ++ pr_literal fmt_f64 esc_u v ++ tx ";"
  | PImport s e =>
      tx "use" ++ tx " " ++ join (tx "::") s ++
      match e with Some n => tx "::" ++ n | None => [] end ++ tx ";"
  end.
(** The line break the printer puts behind modules, structs and enums. *)
Definition def_end (d : pdef F) : str :=
  match d with PModule _ _ _ | PStruct _ _ _ _ _ | PEnum _ _ _ _ _ => [10] | _ => [] end.
Lemma def_split level d : pr_def level d =
  pr_comment level (def_comment d) ++ pr_attributes fmt_f64 esc_u level (def_attrs d) ++ indent level ++ def_body level d ++ def_end d.
Proof.
  destruct d; cbn [Printer.pr_def def_comment def_attrs def_body def_end pr_attributes pr_comment map concat app];
    repeat rewrite <- app_assoc; rewrite ?app_nil_r; try reflexivity.
  cbn [app]. rewrite <- !app_assoc. reflexivity.
Qed.
Lemma def_end_sp d : sp (def_end d).
Proof. destruct d; reflexivity. Qed.
Lemma body_hn (f : N -> bool) level d r : f 109 = false -> f 115 = false -> f 101 = false -> f 99 = false -> f 116 = false -> f 117 = false ->
  hn f (def_body level d ++ r).
Proof. intros. destruct d; cbn; assumption. Qed.
Lemma def_header level d s r : DefOk d -> Forall good (def_lits d) -> sp s ->
  exists T w, forallb is_space w = true
    /\ ws comments (s ++ pr_def level d ++ r) = POk (def_comment d) T
    /\ ws (attributes parse_f64) T = POk (def_attrs d) (w ++ def_body level d ++ def_end d ++ r) /\ hn (N.eqb 10) T.
Proof.
  intros Hok Hg Hs. rewrite def_split, <- !app_assoc. apply header; try (apply body_hn; reflexivity); [| | |exact Hs].
  - destruct d; cbn in Hok |- *; try (apply Hok); constructor.
  - destruct d; cbn in Hok |- *; try (apply Hok); constructor.
  - destruct d; cbn [def_attrs]; try constructor; cbn [def_lits] in Hg; apply Forall_forall; intros x Hx;
      unfold attr_goods; rewrite Forall_forall in *; intros q Hq; apply Hg, in_flat_map; eauto.
Qed.

(** * Each kind of definition *)
Lemma pdef_finish d : DefOk d -> with_attributes (def_attrs d) (with_comment (def_comment d)
    match d with
    | PModule _ n ds => PModule [] n ds
    | PStruct _ _ n g fs => PStruct [] [] n g fs
    | PEnum _ _ n g vs => PEnum [] [] n g vs
    | PAlias _ n g t => PAlias [] n g t
    | PConst _ n t v => PConst [] n t v
    | PImport s e => PImport s e
    end) = d.
Proof. intros _. destruct d; reflexivity. Qed.

Lemma space1_one r : hn is_space r -> space1 (tx " " ++ r) = POk tt r.
Proof. intros H. apply space1_ok; [reflexivity|exact H|cbn; lia]. Qed.
Lemma assoc {A B C} (p : parser A) (q : parser B) (K : B -> parser C) j :
  (p ;; (pdo x <- q; K x)) j = (pdo x <- (p ;; q); K x) j.
Proof. unfold pbind. destruct (p j); reflexivity. Qed.
Ltac nm H := apply (name_hn _ _ _ _ _ H); hnl.

Lemma struct_print level n g fs r : TypeName n -> GenericsOk g -> FieldsOk fs ->
  @parse_struct F (tx "struct" ++ tx " " ++ n ++ pr_generics g ++ pr_fields level fs ++ 10 :: r)
  = POk (PStruct [] [] n g fs) (10 :: r).
Proof.
  intros Hn Hg Hf. unfold parse_struct.
  rewrite (bind_ok _ _ _ tt (tx " " ++ n ++ pr_generics g ++ pr_fields level fs ++ 10 :: r)) by apply tag_app.
  rewrite (bind_ok _ _ _ tt (n ++ pr_generics g ++ pr_fields level fs ++ 10 :: r)) by (apply space1_one; nm Hn).
  apply cut_ok.
  rewrite (bind_ok _ _ _ n (pr_generics g ++ pr_fields level fs ++ 10 :: r)).
  2:{ apply type_name_ok; [exact Hn|]. apply generics_hn; [reflexivity|]. apply fields_hn; reflexivity. }
  rewrite (bind_ok _ _ _ g (pr_fields level fs ++ 10 :: r)).
  2:{ apply opt_generics_print; [exact Hg|]. apply fields_hn; reflexivity. }
  rewrite assoc. rewrite (bind_ok _ _ _ fs (10 :: r)); [reflexivity|].
  destruct (fields_print level fs [] 10 r Hf eq_refl ltac:(lia) ltac:(lia) eq_refl) as [H|H]; exact H.
Qed.
Lemma enum_print level n g vs r : TypeName n -> GenericsOk g -> Forall VariantOk (p_values vs) ->
  @parse_enum F (tx "enum" ++ tx " " ++ n ++ pr_generics g ++ tx " " ++ pr_surround 123 125 (pr_variant (S level)) level true vs ++ r)
  = POk (PEnum [] [] n g vs) r.
Proof.
  intros Hn Hg Hv. unfold parse_enum. set (X := pr_surround 123 125 (pr_variant (S level)) level true vs ++ r).
  rewrite (bind_ok _ _ _ tt (tx " " ++ n ++ pr_generics g ++ tx " " ++ X)) by apply tag_app.
  rewrite (bind_ok _ _ _ tt (n ++ pr_generics g ++ tx " " ++ X)) by (apply space1_one; nm Hn).
  apply cut_ok.
  rewrite (bind_ok _ _ _ n (pr_generics g ++ tx " " ++ X)).
  2:{ apply type_name_ok; [exact Hn|]. apply generics_hn; reflexivity. }
  rewrite (bind_ok _ _ _ g (tx " " ++ X)) by (apply opt_generics_print; [exact Hg|reflexivity]).
  rewrite (bind_ok _ _ _ tt X) by (apply space0_ok; reflexivity).
  rewrite (bind_ok _ _ _ vs r) by (apply variants_print; exact Hv). reflexivity.
Qed.
Lemma alias_print n g t r : TypeName n -> GenericsOk g -> TypeOk t -> NoShadow t ->
  @parse_alias F (tx "type" ++ tx " " ++ n ++ pr_generics g ++ tx " = " ++ pr_type t ++ tx ";" ++ r) = POk (PAlias [] n g t) r.
Proof.
  intros Hn Hg Ht Hs. unfold parse_alias. set (X := pr_type t ++ tx ";" ++ r).
  rewrite (bind_ok _ _ _ tt (tx " " ++ n ++ pr_generics g ++ tx " = " ++ X)) by apply tag_app.
  rewrite (bind_ok _ _ _ tt (n ++ pr_generics g ++ tx " = " ++ X)) by (apply space1_one; nm Hn).
  apply cut_ok.
  rewrite (bind_ok _ _ _ n (pr_generics g ++ tx " = " ++ X)).
  2:{ apply type_name_ok; [exact Hn|]. apply generics_hn; reflexivity. }
  rewrite (bind_ok _ _ _ g (tx " = " ++ X)) by (apply opt_generics_print; [exact Hg|reflexivity]).
  rewrite (bind_ok _ _ _ tt (tx "= " ++ X)) by (apply (space0_ok (tx " ")); reflexivity).
  rewrite (bind_ok _ _ _ tt (tx " " ++ X)) by reflexivity.
  rewrite (bind_ok _ _ _ tt X) by (apply space0_ok; [reflexivity|apply mspace_space, type_head_ms, Ht]).
  rewrite (bind_ok _ _ _ t (tx ";" ++ r)) by (apply ptype_print; [exact Ht|exact Hs|reflexivity]).
  rewrite (bind_ok _ _ _ tt (tx ";" ++ r)) by (apply space0_none; reflexivity). reflexivity.
Qed.
Lemma const_print n t v r : ConstName n -> TypeOk t -> NoShadow t -> LitOk v -> good v ->
  parse_const parse_f64 (tx "const" ++ tx " " ++ n ++ tx ": " ++ pr_type t ++ tx " = " ++ pr_literal fmt_f64 esc_u v ++ tx ";" ++ r)
  = POk (PConst [] n t v) r.
Proof.
  intros Hn Ht Hs Hv Hg. unfold parse_const. set (X := pr_literal fmt_f64 esc_u v ++ tx ";" ++ r).
  rewrite (bind_ok _ _ _ tt (tx " " ++ n ++ tx ": " ++ pr_type t ++ tx " = " ++ X)) by apply tag_app.
  rewrite (bind_ok _ _ _ tt (n ++ tx ": " ++ pr_type t ++ tx " = " ++ X)) by (apply space1_one; nm Hn).
  apply cut_ok.
  rewrite (bind_ok _ _ _ n (tx ": " ++ pr_type t ++ tx " = " ++ X)) by (apply const_name_ok; [exact Hn|reflexivity]).
  rewrite (bind_ok _ _ _ tt (tx " " ++ pr_type t ++ tx " = " ++ X)) by reflexivity.
  rewrite (bind_ok _ _ _ tt (pr_type t ++ tx " = " ++ X)) by (apply space0_ok; [reflexivity|apply mspace_space, type_head_ms, Ht]).
  rewrite (bind_ok _ _ _ t (tx " = " ++ X)) by (apply ptype_print; [exact Ht|exact Hs|reflexivity]).
  rewrite (bind_ok _ _ _ tt (tx "= " ++ X)) by (apply (space0_ok (tx " ")); reflexivity).
  rewrite (bind_ok _ _ _ tt (tx " " ++ X)) by reflexivity.
  assert (Good parse_f64 fmt_f64 v) by (split; assumption).
  rewrite (bind_ok _ _ _ tt X) by (apply space0_ok; [reflexivity|apply mspace_space, (literal_hn parse_f64); assumption]).
  rewrite (bind_ok _ _ _ v (tx ";" ++ r)) by (apply literal_print; [assumption|reflexivity]). reflexivity.
Qed.
Lemma import_chain l X : Forall LowerName l -> hn lower_tail X -> (tag (tx "::") ;; lower_name) X = PBack ->
  chain (tag (tx "::") ;; lower_name) (concat (map (fun s => tx "::" ++ s) l) ++ X) l X.
Proof.
  intros Hl HX HB. induction Hl as [|s l Hs Hl IH]; [constructor; exact HB|]. cbn [map concat]. rewrite <- !app_assoc.
  apply chain_cons with (r := concat (map (fun s => tx "::" ++ s) l) ++ X).
  - rewrite (bind_ok _ _ _ tt (s ++ concat (map (fun s => tx "::" ++ s) l) ++ X)) by apply tag_app.
    apply lower_name_ok; [exact Hs|]. destruct l; [exact HX|reflexivity].
  - rewrite (app_length (tx "::")), (app_length s). cbn. lia.
  - exact IH.
Qed.
Lemma join_concat (sep : str) x l : join sep (x :: l) = x ++ concat (map (fun s => sep ++ s) l).
Proof.
  revert x. induction l as [|y l IH]; intros x; [cbn; rewrite app_nil_r; reflexivity|].
  change (join sep (x :: y :: l)) with (x ++ sep ++ join sep (y :: l)). rewrite IH. cbn [map concat]. rewrite <- app_assoc. reflexivity.
Qed.
Lemma import_print s e r : s <> [] -> Forall LowerName s -> match e with Some n => TypeName n | None => True end ->
  @parse_import F (tx "use" ++ tx " " ++ join (tx "::") s ++ match e with Some n => tx "::" ++ n | None => [] end ++ tx ";" ++ r)
  = POk (PImport s e) r.
Proof.
  intros Hne Hs He. destruct s as [|x s]; [contradiction|]. inversion Hs as [|? ? Hx Hs']; subst. unfold parse_import.
  rewrite join_concat, <- app_assoc.
  set (X := match e with Some n => tx "::" ++ n | None => [] end ++ tx ";" ++ r).
  assert (HX : hn lower_tail X) by (unfold X; destruct e; reflexivity).
  assert (HB : (tag (tx "::") ;; lower_name) X = PBack).
  { unfold X. destruct e as [n|]; [|reflexivity]. rewrite <- app_assoc. rewrite (bind_ok _ _ _ tt (n ++ tx ";" ++ r)) by apply tag_app.
    unfold lower_name, ident. apply bind_back. destruct (name_head _ _ _ (tx ";" ++ r) He) as (c & t & -> & Hc). cbn.
    assert (is_lower c = false) as -> by clsg. reflexivity. }
  set (Y := concat (map (fun s => tx "::" ++ s) s) ++ X).
  rewrite (bind_ok _ _ _ tt (tx " " ++ x ++ Y)) by apply tag_app.
  rewrite (bind_ok _ _ _ tt (x ++ Y)) by (apply space1_one; nm Hx).
  apply cut_ok.
  rewrite (bind_ok _ _ _ (x :: s) X).
  2:{ unfold separated1. rewrite (bind_ok _ _ _ x Y).
      - rewrite (bind_ok _ _ _ s X); [reflexivity|]. apply separated_chain. apply import_chain; assumption.
      - apply lower_name_ok; [exact Hx|]. unfold Y. destruct s; [exact HX|reflexivity]. }
  rewrite (bind_ok _ _ _ e (tx ";" ++ r)); [reflexivity|].
  unfold X. destruct e as [n|]; [|reflexivity]. rewrite <- app_assoc. apply opt_ok.
  rewrite (bind_ok _ _ _ tt (n ++ tx ";" ++ r)) by apply tag_app. apply alt_ok, type_name_ok; [exact He|reflexivity].
Qed.

(** * Modules and all definitions *)
Lemma definition_stop n s r : sp s -> match r with c :: _ => c = 125 | [] => True end ->
  parse_definition (S n) (s ++ r) = PBack.
Proof.
  intros Hs Hr. cbn [Parser.parse_definition].
  assert (H : forall f : N -> bool, f 125 = false -> hn f r) by (intros f Hf; destruct r; [exact I|subst; exact Hf]).
  rewrite (bind_ok _ _ _ ([] : comment) r) by (apply comments_none; [exact Hs|apply H; reflexivity|apply H; reflexivity]).
  rewrite (bind_ok _ _ _ [] r) by (apply (attributes_none parse_f64 [] r); [reflexivity|apply H; reflexivity|apply H; reflexivity]).
  rewrite (bind_ok _ _ _ tt r) by (apply space0_none, H; reflexivity).
  destruct r as [|c r]; [reflexivity|]. subst c. reflexivity.
Qed.
Lemma ws_definition n i : ws (parse_definition (S n)) i = parse_definition (S n) i.
Proof. cbn [Parser.parse_definition]. apply (ws_idem comments). Qed.

Lemma join_in_len (l : list str) x : In x l -> (length x <= length (join [10%N] l))%nat.
Proof.
  clear. induction l as [|y l IH]; intros H; [destruct H|]. destruct l as [|z l].
  - destruct H as [->|[]]. cbn. lia.
  - change (join [10] (y :: z :: l)) with (y ++ [10] ++ join [10] (z :: l)). rewrite !app_length.
    destruct H as [->|H]; [lia|]. specialize (IH H). lia.
Qed.

Lemma module_chain n level r ds :
  (forall d s r, In d ds -> sp s -> parse_definition (S n) (s ++ pr_def (S level) d ++ r) = POk d (def_end d ++ r)) ->
  forall s, sp s -> exists s', sp s' /\
    chain (ws (parse_definition (S n))) (s ++ join [10] (map (pr_def (S level)) ds) ++ indent level ++ 125 :: r) ds (s' ++ 125 :: r).
Proof.
  intros Hd. induction ds as [|d ds IH]; intros s Hs.
  - exists (s ++ indent level). split; [apply sp_app; [exact Hs|apply sp_indent]|]. cbn [map join app]. rewrite app_assoc. constructor.
    rewrite ws_definition. apply definition_stop; [apply sp_app; [exact Hs|apply sp_indent]|reflexivity].
  - destruct ds as [|d2 ds].
    + exists (def_end d ++ indent level). split; [apply sp_app; [apply def_end_sp|apply sp_indent]|]. cbn [map join].
      apply chain_cons with (r := def_end d ++ indent level ++ 125 :: r).
      * rewrite ws_definition. apply Hd; [left; reflexivity|exact Hs].
      * rewrite def_split, !app_length. assert (0 < length (def_body (S level) d))%nat by (destruct d; cbn; lia). lia.
      * rewrite app_assoc. constructor. rewrite ws_definition. apply definition_stop; [apply sp_app; [apply def_end_sp|apply sp_indent]|reflexivity].
    + destruct (IH (fun d0 s0 r0 H => Hd d0 s0 r0 (or_intror H)) (def_end d ++ [10])) as (s' & Hs' & Hch).
      { apply sp_app; [apply def_end_sp|reflexivity]. }
      exists s'. split; [exact Hs'|].
      change (join [10] (map (pr_def (S level)) (d :: d2 :: ds))) with (pr_def (S level) d ++ [10] ++ join [10] (map (pr_def (S level)) (d2 :: ds))).
      rewrite <- !app_assoc in *.
      apply chain_cons with (r := def_end d ++ [10] ++ join [10] (map (pr_def (S level)) (d2 :: ds)) ++ indent level ++ 125 :: r).
      * rewrite ws_definition. apply Hd; [left; reflexivity|exact Hs].
      * rewrite def_split. set (J := join _ _). rewrite !app_length. assert (0 < length (def_body (S level) d))%nat by (destruct d; cbn; lia). lia.
      * exact Hch.
Qed.

Lemma def_print n : forall level d s r, (length (pr_def level d) <= n)%nat -> DefOk d -> Forall good (def_lits d) -> sp s ->
  parse_definition (S n) (s ++ pr_def level d ++ r) = POk d (def_end d ++ r).
Proof.
  induction n as [n IH] using lt_wf_ind; intros level d s r Hl Hok Hg Hs.
  destruct (def_header level d s r Hok Hg Hs) as (T & w & Hw & Hc & Ha & _).
  cbn [Parser.parse_definition]. rewrite (bind_ok _ _ _ _ _ Hc), (bind_ok _ _ _ _ _ Ha).
  set (B := def_body level d ++ def_end d ++ r).
  rewrite (bind_ok _ _ _ tt B) by (apply space0_ok; [exact Hw|apply body_hn; reflexivity]).
  set (d0 := match d with
    | PModule _ n ds => PModule [] n ds
    | PStruct _ _ n g fs => PStruct [] [] n g fs
    | PEnum _ _ n g vs => PEnum [] [] n g vs
    | PAlias _ n g t => PAlias [] n g t
    | PConst _ n t v => PConst [] n t v
    | PImport s e => PImport s e
    end).
  rewrite (bind_ok _ _ _ d0 (def_end d ++ r)); [rewrite <- (pdef_finish d Hok) at 4; reflexivity|].
  destruct d as [c nm ds|c a nm g fs|c a nm g vs|c nm g t|c nm t v|im e]; cbn [def_body def_end] in B; subst B d0; rewrite <- !app_assoc;
    cbn [DefOk def_lits] in Hok, Hg.
  - (* module *)
    rewrite (bind_ok _ _ _ 109 _) by reflexivity. cbv beta. change (109 =? 109) with true. cbv iota.
    destruct Hok as (_ & Hn & Hds). apply Forall_fold in Hds. rewrite Forall_forall in Hds, Hg.
    assert (Hlen : forall d, In d ds -> (length (pr_def (S level) d) < n)%nat).
    { intros d Hd. pose proof (join_in_len (map (pr_def (S level)) ds) _ (in_map _ _ _ Hd)) as HJ.
      rewrite def_split in Hl. cbn [def_body] in Hl. set (J := join _ _) in *. rewrite !app_length in Hl. cbn in Hl. lia. }
    assert (Hch : exists m, n = S m \/ ds = []).
    { destruct n as [|m]; [|exists m; auto]. exists O. right. destruct ds as [|d ds]; [reflexivity|]. specialize (Hlen d (or_introl eq_refl)). lia. }
    assert (Hn0 : exists m, n = S m).
    { destruct n as [|m]; [|eauto]. rewrite def_split in Hl. cbn [def_body] in Hl. rewrite !app_length in Hl. cbn in Hl. lia. }
    destruct Hn0 as (m & ->).
    destruct (module_chain m level (tx "" ++ [10] ++ r) ds) with (s := [10]) as (s' & Hs' & Hmc); [|reflexivity|].
    { intros d s0 r0 Hd Hs0. apply IH; [lia| | | |exact Hs0].
      - specialize (Hlen d Hd). lia.
      - apply Hds, Hd.
      - apply Forall_forall. intros q Hq. apply Hg, in_flat_map. eauto. }
    unfold parse_module.
    match goal with |- context [join [10] ?M] => set (J := join [10] M) in * end.
    rewrite (bind_ok _ _ _ tt (tx " " ++ nm ++ tx " {" ++ [10] ++ J ++ indent level ++ tx "}" ++ [10] ++ r)) by apply tag_app.
    rewrite (bind_ok _ _ _ tt (nm ++ tx " {" ++ [10] ++ J ++ indent level ++ tx "}" ++ [10] ++ r)) by (apply space1_one; nm Hn).
    apply cut_ok.
    rewrite (bind_ok _ _ _ nm (tx " {" ++ [10] ++ J ++ indent level ++ tx "}" ++ [10] ++ r)) by (apply lower_name_ok; [exact Hn|reflexivity]).
    rewrite (bind_ok _ _ _ tt (tx "{" ++ [10] ++ J ++ indent level ++ tx "}" ++ [10] ++ r)) by (apply (space0_ok (tx " ")); reflexivity).
    rewrite (bind_ok _ _ _ ds ([10] ++ r)); [reflexivity|].
    unfold surround. rewrite (bind_ok _ _ _ tt ([10] ++ J ++ indent level ++ tx "}" ++ [10] ++ r)) by reflexivity.
    apply cut_ok. rewrite (bind_ok _ _ _ ds (s' ++ 125 :: [10] ++ r)) by (apply repeat_chain, Hmc).
    rewrite (bind_ok _ _ _ tt ([10] ++ r)); [reflexivity|]. rewrite ws_ok; [reflexivity|exact Hs'|reflexivity].
  - rewrite (bind_ok _ _ _ 115 _) by reflexivity. cbv beta. change (115 =? 109) with false. change (115 =? 115) with true. cbv iota.
    apply struct_print; apply Hok.
  - rewrite (bind_ok _ _ _ 101 _) by reflexivity. cbv beta. change (101 =? 109) with false. change (101 =? 115) with false.
    change (101 =? 101) with true. cbv iota. apply enum_print; apply Hok.
  - rewrite (bind_ok _ _ _ 116 _) by reflexivity. cbv beta. change (116 =? 109) with false. change (116 =? 115) with false.
    change (116 =? 101) with false. change (116 =? 99) with false. change (116 =? 116) with true. cbv iota. apply alias_print; apply Hok.
  - rewrite (bind_ok _ _ _ 99 _) by reflexivity. cbv beta. change (99 =? 109) with false. change (99 =? 115) with false.
    change (99 =? 101) with false. change (99 =? 99) with true. cbv iota. inversion Hg; subst. apply const_print; try apply Hok; assumption.
  - rewrite (bind_ok _ _ _ 117 _) by reflexivity. cbv beta. change (117 =? 109) with false. change (117 =? 115) with false.
    change (117 =? 101) with false. change (117 =? 99) with false. change (117 =? 116) with false. change (117 =? 117) with true. cbv iota.
    apply import_print; apply Hok.
Qed.
Lemma pdefinition_print level d s r : DefOk d -> Forall good (def_lits d) -> sp s ->
  pdefinition parse_f64 (s ++ pr_def level d ++ r) = POk d (def_end d ++ r).
Proof. intros. unfold pdefinition. apply def_print; try assumption. rewrite !app_length. lia. Qed.

(** * Schemas *)
Lemma defs_chain ds : Forall DefOk ds -> Forall good (flat_map def_lits ds) -> forall s, sp s ->
  exists s', sp s' /\ chain (pdefinition parse_f64) (s ++ concat (map (fun d => pr_def 0 d ++ [10]) ds)) ds s'.
Proof.
  intros Hok. induction Hok as [|d ds Hd Hok IH]; intros Hg s Hs.
  - exists s. split; [exact Hs|]. cbn. rewrite app_nil_r. constructor. unfold pdefinition.
    rewrite <- (app_nil_r s) at 2. apply definition_stop; [exact Hs|exact I].
  - cbn [flat_map] in Hg. apply Forall_app in Hg as [Hg1 Hg2].
    destruct (IH Hg2 (def_end d ++ [10])) as (s' & Hs' & Hch); [apply sp_app; [apply def_end_sp|reflexivity]|].
    exists s'. split; [exact Hs'|]. cbn [map concat]. rewrite <- !app_assoc in *.
    apply chain_cons with (r := def_end d ++ [10] ++ concat (map (fun d => pr_def 0 d ++ [10]) ds)).
    + apply pdefinition_print; assumption.
    + rewrite def_split. set (J := concat _). rewrite !app_length. assert (0 < length (def_body 0 d))%nat by (destruct d; cbn; lia). lia.
    + exact Hch.
Qed.
Theorem schema_print s : SchemaOk s -> Forall good (schema_lits s) ->
  schema_parse parse_f64 (pr_schema fmt_f64 esc_u s) = Some s.
Proof.
  intros [Hc Hds] Hg. destruct s as [c ds]. cbn [ps_comment ps_defs] in *. unfold schema_lits in Hg. cbn [ps_defs] in Hg.
  unfold schema_parse, pr_schema. cbn [ps_comment ps_defs]. set (D := concat _).
  assert (HD : forall oc, match oc with Some c => c | None => [] end = c ->
    match (pdo ds <- repeat0 (pdefinition parse_f64); multispace0 ;; pret (PSchema (match oc with Some c => c | None => [] end) ds)) D with
    | POk s [] => Some s | _ => None end = Some (PSchema c ds)).
  { intros oc Hoc. destruct (defs_chain ds Hds Hg [] eq_refl) as (s' & Hs' & Hch).
    rewrite (bind_ok _ _ _ ds s') by (apply repeat_chain, Hch).
    rewrite <- (app_nil_r s'). rewrite (bind_ok _ _ _ tt []); [cbn; rewrite <- Hoc; reflexivity|].
    unfold multispace0. apply (map_ok _ _ _ s'). apply take_ok; [exact Hs'|exact I|lia]. }
  unfold parse_schema. destruct c as [|l c].
  - cbn [app]. rewrite (bind_ok _ _ _ None D); [apply (HD None); reflexivity|].
    apply opt_back. unfold D. destruct ds as [|d ds]; [reflexivity|]. cbn [map concat]. rewrite <- app_assoc.
    inversion Hds; subst. cbn [flat_map] in Hg. apply Forall_app in Hg as [Hg1 _].
    destruct (def_header 0 d [] ([10] ++ concat (map (fun d => pr_def 0 d ++ [10]) ds)) ltac:(assumption) Hg1 eq_refl) as (T & w & _ & HH1 & _ & HH2).
    cbn [app] in HH1. rewrite (bind_ok _ _ _ _ _ HH1). apply bind_back. destruct T as [|x T]; [reflexivity|]. apply char_miss. unfold hn in HH2. lia.
  - rewrite (bind_ok _ _ _ (Some (l :: c)) D); [apply (HD (Some (l :: c))); reflexivity|]. apply opt_ok.
    rewrite (bind_ok _ _ _ (l :: c) (10 :: D)); [reflexivity|].
    rewrite <- app_assoc. rewrite ws_none by reflexivity. unfold comments. apply repeat_chain. apply comment_chain; [exact Hc|].
    apply (comment_stop [] (10 :: D)); reflexivity.
Qed.
End Lit.
