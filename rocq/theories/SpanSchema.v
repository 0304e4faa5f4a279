(** Locations of definitions; a whole document. *)
From Verif Require Import Base Syntax Parser ParserSpec ParserTotal ParserRound ParserRound2 CostProofs Printer Lsp LspSpec LspProofs SpanParser LspVisit TokenSpec SpanProofs SpanTypes SpanDefs.
Require Coq.Strings.String.
Import Coq.Strings.String.StringSyntax.
Local Open Scope N_scope.

(** Parsers that stay on a line. *)
Definition clean {A} (p : parser A) : Prop := forall i a r, p i = POk a r -> exists t, i = t ++ r /\ ~ In nl t.
Lemma clean_ret {A} (a : A) : clean (pret a).
Proof. intros i b r H. injection H as <- <-. exists []. split; [reflexivity|intros []]. Qed.
Lemma clean_fail {A} : clean (@pfail A).
Proof. intros i b r H. discriminate. Qed.
Lemma clean_bind {A B} (p : parser A) (f : A -> parser B) : clean p -> (forall a, clean (f a)) -> clean (pbind p f).
Proof.
  intros H K i b r E. unfold pbind in E. destruct (p i) as [a j| | | |] eqn:Ep; try discriminate. apply H in Ep as (t & -> & Ht). apply K in E as (u & -> & Hu).
  exists (t ++ u). rewrite <- app_assoc. split; [reflexivity|]. rewrite in_app_iff. tauto.
Qed.
Lemma clean_opt {A} (p : parser A) : clean p -> clean (opt p).
Proof. intros H i a r E. unfold opt in E. destruct (p i) as [b j| | | |] eqn:Ep; try discriminate; injection E as <- <-; [exact (H _ _ _ Ep)|exists []; split; [reflexivity|intros []]]. Qed.
Lemma clean_cut {A} (p : parser A) : clean p -> clean (cut_err p).
Proof. intros H i a r E. unfold cut_err in E. destruct (p i) as [b j| | | |] eqn:Ep; try discriminate. rewrite <- Ep in E. exact (H _ _ _ E). Qed.
Lemma clean_alt {A} (p q : parser A) : clean p -> clean q -> clean (alt p q).
Proof. intros H K i a r E. unfold alt in E. destruct (p i) as [b j| | | |] eqn:Ep; try discriminate; [rewrite <- Ep in E; exact (H _ _ _ E)|exact (K _ _ _ E)]. Qed.
Lemma clean_map {A B} (f : A -> B) p : clean p -> clean (pmap f p).
Proof. intros H. apply clean_bind; [exact H|]. intros a. apply clean_ret. Qed.
Lemma clean_one f : f nl = false -> clean (one_of f).
Proof. intros Hf i c r E. unfold one_of in E. destruct i as [|x i]; [discriminate|]. destruct (f x) eqn:Ex; [|discriminate]. injection E as <- <-. exists [x]. split; [reflexivity|]. intros [H|[]]. congruence. Qed.
Lemma clean_take m f : f nl = false -> clean (take_while m f).
Proof. intros Hf i a r E. apply take_inv in E as (-> & Ha & _). exists a. split; [reflexivity|]. intros H. rewrite forallb_forall in Ha. apply Ha in H. congruence. Qed.
Lemma clean_char c : c <> nl -> clean (char c).
Proof. intros Hc i a r E. unfold char in E. destruct i as [|x i]; [discriminate|]. destruct (x =? c) eqn:Ex; [|discriminate]. apply N.eqb_eq in Ex. subst x. injection E as <- <-. exists [c]. split; [reflexivity|]. intros [H|[]]. congruence. Qed.

Section Lit.
Context {F : Type}.
Variable pf : str -> option F.
Lemma clean_float : clean (parse_float pf).
Proof.
  unfold parse_float. apply clean_bind; [apply clean_opt, clean_one; reflexivity|]. intros s. apply clean_bind; [apply clean_take; reflexivity|]. intros a.
  apply clean_bind; [apply clean_char; discriminate|]. intros _. apply clean_bind; [apply clean_take; reflexivity|]. intros b.
  apply clean_bind; [|intros e; match goal with |- clean (match ?x with _ => _ end) => destruct x end; [apply clean_ret|apply clean_fail]].
  apply clean_opt. apply clean_bind; [apply clean_one; reflexivity|]. intros c. apply clean_bind; [apply clean_opt, clean_one; reflexivity|]. intros s'.
  apply clean_bind; [apply clean_cut, clean_take; reflexivity|]. intros d. apply clean_ret.
Qed.
Lemma clean_int : clean parse_int.
Proof.
  unfold parse_int. apply clean_bind; [apply clean_opt, clean_one; reflexivity|]. intros s. apply clean_bind; [apply clean_take; reflexivity|]. intros a.
  destruct (int_value s a); [apply clean_ret|apply clean_fail].
Qed.
Definition one_line (v : lit F) : Prop := match v with LBool _ | LInt _ | LFloat _ => True | _ => False end.
Lemma lit_inv i v r : text i -> parse_literal pf i = POk v r ->
  sfx i r /\ (one_line v -> exists t, i = t ++ r /\ t <> [] /\ ~ In nl t /\ match v with LBool true => t = tx "true" | LBool false => t = tx "false" | _ => True end).
Proof.
  intros Ht E. pose proof (spec_literal pf (length i) i Ht (le_n _)) as Hs. rewrite E in Hs. destruct Hs as ((g & Eg & Hg) & _).
  split; [exists g; exact Eg|]. intros Hv. exists g. split; [exact Eg|]. split; [intros ->; cbn in Hg; lia|].
  unfold parse_literal, pbind, peek_any in E. destruct i as [|c i]; [discriminate|].
  destruct (c =? 116) eqn:Et.
  { destruct (tag (tx "true") (c :: i)) as [[] r'| | | |] eqn:E'; try discriminate. apply tag_inv in E'. cbn in E. injection E as <- <-. rewrite E' in Eg. apply app_inv_tail in Eg.
    subst g. split; [noline|reflexivity]. }
  destruct (c =? 102) eqn:Ef.
  { destruct (tag (tx "false") (c :: i)) as [[] r'| | | |] eqn:E'; try discriminate. apply tag_inv in E'. cbn in E. injection E as <- <-. rewrite E' in Eg. apply app_inv_tail in Eg.
    subst g. split; [noline|reflexivity]. }
  destruct (is_sign c || is_digit c) eqn:En.
  { assert (C : clean (cut_err (alt (pmap LFloat (parse_float pf)) (pmap (@LInt F) parse_int)))).
    { apply clean_cut, clean_alt; apply clean_map; [apply clean_float|apply clean_int]. }
    pose proof (C _ _ _ E) as (t & Ett & Hnl). rewrite Ett in Eg. apply app_inv_tail in Eg. subst t. split; [exact Hnl|].
    destruct v as [b| | | |]; try exact I. exfalso. unfold cut_err, alt, pmap, pbind in E. destruct (parse_float pf (c :: i)); try discriminate.
    destruct (parse_int (c :: i)); discriminate. }
  destruct (c =? 34). { unfold pmap, pbind in E. destruct (parse_string (c :: i)); try discriminate. injection E as <- _. contradiction. }
  destruct (c =? 91). { unfold pmap, pbind in E. destruct (parse_bytes (c :: i)); try discriminate. injection E as <- _. contradiction. }
  discriminate.
Qed.

Section Total.
Variable total : N.
Notation offs := (offs total).
Notation tokd := (tokd total).
Notation good := (good total).
Notation at1 := (at1 total).
Lemma both_literal i : text i -> both (fun r x v => fst x = v /\ tokd i r (lit_toks v (snd x)) (lit_items pf v)) (with_span total (parse_literal pf) i) (parse_literal pf i).
Proof.
  intros Ht. apply both_span. destruct (parse_literal pf i) as [v r| | | |] eqn:E; cbn; auto. split; [reflexivity|]. split; [reflexivity|].
  destruct (lit_inv i v r Ht E) as [Hs Hv]. destruct v as [b|z|x|s|s]; cbn [lit_toks lit_items snd].
  - destruct (Hv I) as (t & -> & Hne & Hnl & Et). destruct b; subst t; (apply tokd_one; [reflexivity|exact Hne|exact Hnl]).
  - destruct (Hv I) as (t & -> & Hne & Hnl & _). apply tokd_one; [exists r; exact E|exact Hne|exact Hnl].
  - destruct (Hv I) as (t & -> & Hne & Hnl & _). apply tokd_one; [exists r; exact E|exact Hne|exact Hnl].
  - destruct Hs as (t & ->). apply tokd_silent. exists r. exact E.
  - destruct Hs as (t & ->). apply tokd_silent. exists r. exact E.
Qed.

(** A definition before its comment and attributes are attached. *)
Definition lraw (d : ldef F) : Prop :=
  match d with
  | LModule c _ _ _ _ _ | LStruct c _ _ _ _ _ | LEnum c _ _ _ _ _ _ _ | LAlias c _ _ _ _ _ _ | LConst c _ _ _ _ _ _ _ _ => c = []
  | LImport _ _ _ _ => True
  end.
(** The words of a definition after its comment and attributes. *)
Definition def_body (d : pdef F) : list item :=
  match d with
  | PModule _ n ds => word TkKeyword (tx "mod") :: declared TkNamespace n :: between TkBrace (tx "{") (flat_map (def_items pf) ds) (tx "}")
  | PStruct _ _ n g fs => word TkKeyword (tx "struct") :: declared TkStruct n :: generics_items g ++ fields_items fs
  | PEnum _ _ n g vs =>
      word TkKeyword (tx "enum") :: declared TkEnum n :: generics_items g ++ between TkBrace (tx "{") (punct_items variant_items vs) (tx "}")
  | PAlias _ n g t =>
      word TkKeyword (tx "type") :: declared TkTypeAlias n :: generics_items g ++
      word TkEqual (tx "=") :: type_items t ++ [word TkSemicolon (tx ";")]
  | PConst _ n t v =>
      word TkKeyword (tx "const") :: Item TkVariable [TmDeclaration; TmStatic; TmConstant] (eq n) ::
      word TkColon (tx ":") :: type_items t ++ word TkEqual (tx "=") :: lit_items pf v ++ [word TkSemicolon (tx ";")]
  | PImport segs el =>
      word TkKeyword (tx "use") ::
      match segs with
      | s :: segs' => word TkNamespace s :: flat_map (fun s => [Silent (eq (tx "::")); word TkNamespace s]) segs'
      | [] => []
      end ++ match el with Some n => [word TkDoubleColon (tx "::"); word TkType n] | None => [] end ++ [Silent (eq (tx ";"))]
  end.
Lemma def_items_split d : def_items pf d = def_head pf d ++ def_body d.
Proof. destruct d; reflexivity. Qed.
Lemma both_know {A B} (R : str -> A -> B -> Prop) x y : both R x y -> both (fun r a b => R r a b /\ y = POk b r) x y.
Proof. destruct x, y; cbn; try tauto. intros [-> H]. auto. Qed.
Definition dgood (i r : str) (d : ldef F) (b : pdef F) : Prop := good er_def def_toks (def_items pf) i r d b.
Definition rgood (i r : str) (d : ldef F) (b : pdef F) : Prop := good er_def def_toks def_body i r d b /\ lraw d.

Ltac kw H := eapply both_bind; [apply both_tag|]; intros ?kw [] ?i H.
Ltac tok H := eapply at1_tok; [exact H|reflexivity|first [assumption|discriminate]|first [assumption|noline]].

Lemma both_struct i : text i -> both (rgood i) (lparse_struct total i) (parse_struct i).
Proof.
  intros Ht. unfold lparse_struct, parse_struct. eapply both_bind; [apply both_tag|]. intros kw u i1 H1. pose proof (sfx_text _ _ (at1_sfx _ _ _ _ _ H1) Ht) as T1.
  apply both_space1; [exact T1|]. intros i2 S2 T2. apply both_cut. eapply both_bind; [apply both_name; reflexivity|]. intros n s i3 (-> & H3 & Hne & Hnl).
  pose proof (sfx_text _ _ (at1_sfx _ _ _ _ _ H3) T2) as T3. eapply both_bind; [apply both_generics; exact T3|]. intros g g' i4 [-> H4].
  pose proof (sfx_text _ _ (tokd_sfx _ _ _ _ _ H4) T3) as T4. apply both_space0; [exact T4|]. intros i5 S5 T5.
  eapply both_bind; [apply both_fields; exact T5|]. intros fs b r [-> H6]. apply both_ret. split; [|reflexivity]. split; [reflexivity|]. cbn [def_toks def_body er_def comment_toks comment_items er_comment map app].
  apply (tokd_app total i i1 r [_] _ [_]); [tok H1|]. apply (tokd_pre total i1 i2); [exact S2|]. apply (tokd_app total i2 i3 r [_] _ [_]); [tok H3|].
  apply (tokd_app total i3 i4 r); [exact H4|]. apply (tokd_pre total i4 i5); assumption.
Qed.
Lemma both_enum i : text i -> both (rgood i) (lparse_enum total i) (parse_enum i).
Proof.
  intros Ht. unfold lparse_enum, parse_enum. eapply both_bind; [apply both_tag|]. intros kw u i1 H1. pose proof (sfx_text _ _ (at1_sfx _ _ _ _ _ H1) Ht) as T1.
  apply both_space1; [exact T1|]. intros i2 S2 T2. apply both_cut. eapply both_bind; [apply both_name; reflexivity|]. intros n s i3 (-> & H3 & Hne & Hnl).
  pose proof (sfx_text _ _ (at1_sfx _ _ _ _ _ H3) T2) as T3. eapply both_bind; [apply both_generics; exact T3|]. intros g g' i4 [-> H4].
  pose proof (sfx_text _ _ (tokd_sfx _ _ _ _ _ H4) T3) as T4. apply both_space0; [exact T4|]. intros i5 S5 T5.
  eapply both_bind.
  { apply (both_surround total 123 125 (good (perase er_variant) (punct_toks variant_toks) (punct_items variant_items)));
      [exact T5|intros j m a b [_ H]; exact (tokd_sfx _ _ _ _ _ H)|intros j Hj _].
    apply (both_punctuated total er_variant variant_toks variant_items _ _ (length j)); [|exact Hj|lia]. intros k Tk _. apply both_variant; exact Tk. }
  intros [[o c] vs] b r H6. apply (enclosed_toks total 123 125 _ _ _ i5 r _ b TkBrace) in H6 as [-> H6]; [|discriminate..]. cbn [fst snd] in H6.
  apply both_ret. split; [|reflexivity]. split; [reflexivity|]. cbn [def_toks def_body er_def comment_toks comment_items er_comment map app snd].
  apply (tokd_app total i i1 r [_] _ [_]); [tok H1|]. apply (tokd_pre total i1 i2); [exact S2|]. apply (tokd_app total i2 i3 r [_] _ [_]); [tok H3|].
  apply (tokd_app total i3 i4 r); [exact H4|]. apply (tokd_pre total i4 i5); assumption.
Qed.
Lemma both_alias i : text i -> both (rgood i) (lparse_alias total i) (parse_alias i).
Proof.
  intros Ht. unfold lparse_alias, parse_alias. eapply both_bind; [apply both_tag|]. intros kw u i1 H1. pose proof (sfx_text _ _ (at1_sfx _ _ _ _ _ H1) Ht) as T1.
  apply both_space1; [exact T1|]. intros i2 S2 T2. apply both_cut. eapply both_bind; [apply both_name; reflexivity|]. intros n s i3 (-> & H3 & Hne & Hnl).
  pose proof (sfx_text _ _ (at1_sfx _ _ _ _ _ H3) T2) as T3. eapply both_bind; [apply both_generics; exact T3|]. intros g g' i4 [-> H4].
  pose proof (sfx_text _ _ (tokd_sfx _ _ _ _ _ H4) T3) as T4. apply both_space0; [exact T4|]. intros i5 S5 T5.
  eapply both_bind; [apply both_char|]. intros e u1 i6 H6. pose proof (sfx_text _ _ (at1_sfx _ _ _ _ _ H6) T5) as T6.
  apply both_space0; [exact T6|]. intros i7 S7 T7. eapply both_bind; [apply both_ptype; exact T7|]. intros t b i8 [-> H8].
  pose proof (sfx_text _ _ (tokd_sfx _ _ _ _ _ H8) T7) as T8. apply both_space0; [exact T8|]. intros i9 S9 T9.
  eapply both_bind; [apply both_char|]. intros m u2 r H10. apply both_ret. split; [|reflexivity]. split; [reflexivity|]. cbn [def_toks def_body er_def comment_toks comment_items er_comment map app].
  apply (tokd_app total i i1 r [_] _ [_]); [tok H1|]. apply (tokd_pre total i1 i2); [exact S2|]. apply (tokd_app total i2 i3 r [_] _ [_]); [tok H3|].
  apply (tokd_app total i3 i4 r); [exact H4|]. apply (tokd_pre total i4 i5); [exact S5|]. apply (tokd_app total i5 i6 r [_] _ [_]); [tok H6|].
  apply (tokd_pre total i6 i7); [exact S7|]. apply (tokd_app total i7 i8 r); [exact H8|]. apply (tokd_pre total i8 i9); [exact S9|]. tok H10.
Qed.
Lemma both_const i : text i -> both (rgood i) (lparse_const total pf i) (parse_const pf i).
Proof.
  intros Ht. unfold lparse_const, parse_const. eapply both_bind; [apply both_tag|]. intros kw u i1 H1. pose proof (sfx_text _ _ (at1_sfx _ _ _ _ _ H1) Ht) as T1.
  apply both_space1; [exact T1|]. intros i2 S2 T2. apply both_cut. eapply both_bind; [apply both_name; reflexivity|]. intros n s i3 (-> & H3 & Hne & Hnl).
  pose proof (sfx_text _ _ (at1_sfx _ _ _ _ _ H3) T2) as T3. eapply both_bind; [apply both_char|]. intros k u1 i4 H4. pose proof (sfx_text _ _ (at1_sfx _ _ _ _ _ H4) T3) as T4.
  apply both_space0; [exact T4|]. intros i5 S5 T5. eapply both_bind; [apply both_ptype; exact T5|]. intros t b i6 [-> H6]. pose proof (sfx_text _ _ (tokd_sfx _ _ _ _ _ H6) T5) as T6.
  apply both_space0; [exact T6|]. intros i7 S7 T7. eapply both_bind; [apply both_char|]. intros e u2 i8 H8. pose proof (sfx_text _ _ (at1_sfx _ _ _ _ _ H8) T7) as T8.
  apply both_space0; [exact T8|]. intros i9 S9 T9. eapply both_bind; [apply both_literal; exact T9|]. intros [v vl] v' i10 [E H10]. cbn [fst snd] in E, H10. subst v'.
  eapply both_bind; [apply both_char|]. intros m u3 r H11. apply both_ret. split; [|reflexivity]. split; [reflexivity|]. cbn [def_toks def_body er_def comment_toks comment_items er_comment map app].
  apply (tokd_app total i i1 r [_] _ [_]); [tok H1|]. apply (tokd_pre total i1 i2); [exact S2|]. apply (tokd_app total i2 i3 r [_] _ [_]); [tok H3|].
  apply (tokd_app total i3 i4 r [_] _ [_]); [tok H4|]. apply (tokd_pre total i4 i5); [exact S5|]. apply (tokd_app total i5 i6 r); [exact H6|].
  apply (tokd_pre total i6 i7); [exact S7|]. apply (tokd_app total i7 i8 r [_] _ [_]); [tok H8|]. apply (tokd_pre total i8 i9); [exact S9|].
  apply (tokd_app total i9 i10 r); [exact H10|]. tok H11.
Qed.
(** The modules of an import. *)
Definition seg_tok (n : lname) : list tspan := [tk (ln_loc n) TkNamespace].
Definition seg_item (s : str) : list item := [Silent (eq (tx "::")); word TkNamespace s].
Lemma both_sep_loop n : forall i, text i ->
  both (fun r l l' => l' = map ln_text l /\ tokd i r (flat_map seg_tok l) (flat_map seg_item l'))
    (separated_loop n (lnamed total lower_name) (tag (tx "::")) i) (separated_loop n lower_name (tag (tx "::")) i).
Proof.
  induction n as [|n IH]; intros i Ht; [exact I|]. cbn [separated_loop].
  assert (H : both (fun r a b => b = ln_text a /\ tokd i r (seg_tok a) (seg_item b)) ((tag (tx "::") ;; lnamed total lower_name) i) ((tag (tx "::") ;; lower_name) i)).
  { eapply (both_bind (fun j _ _ => tokd i j [] [Silent (eq (tx "::"))])).
    { destruct (tag (tx "::") i) as [[] j| | | |] eqn:E; cbn; auto. split; [reflexivity|]. apply tag_inv in E. subst i. apply tokd_silent. reflexivity. }
    intros _ _ j Sj. eapply both_weak; [|apply both_name; reflexivity]. intros r a s (-> & H & Hne & Hnl). split; [reflexivity|].
    apply (tokd_app total i j r [] _ [_]); [exact Sj|]. tok H. }
  destruct ((tag (tx "::") ;; lnamed total lower_name) i) as [a r| | | |], ((tag (tx "::") ;; lower_name) i) as [b r'| | | |]; cbn in H; try tauto; try exact I.
  - destruct H as [<- [-> H]]. destruct (length r =? length i)%nat; [exact I|]. specialize (IH r (sfx_text _ _ (tokd_sfx _ _ _ _ _ H) Ht)).
    destruct (separated_loop n (lnamed total lower_name) (tag (tx "::")) r) as [l r1| | | |], (separated_loop n lower_name (tag (tx "::")) r) as [l' r2| | | |]; cbn in IH; try tauto; try exact I.
    destruct IH as [<- [-> Hl]]. split; [reflexivity|]. split; [reflexivity|]. cbn [flat_map map]. exact (tokd_app total i r r1 _ _ _ _ H Hl).
  - split; [reflexivity|]. split; [reflexivity|]. apply tokd_nil, bsfx_refl.
Qed.
Lemma both_import i : text i -> both (rgood i) (lparse_import total i) (parse_import i).
Proof.
  intros Ht. unfold lparse_import, parse_import. eapply both_bind; [apply both_tag|]. intros kw u i1 H1. pose proof (sfx_text _ _ (at1_sfx _ _ _ _ _ H1) Ht) as T1.
  apply both_space1; [exact T1|]. intros i2 S2 T2. apply both_cut.
  eapply (both_bind (fun r l l' => l' = map ln_text l /\ tokd i2 r (flat_map seg_tok l)
      (match l' with s :: segs' => word TkNamespace s :: flat_map seg_item segs' | [] => [] end))).
  { unfold separated1. eapply both_bind; [apply both_name; reflexivity|]. intros n s i3 (-> & H3 & Hne & Hnl). pose proof (sfx_text _ _ (at1_sfx _ _ _ _ _ H3) T2) as T3.
    eapply both_bind; [apply both_sep_loop; exact T3|]. intros l l' r [-> Hl]. apply both_ret. split; [reflexivity|]. cbn [flat_map map].
    apply (tokd_app total i2 i3 r [_] _ [_]); [|exact Hl]. tok H3. }
  intros l l' i4 [-> H4]. pose proof (sfx_text _ _ (tokd_sfx _ _ _ _ _ H4) T2) as T4.
  eapply (both_bind (fun r (e : option (loc * lname)) e' => e' = option_map (fun x => ln_text (snd x)) e
     /\ tokd i4 r (match e with Some (d, n) => [tk d TkDoubleColon; tk (ln_loc n) TkType] | None => [] end)
                  (match e' with Some n => [word TkDoubleColon (tx "::"); word TkType n] | None => [] end))).
  { eapply both_weak; [|apply (both_opt (fun r (e : loc * lname) n => n = ln_text (snd e) /\ tokd i4 r [tk (fst e) TkDoubleColon; tk (ln_loc (snd e)) TkType] [word TkDoubleColon (tx "::"); word TkType n]))].
    - intros r [[d n]|] [n'|] H; try contradiction; [destruct H as [-> H]; split; [reflexivity|exact H]|]. subst r. split; [reflexivity|]. apply tokd_nil, bsfx_refl.
    - eapply both_bind; [apply both_tag|]. intros d u1 j Hj.
      match goal with |- both _ (pbind ?p (fun n => pret (d, n)) j) _ => change (pbind p (fun n => pret (d, n)) j) with (pmap (fun n => (d, n)) p j) end.
      apply both_map_l. cbn [fst snd].
      assert (Hn : both (fun r (n : lname) s => s = ln_text n /\ tokd i4 r [tk d TkDoubleColon; tk (ln_loc n) TkType] [word TkDoubleColon (tx "::"); word TkType s]) (lnamed total type_name j) (type_name j)).
      { eapply both_weak; [|apply both_name; reflexivity]. intros r n s (-> & H & Hne & Hnl). split; [reflexivity|].
        apply (tokd_app total i4 j r [_] [_] [_]); [tok Hj|tok H]. }
      apply both_alt; exact Hn. }
  intros e e' i5 [-> H5]. pose proof (sfx_text _ _ (tokd_sfx _ _ _ _ _ H5) T4) as T5. eapply both_bind; [apply both_char|]. intros m u1 r H6. apply both_ret.
  split; [|exact I]. split; [reflexivity|]. cbn [def_toks def_body er_def].
  apply (tokd_app total i i1 r [_] _ [_]); [tok H1|]. apply (tokd_pre total i1 i2); [exact S2|]. apply (tokd_app total i2 i4 r).
  - rewrite <- flat_single. exact H4.
  - rewrite <- (app_nil_r (match e with Some _ => _ | None => _ end)). apply (tokd_app total i4 i5 r).
    + destruct e as [[d n]|]; exact H5.
    + destruct H6 as [-> _]. apply tokd_silent. reflexivity.
Qed.
Lemma both_module (p : parser (ldef F)) q i : text i -> (forall j, text j -> both (dgood j) (p j) (q j)) -> both (rgood i) (lparse_module total p i) (parse_module q i).
Proof.
  intros Ht Hpq. unfold lparse_module, parse_module. eapply both_bind; [apply both_tag|]. intros kw u i1 H1. pose proof (sfx_text _ _ (at1_sfx _ _ _ _ _ H1) Ht) as T1.
  apply both_space1; [exact T1|]. intros i2 S2 T2. apply both_cut. eapply both_bind; [apply both_name; reflexivity|]. intros n s i3 (-> & H3 & Hne & Hnl).
  pose proof (sfx_text _ _ (at1_sfx _ _ _ _ _ H3) T2) as T3. apply both_space0; [exact T3|]. intros i5 S5 T5.
  eapply both_bind.
  { apply (both_surround total 123 125 (good (map er_def) (flat_map def_toks) (flat_map (def_items pf))));
      [exact T5|intros j m a b [_ H]; exact (tokd_sfx _ _ _ _ _ H)|intros j Hj _].
    apply (both_repeat0 total er_def def_toks (def_items pf) _ _ (length j)); [|exact Hj|lia]. intros k Tk _. apply both_ws; [exact Tk|].
    intros m Sm Tm. eapply both_weak; [|apply Hpq; exact Tm]. intros r a b [-> H]. split; [reflexivity|]. exact (tokd_pre total k m _ _ _ Sm H). }
  intros [[o c] ds] b r H6. apply (enclosed_toks total 123 125 _ _ _ i5 r _ b TkBrace) in H6 as [-> H6]; [|discriminate..]. cbn [fst snd] in H6.
  apply both_ret. split; [|reflexivity]. split; [reflexivity|]. cbn [def_toks def_body er_def comment_toks comment_items er_comment map app snd].
  apply (tokd_app total i i1 r [_] _ [_]); [tok H1|]. apply (tokd_pre total i1 i2); [exact S2|]. apply (tokd_app total i2 i3 r [_] _ [_]); [tok H3|].
  apply (tokd_pre total i3 i5); assumption.
Qed.
Lemma ws_inv {A} (p : parser A) i a r : ws p i = POk a r -> exists j, bsfx i j /\ p j = POk a r.
Proof.
  unfold ws, pbind. destruct (multispace0 i) as [[] j| | | |] eqn:E; try discriminate. intros H. exists j. split; [|exact H].
  unfold multispace0, pmap, pbind in E. destruct (take_while 0 is_mspace i) as [x k| | | |] eqn:Et; try discriminate. injection E as <-.
  exact (take_blank 0 is_mspace i x k (fun c H => H) Et).
Qed.
Lemma attrs_tok i a r : text i -> ws (attributes pf) i = POk a r -> exists t, bsfx i (t ++ r) /\ attr_text pf a t.
Proof.
  intros Ht H. apply ws_inv in H as (j & Sj & H). pose proof (spec_attributes pf (length j) j (bsfx_text _ _ Sj Ht) (le_n _)) as Hs. rewrite H in Hs.
  destruct Hs as ((t & -> & _) & _). exists t. split; [exact Sj|]. exists r. exact H.
Qed.
Lemma comments_tok i c r : text i -> ws comments i = POk c r -> exists t, bsfx i (t ++ r) /\ exists r', comments (t ++ r') = POk c r'.
Proof.
  intros Ht H. apply ws_inv in H as (j & Sj & H). pose proof (spec_comments (length j) j (bsfx_text _ _ Sj Ht) (le_n _)) as Hs. rewrite H in Hs.
  destruct Hs as ((t & -> & _) & _). exists t. split; [exact Sj|]. exists r. exact H.
Qed.
Lemma attach c a (d : ldef F) i i1 i2 r : lraw d -> text i ->
  ws comments i = POk (er_comment c) i1 -> tokd i i1 (comment_toks c) (comment_items (er_comment c)) ->
  ws (attributes pf) i1 = POk a i2 -> tokd i2 r (def_toks d) (def_body (er_def d)) ->
  dgood i r (lwith_attributes a (lwith_comment c d)) (with_attributes a (with_comment (er_comment c) (er_def d))).
Proof.
  intros Hd Ht Hc Hct Ha Hb. pose proof (sfx_text _ _ (tokd_sfx _ _ _ _ _ Hct) Ht) as T1. split; [destruct d; reflexivity|].
  destruct (attrs_tok i1 a i2 T1 Ha) as (t & St & At). destruct (comments_tok i _ i1 Ht Hc) as (u & Su & (r' & Au)).
  assert (S : forall P : str -> Prop, P t -> tokd i1 i2 [] [Silent P]). { intros P HP. apply (tokd_pre total i1 _ _ _ _ St). apply tokd_silent. exact HP. }
  assert (G : forall P : str -> Prop, P t -> tokd i r (comment_toks c ++ def_toks d) ((comment_items (er_comment c) ++ [Silent P]) ++ def_body (er_def d))).
  { intros P HP. rewrite <- app_assoc. apply (tokd_app total i i1 r); [exact Hct|]. apply (tokd_app total i1 i2 r [] _ [_]); [apply S; exact HP|exact Hb]. }
  rewrite def_items_split.
  destruct d; cbn in Hd; try subst;
    first [ exact (G (attr_text pf a) At) | exact (G (fun t => exists a, attr_text pf a t) (ex_intro _ a At)) | idtac ].
  cbn [with_comment with_attributes er_def lwith_comment lwith_attributes def_head]. change (def_toks (@LImport F kw segs el semi)) with ([] ++ ([] ++ def_toks (@LImport F kw segs el semi))).
  match goal with |- tokd _ _ _ ([?x; ?y] ++ ?b) => change ([x; y] ++ b) with ([x] ++ ([y] ++ b)) end.
  apply (tokd_app total i i1 r).
  - apply (tokd_pre total i _ _ _ _ Su). apply tokd_silent. exists (er_comment c), r'. exact Au.
  - apply (tokd_app total i1 i2 r); [apply S; exists a; exact At|exact Hb].
Qed.
Lemma both_definition n : forall i, text i -> both (dgood i) (lparse_definition total pf n i) (parse_definition pf n i).
Proof.
  induction n as [|n IH]; intros i Ht; [exact I|]. cbn [lparse_definition parse_definition].
  eapply both_bind; [apply both_know, both_comments; exact Ht|]. intros c c' i1 [[-> H1] K1]. pose proof (sfx_text _ _ (tokd_sfx _ _ _ _ _ H1) Ht) as T1.
  eapply (both_bind (fun r a b => (a = b /\ sfx i1 r) /\ ws (attributes pf) i1 = POk b r)).
  { apply both_know. apply (both_same (ws (attributes pf)) i1 0 (Forall AttrOk)); [intros m; apply spec_ws, spec_attributes|exact T1|auto]. }
  intros a a' i2 [[<- S2] K2]. pose proof (sfx_text _ _ S2 T1) as T2. apply both_space0; [exact T2|]. intros i3 S3 T3.
  eapply (both_bind (rgood i3)).
  { apply both_peek. intros k. destruct (k =? 109); [apply both_module; assumption|]. destruct (k =? 115); [apply both_struct; exact T3|].
    destruct (k =? 101); [apply both_enum; exact T3|]. destruct (k =? 99); [apply both_const; exact T3|]. destruct (k =? 116); [apply both_alias; exact T3|].
    destruct (k =? 117); [apply both_import; exact T3|exact I]. }
  intros d b r [[-> H4] Hraw]. apply both_ret. apply (attach c a d i i1 i2 r Hraw Ht K1 H1 K2). exact (tokd_pre total i2 i3 _ _ _ S3 H4).
Qed.
Definition lcomment_of (c : option lcomment) : lcomment := match c with Some c => c | None => [] end.
Lemma both_schema i : text i ->
  both (fun r s s' => s' = er_schema s /\ tokd i r (schema_toks s) (schema_items pf s')) (lparse_schema total pf i) (parse_schema pf i).
Proof.
  intros Ht. unfold lparse_schema, parse_schema.
  eapply (both_bind (fun r c c' => c' = option_map er_comment c /\ tokd i r [] (map hush (comment_items (er_comment (lcomment_of c)))))).
  { eapply both_weak; [|apply (both_opt (fun r c c' => c' = er_comment c /\ tokd i r [] (map hush (comment_items (er_comment c)))))].
    - intros r [c|] [c'|] H; try contradiction; [destruct H as [-> H]; auto|]. subst r. split; [reflexivity|apply tokd_nil, bsfx_refl].
    - eapply both_bind; [apply both_comments; exact Ht|]. intros c c' j [-> H]. eapply (both_bind (fun r _ _ => bsfx j r)).
      + apply both_newline.
      + intros _ _ r Sr. apply both_ret. split; [reflexivity|]. apply (tokd_post total i j r); [|exact Sr]. exact (tokd_hush total i j _ _ H). }
  intros c c' i1 [-> S1]. pose proof (sfx_text _ _ (tokd_sfx _ _ _ _ _ S1) Ht) as T1.
  eapply both_bind; [apply (both_repeat0 total er_def def_toks (def_items pf) _ _ (length i1)); [|exact T1|lia]; intros k Tk _; apply both_definition; exact Tk|].
  intros ds ds' i2 [-> H2]. pose proof (sfx_text _ _ (tokd_sfx _ _ _ _ _ H2) T1) as T2.
  eapply (both_bind (fun r _ _ => bsfx i2 r)).
  { apply both_take_blank; auto. }
  intros _ _ r Sr. apply both_ret. split; [destruct c; reflexivity|]. apply (tokd_post total i i2 r); [|exact Sr].
  replace (schema_items pf _) with (map hush (comment_items (er_comment (lcomment_of c))) ++ flat_map (def_items pf) (map er_def ds)) by (destruct c; reflexivity).
  exact (tokd_app total i i1 i2 [] _ _ _ S1 H2).
Qed.
End Total.

(** A document: without the locations the parser's result, and every word is where its location says. *)
Lemma lschema_ok src : text src ->
  option_map er_schema (lschema_parse pf src) = schema_parse pf src
  /\ forall s, lschema_parse pf src = Some s -> tokd (bytes_len src) src [] (schema_toks s) (schema_items pf (er_schema s)).
Proof.
  intros Ht. pose proof (both_schema (bytes_len src) src Ht) as H. unfold lschema_parse, schema_parse.
  destruct (lparse_schema (bytes_len src) pf src) as [s r| | | |], (parse_schema pf src) as [s' r'| | | |]; cbn in H; try tauto; try (split; [reflexivity|discriminate]).
  destruct H as [<- [-> H]]. destruct r as [|c r]; [|split; [reflexivity|discriminate]]. split; [reflexivity|]. intros x Hx. injection Hx as <-. exact H.
Qed.
End Lit.
