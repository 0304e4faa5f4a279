(** Locations of fields, definitions and schemas. *)
From Verif Require Import Base Syntax Parser ParserSpec ParserTotal ParserRound ParserRound2 CostProofs Printer Lsp LspSpec SpanParser LspVisit TokenSpec SpanProofs SpanTypes.
Require Coq.Strings.String.
Import Coq.Strings.String.StringSyntax.
Local Open Scope N_scope.

Section Total.
Variable total : N.
Notation offs := (offs total).
Notation tokd := (tokd total).
Notation good := (good total).
Notation at1 := (at1 total).

Lemma both_id i : text i -> both (good er_id id_toks id_items i) (opt (space0 ;; lparse_id total) i) (opt (space0 ;; parse_id) i).
Proof.
  intros Ht.
  eapply both_weak; [|apply both_opt; apply (both_space0 (fun r (a : lid) n => fst a = n /\ tokd i r [tk (snd a) TkIdentifier] [word TkIdentifier (64 :: dec_str n)]))].
  - intros r [[n l]|] [n'|] H; try contradiction.
    + cbn [fst snd] in H. destruct H as [-> H]. split; [reflexivity|exact H].
    + subst r. split; [reflexivity|]. apply tokd_nil, bsfx_refl.
  - exact Ht.
  - intros j Sj Tj. unfold lparse_id. apply both_span. unfold parse_id, pbind, char. destruct j as [|c j]; [exact I|]. destruct (c =? 64) eqn:E; [|exact I].
    apply N.eqb_eq in E. subst c. destruct (dec_uint (2 ^ 32 - 1) j) as [n r| | | |] eqn:Ed; cbn; auto. apply dec_uint_inv in Ed. subst j.
    split; [reflexivity|]. split; [reflexivity|]. apply (tokd_pre total i _ _ _ _ Sj). cbn [fst snd].
    apply (tokd_one total (64 :: dec_str n) r TkIdentifier [] (eq (64 :: dec_str n))); [reflexivity|discriminate|].
    intros [H|H]; [discriminate|exact (digits_no_nl n H)].
Qed.

(** Comments. *)
Lemma comment_line_assoc i : comment_line i = (space0 ;; pdo l <- (tag (tx "///") ;; space0 ;; take_till 0 (fun c => c =? 10)); char 10 ;; pret l) i.
Proof.
  unfold comment_line. apply bind_cong. intros _ r. symmetry. rewrite bind_assoc. apply bind_cong. intros _ r'. rewrite bind_assoc. reflexivity.
Qed.
Lemma both_newline i : both (fun r _ _ => bsfx i r) (char 10 i) (char 10 i).
Proof.
  unfold char. destruct i as [|c i]; [exact I|]. destruct (c =? 10) eqn:E; [|exact I]. apply N.eqb_eq in E. subst c. split; [reflexivity|]. exists [10]. split; reflexivity.
Qed.
Definition line_tok (l : lname) : list tspan := [TSpan (ln_loc l) TkComment [TmDocumentation]].
Definition line_item (l : str) : list item := [Item TkComment [TmDocumentation] (comment_text l)].
Lemma both_comment_line i : text i -> both (good ln_text line_tok line_item i) (lcomment_line total i) (comment_line i).
Proof.
  intros Ht. rewrite comment_line_assoc. unfold lcomment_line. apply both_space0; [exact Ht|]. intros j Sj Tj.
  eapply (both_bind (fun r (n : lname) s => s = ln_text n /\ tokd j r (line_tok n) (line_item s))).
  - unfold lnamed. apply both_map_l, both_span.
    destruct ((tag (tx "///") ;; space0 ;; take_till 0 (fun c => c =? 10)) j) as [s r| | | |] eqn:E; cbn; auto.
    split; [reflexivity|]. split; [reflexivity|]. unfold pbind in E. destruct (tag (tx "///") j) as [[] j1| | | |] eqn:E1; try discriminate. apply tag_inv in E1. subst j.
    destruct (space0 j1) as [[] j2| | | |] eqn:E2; try discriminate. unfold space0, pmap, pbind in E2.
    destruct (take_while 0 is_space j1) as [b j3| | | |] eqn:E3; try discriminate. apply take_inv in E3 as (-> & Hb & _). cbn in E2. injection E2 as ->.
    unfold take_till in E. apply take_inv in E as (-> & Hs & _). unfold line_tok, line_item. cbn [ln_loc].
    replace (tx "///" ++ b ++ s ++ r) with ((tx "///" ++ b ++ s) ++ r) by (rewrite <- !app_assoc; reflexivity).
    apply tokd_one; [exists b; auto|discriminate|]. intros H. apply in_app_iff in H as [H|H]; [revert H; noline|]. apply in_app_iff in H as [H|H].
    + rewrite forallb_forall in Hb. apply Hb in H. discriminate.
    + rewrite forallb_forall in Hs. apply Hs in H. discriminate.
  - intros n s k [-> H]. eapply (both_bind (fun r _ _ => bsfx k r)).
    + apply both_newline.
    + intros _ _ r Hr. apply both_ret. split; [reflexivity|]. apply (tokd_pre total i j); [exact Sj|]. exact (tokd_post total j k r _ _ H Hr).
Qed.
Lemma flat_single {A B} (f : A -> B) l : flat_map (fun a => [f a]) l = map f l.
Proof. induction l as [|a l IH]; [reflexivity|]. cbn. rewrite IH. reflexivity. Qed.
Lemma both_comments i : text i -> both (good er_comment comment_toks comment_items i) (ws (lcomments total) i) (ws comments i).
Proof.
  intros Ht. apply both_ws; [exact Ht|]. intros j Sj Tj. eapply both_weak; [|apply (both_repeat0 total ln_text line_tok line_item _ _ (length j))]; [|intros k Tk _; apply both_comment_line; exact Tk|exact Tj|lia].
  intros r l l' [-> H]. split; [reflexivity|]. apply (tokd_pre total i j); [exact Sj|]. unfold comment_toks, comment_items.
  rewrite <- !flat_single. exact H.
Qed.

(** Fields. *)
Lemma both_ufield i : text i -> both (good er_ufield ufield_toks ufield_items i) (lparse_unnamed_field total i) (parse_unnamed_field i).
Proof.
  intros Ht. unfold lparse_unnamed_field, parse_unnamed_field. apply both_map_l, both_span.
  eapply (both_bind (tgood total i)).
  { apply both_ws; [exact Ht|]. intros m Sm Tm. eapply both_weak; [|apply both_ptype; exact Tm]. intros r a b [-> H]. split; [reflexivity|]. exact (tokd_pre total i m _ _ _ Sm H). }
  intros t b j [-> H]. eapply both_bind; [apply both_id; exact (sfx_text _ _ (tokd_sfx _ _ _ _ _ H) Ht)|]. intros d d' k [-> Hd]. apply both_ret.
  split; [reflexivity|]. apply (tokd_app total i j k); assumption.
Qed.
Lemma both_nfield i : text i -> both (good er_nfield nfield_toks nfield_items i) (lparse_named_field total i) (parse_named_field i).
Proof.
  intros Ht. unfold lparse_named_field, parse_named_field. eapply both_bind; [apply both_comments; exact Ht|]. intros c c' i0 [-> H0].
  pose proof (sfx_text _ _ (tokd_sfx _ _ _ _ _ H0) Ht) as T0. apply both_map_l, both_span. apply both_space0; [exact T0|]. intros i1 S1 T1.
  eapply both_bind; [apply both_name; reflexivity|]. intros n s i2 (-> & H2 & Hne & Hnl). pose proof (sfx_text _ _ (at1_sfx _ _ _ _ _ H2) T1) as T2.
  apply both_space0; [exact T2|]. intros i3 S3 T3. eapply both_bind; [apply both_char|]. intros m u i4 H4. pose proof (sfx_text _ _ (at1_sfx _ _ _ _ _ H4) T3) as T4.
  apply both_space0; [exact T4|]. intros i5 S5 T5. eapply both_bind; [apply both_ptype; exact T5|]. intros t b i6 [-> H6].
  pose proof (sfx_text _ _ (tokd_sfx _ _ _ _ _ H6) T5) as T6. eapply both_bind; [apply both_id; exact T6|]. intros d d' i7 [-> H7]. apply both_ret.
  split; [reflexivity|]. unfold nfield_toks, nfield_items. cbn [lnf_comment lnf_name lnf_colon lnf_ty lnf_id er_nfield nf_comment nf_name nf_ty nf_id].
  apply (tokd_app total i i0 i7); [exact H0|]. apply (tokd_pre total i0 i1); [exact S1|].
  apply (tokd_app total i1 i2 i7 [_] _ [_]); [eapply at1_tok; [exact H2|reflexivity|exact Hne|exact Hnl]|]. apply (tokd_pre total i2 i3); [exact S3|].
  apply (tokd_app total i3 i4 i7 [_] _ [_]); [eapply at1_tok; [exact H4|reflexivity|discriminate|noline]|]. apply (tokd_pre total i4 i5); [exact S5|].
  apply (tokd_app total i5 i6 i7); assumption.
Qed.
Lemma both_peek {A B} (R : str -> A -> B -> Prop) f g i : (forall c, both R (f c i) (g c i)) -> both R (pbind peek_any f i) (pbind peek_any g i).
Proof. intros H. unfold pbind, peek_any. destruct i as [|c i]; [exact I|]. apply H. Qed.
Lemma both_fields i : text i -> both (good er_fields fields_toks fields_items i) (lparse_fields total i) (parse_fields i).
Proof.
  intros Ht. unfold lparse_fields, parse_fields. apply both_peek. intros c. destruct (c =? 123).
  - apply both_map_l, both_map_r.
    eapply both_weak; [|apply (both_surround total 123 125 (good (perase er_nfield) (punct_toks nfield_toks) (punct_items nfield_items)));
      [exact Ht|intros j m a b [_ H]; exact (tokd_sfx _ _ _ _ _ H)|intros j Hj _]].
    + intros r [[o e] l] b H. apply (enclosed_toks total 123 125 _ _ _ i r _ b TkBrace) in H as [-> H]; [|discriminate..]. split; [reflexivity|exact H].
    + apply (both_punctuated total er_nfield nfield_toks nfield_items _ _ (length j)); [|exact Hj|lia]. intros k Tk _. apply both_nfield; exact Tk.
  - destruct (c =? 40); [|apply both_ret; split; [reflexivity|apply tokd_nil, bsfx_refl]]. apply both_map_l, both_map_r.
    eapply both_weak; [|apply (both_surround total 40 41 (good (perase er_ufield) (punct_toks ufield_toks) (punct_items ufield_items)));
      [exact Ht|intros j m a b [_ H]; exact (tokd_sfx _ _ _ _ _ H)|intros j Hj _]].
    + intros r [[o e] l] b H. apply (enclosed_toks total 40 41 _ _ _ i r _ b TkParenthesis) in H as [-> H]; [|discriminate..]. split; [reflexivity|exact H].
    + apply (both_punctuated total er_ufield ufield_toks ufield_items _ _ (length j)); [|exact Hj|lia]. intros k Tk _. apply both_ufield; exact Tk.
Qed.
Lemma both_generics i : text i -> both (good er_generics generics_toks generics_items i) (opt (lparse_generics total) i) (opt parse_generics i).
Proof.
  intros Ht.
  assert (H : both (fun r a b => b = p_map (fun e => ln_text (fst e)) a /\ tokd i r (punct_toks (fun n => [decl n TkTypeParameter]) a)
                    (Silent (eq (tx "<")) :: punct_items (fun n => [declared TkTypeParameter n]) b ++ [Silent (eq (tx ">"))]))
                (lparse_generics total i) (parse_generics i)).
  { unfold lparse_generics, parse_generics. apply both_map_l.
    eapply both_weak; [|apply (both_surround total 60 62 (good (perase ln_text) (punct_toks (fun n => [decl n TkTypeParameter])) (punct_items (fun n => [declared TkTypeParameter n]))));
      [exact Ht|intros j m a b [_ H]; exact (tokd_sfx _ _ _ _ _ H)|intros j Hj _]].
    - intros r [[o e] l] b H. apply enclosed_silent in H as [-> H]. split; [reflexivity|exact H].
    - apply (both_punctuated total ln_text (fun n => [decl n TkTypeParameter]) (fun n => [declared TkTypeParameter n]) _ _ (length j)); [|exact Hj|lia].
      intros k Tk _. apply both_ws; [exact Tk|]. intros m Sm Tm. eapply both_weak; [|apply both_name; reflexivity]. intros r n s (-> & H & Hne & Hnl).
      split; [reflexivity|]. apply (tokd_pre total k m); [exact Sm|]. eapply at1_tok; [exact H|reflexivity|exact Hne|exact Hnl]. }
  eapply both_weak; [|apply both_opt; exact H]. intros r [a|] [b|] K; try contradiction.
  - destruct K as [-> K]. split; [reflexivity|exact K].
  - subst r. split; [reflexivity|]. apply tokd_nil, bsfx_refl.
Qed.
Lemma both_variant i : text i -> both (good er_variant variant_toks variant_items i) (lparse_variant total i) (parse_variant i).
Proof.
  intros Ht. unfold lparse_variant, parse_variant. eapply both_bind; [apply both_comments; exact Ht|]. intros c c' i0 [-> H0].
  pose proof (sfx_text _ _ (tokd_sfx _ _ _ _ _ H0) Ht) as T0. apply both_map_l, both_span. apply both_space0; [exact T0|]. intros i1 S1 T1.
  eapply both_bind; [apply both_name; reflexivity|]. intros n s i2 (-> & H2 & Hne & Hnl). pose proof (sfx_text _ _ (at1_sfx _ _ _ _ _ H2) T1) as T2.
  apply both_space0; [exact T2|]. intros i3 S3 T3. eapply both_bind; [apply both_fields; exact T3|]. intros fs b i6 [-> H6].
  pose proof (sfx_text _ _ (tokd_sfx _ _ _ _ _ H6) T3) as T6. eapply both_bind; [apply both_id; exact T6|]. intros d d' i7 [-> H7]. apply both_ret.
  split; [reflexivity|]. unfold variant_toks, variant_items. cbn [lv_comment lv_name lv_fields lv_id er_variant pv_comment pv_name pv_fields pv_id].
  apply (tokd_app total i i0 i7); [exact H0|]. apply (tokd_pre total i0 i1); [exact S1|].
  apply (tokd_app total i1 i2 i7 [_] _ [_]); [eapply at1_tok; [exact H2|reflexivity|exact Hne|exact Hnl]|]. apply (tokd_pre total i2 i3); [exact S3|].
  apply (tokd_app total i3 i6 i7); assumption.
Qed.
End Total.
