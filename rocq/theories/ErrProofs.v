(** The parser with errors is the parser of Parser.v, and the position of an error is where the parser stopped. *)
From Verif Require Import Base Syntax Parser ParserSpec ParserTotal Grammar GrammarSound Lsp SpanParser SpanProofs ErrParser.
Require Coq.Strings.String.
Import Coq.Strings.String.StringSyntax.
Local Open Scope N_scope.

Section Total.
Variable total : N.
Notation offs := (offs total).

(** [ep] does on [i] what [p] does; what it leaves is the end of [i]; an error is where it stopped. *)
Section Comb.
(** What is known of the error's innermost type. *)
Variable Q : layer -> Prop.
Definition stopped (i : str) (e : err) (r : str) : Prop := sfx i r /\ er_at e = offs r /\ Q (er_layer e).
Definition agree {A} (i : str) (x : eres A) (y : pres A) : Prop :=
  match x, y with
  | EOk a r, POk b r' => a = b /\ r = r' /\ sfx i r
  | EErr false e r, PBack => stopped i e r
  | EErr true e r, PCut => stopped i e r
  | EBug, PBug | EFuel, PFuel => True
  | _, _ => False
  end.
Definition follows {A} (ep : eparser A) (p : parser A) : Prop := forall i, agree i (ep i) (p i).

Lemma stopped_trans i j e r : sfx i j -> stopped j e r -> stopped i e r.
Proof. intros H [K E]. split; [exact (sfx_trans _ _ _ H K)|exact E]. Qed.
Lemma agree_trans {A} i j (x : eres A) y : sfx i j -> agree j x y -> agree i x y.
Proof.
  intros H. destruct x as [a r|[] e r| |], y; cbn; try tauto; [intros (E1 & E2 & K); repeat split; auto; exact (sfx_trans _ _ _ H K)|..];
    apply stopped_trans; exact H.
Qed.

Definition moves {A} (p : parser A) : Prop := forall i a r, p i = POk a r -> sfx i r.
Lemma follows_moves {A} (ep : eparser A) p : follows ep p -> moves p.
Proof. intros H i a r E. specialize (H i). rewrite E in H. destruct (ep i) as [b s|[] e s| |]; cbn in H; try tauto. destruct H as (_ & <- & H). exact H. Qed.

(** * Combinators *)
Lemma f_prim {A} ly (p : parser A) : Q ly -> moves p -> follows (prim total ly p) p.
Proof.
  intros Hq H i. unfold prim. destruct (p i) eqn:E; cbn; auto.
  - repeat split; auto. exact (H _ _ _ E).
  - split; [apply sfx_refl|split; [reflexivity|assumption]].
  - split; [apply sfx_refl|split; [reflexivity|assumption]].
Qed.
Lemma f_ret {A} (a : A) : follows (eret a) (pret a).
Proof. intros i. cbn. repeat split. apply sfx_refl. Qed.
Lemma f_fail {A} ly : Q ly -> follows (@efail total ly A) (@pfail A).
Proof. intros Hq i. cbn. split; [apply sfx_refl|split; [reflexivity|assumption]]. Qed.
Lemma f_bind {A B} (ep : eparser A) p (f : A -> eparser B) g : follows ep p -> (forall a, follows (f a) (g a)) -> follows (ebind ep f) (pbind p g).
Proof.
  intros H K i. specialize (H i). unfold ebind, pbind. destruct (ep i) as [a r|[] e r| |], (p i) as [b s| | | |]; cbn in H |- *; try tauto.
  destruct H as (<- & <- & H). exact (agree_trans _ _ _ _ H (K a r)).
Qed.
Lemma f_map {A B} (f : A -> B) ep p : follows ep p -> follows (emap f ep) (pmap f p).
Proof. intros H. apply f_bind; [exact H|]. intros a. apply f_ret. Qed.
Lemma f_cut {A} (ep : eparser A) p : follows ep p -> follows (ecut ep) (cut_err p).
Proof. intros H i. specialize (H i). unfold ecut, cut_err. destruct (ep i) as [a r|[] e r| |], (p i); cbn in H |- *; tauto. Qed.
Lemma f_alt {A} (ep eq : eparser A) p q : follows ep p -> follows eq q -> follows (ealt ep eq) (alt p q).
Proof. intros H K i. specialize (H i). specialize (K i). unfold ealt, alt. destruct (ep i) as [a r|[] e r| |], (p i); cbn in H |- *; tauto. Qed.
Lemma f_opt {A} (ep : eparser A) p : follows ep p -> follows (eopt ep) (opt p).
Proof.
  intros H i. specialize (H i). unfold eopt, opt. destruct (ep i) as [a r|[] e r| |], (p i); cbn in H |- *; try tauto.
  - destruct H as (<- & <- & H). auto.
  - repeat split. apply sfx_refl.
Qed.
Lemma f_repeat_loop {A} (ep : eparser A) p n : follows ep p -> follows (erepeat_loop n ep) (repeat_loop n p).
Proof.
  intros H. induction n as [|n IH]; intros i; [exact I|]. cbn [erepeat_loop repeat_loop]. pose proof (H i) as K.
  destruct (ep i) as [a r|[] e r| |], (p i) as [b s| | | |]; cbn in K |- *; try tauto.
  - destruct K as (<- & <- & K). destruct (length r =? length i)%nat; [exact I|]. specialize (IH r).
    destruct (erepeat_loop n ep r) as [l t|[] e t| |], (repeat_loop n p r); cbn in IH |- *; try tauto.
    + destruct IH as (<- & <- & IH). repeat split; auto. exact (sfx_trans _ _ _ K IH).
    + exact (stopped_trans _ _ _ _ K IH).
    + exact (stopped_trans _ _ _ _ K IH).
  - repeat split. apply sfx_refl.
Qed.
Lemma f_repeat0 {A} (ep : eparser A) p : follows ep p -> follows (erepeat0 ep) (repeat0 p).
Proof. intros H i. apply f_repeat_loop; exact H. Qed.
Lemma f_repeat1 {A} (ep : eparser A) p : follows ep p -> follows (erepeat1 ep) (repeat1 p).
Proof. intros H. apply f_bind; [exact H|]. intros a. apply f_bind; [apply f_repeat0; exact H|]. intros l. apply f_ret. Qed.
Lemma f_separated_loop {A B} (ep : eparser A) p (es : eparser B) s n : follows ep p -> follows es s -> follows (eseparated_loop n ep es) (separated_loop n p s).
Proof.
  intros H Hs. induction n as [|n IH]; intros i; [exact I|]. cbn [eseparated_loop separated_loop].
  assert (K := f_bind es s (fun _ => ep) (fun _ => p) Hs (fun _ => H) i).
  destruct (ebind es (fun _ => ep) i) as [a r|[] e r| |], (pbind s (fun _ => p) i) as [b s'| | | |]; cbn in K |- *; try tauto.
  - destruct K as (<- & <- & K). destruct (length r =? length i)%nat; [exact I|]. specialize (IH r).
    destruct (eseparated_loop n ep es r) as [l t|[] e t| |], (separated_loop n p s r); cbn in IH |- *; try tauto.
    + destruct IH as (<- & <- & IH). repeat split; auto. exact (sfx_trans _ _ _ K IH).
    + exact (stopped_trans _ _ _ _ K IH).
    + exact (stopped_trans _ _ _ _ K IH).
  - repeat split. apply sfx_refl.
Qed.
Lemma f_separated1 {A B} (ep : eparser A) p (es : eparser B) s : follows ep p -> follows es s -> follows (eseparated1 ep es) (separated1 p s).
Proof.
  intros H Hs. apply f_bind; [exact H|]. intros a. apply f_bind; [|intros l; apply f_ret].
  intros i. apply f_separated_loop; assumption.
Qed.
Lemma f_cause {A} ly c (ep : eparser A) p : Q ly -> follows ep p -> follows (ecause total ly c ep) p.
Proof.
  intros Hq H i. specialize (H i). unfold ecause. destruct (ep i) as [a r|[] e r| |], (p i); cbn in H |- *; try tauto.
  - destruct H as [H _]. split; [exact H|split; [reflexivity|assumption]].
  - destruct H as [H _]. split; [exact H|split; [reflexivity|assumption]].
Qed.
Lemma f_within {A} ly at_ (ep : eparser A) p : follows ep p -> follows (within ly at_ ep) p.
Proof. intros H i. specialize (H i). unfold within. destruct (ep i) as [a r|[] e r| |], (p i); cbn in H |- *; tauto. Qed.
Lemma f_verify {A B} ly (f : A -> option B) ep p : Q ly -> follows ep p ->
  follows (everify total ly f ep) (pbind p (fun a => match f a with Some b => pret b | None => pfail end)).
Proof.
  intros Hq H i. specialize (H i). unfold everify, pbind. destruct (ep i) as [a r|[] e r| |], (p i); cbn in H |- *; try tauto.
  destruct H as (<- & <- & H). destruct (f a); cbn; [auto|]. split; [apply sfx_refl|split; [reflexivity|assumption]].
Qed.

(** * Primitives *)
Lemma m_app (i s r : str) : i = s ++ r -> sfx i r. Proof. intros E. exists s. exact E. Qed.
Lemma m_char c : moves (char c).
Proof. intros i a r E. apply char_inv in E. exact (m_app _ _ _ E). Qed.
Lemma m_tag s : moves (tag s).
Proof. intros i a r E. apply tag_inv' in E. exact (m_app _ _ _ E). Qed.
Lemma m_take m f : moves (take_while m f).
Proof. intros i a r E. apply GrammarSound.take_inv in E as [E _]. exact (m_app _ _ _ E). Qed.
Lemma m_map {A B} (f : A -> B) p : moves p -> moves (pmap f p).
Proof. intros H i a r E. apply map_inv in E as (b & E & _). exact (H _ _ _ E). Qed.
Lemma m_till m f : moves (take_till m f). Proof. apply m_take. Qed.
Lemma m_space0 : moves space0. Proof. apply m_map, m_take. Qed.
Lemma m_space1 : moves space1. Proof. apply m_map, m_take. Qed.
Lemma m_multispace0 : moves multispace0. Proof. apply m_map, m_take. Qed.
Lemma m_multispace1 : moves multispace1. Proof. apply m_map, m_take. Qed.
Lemma m_one_of f : moves (one_of f).
Proof. intros [|c i] a r E; [discriminate|]. cbn in E. destruct (f c); [|discriminate]. injection E as _ <-. exists [c]. reflexivity. Qed.
Lemma m_peek : moves peek_any.
Proof. intros i a r E. apply peek_inv in E as [-> _]. apply sfx_refl. Qed.
Lemma m_between m f : moves (take_between m f).
Proof.
  intros i a r E. unfold take_between in E. destruct (span_max_split m f i) as (x & y & Es & -> & _). rewrite Es in E. destruct x; [discriminate|].
  injection E as <- <-. eexists. reflexivity.
Qed.
Lemma m_ident f g : moves (Parser.ident f g).
Proof. intros i a r E. apply GrammarSound.ident_inv in E as [E _]. exact (m_app _ _ _ E). Qed.
Lemma m_uint m : moves (dec_uint m).
Proof. intros i a r E. apply GrammarSound.dec_uint_inv in E as (d & E & _). exact (m_app _ _ _ E). Qed.

Ltac moving := first [apply m_char|apply m_tag|apply m_take|apply m_till|apply m_space0|apply m_space1|apply m_multispace0|apply m_multispace1|apply m_one_of
                     |apply m_peek|apply m_between|apply m_ident|apply m_uint].

Lemma f_ws {A} ly (ep : eparser A) p : Q ly -> follows ep p -> follows (ews total ly ep) (ws p).
Proof. intros Hq H. apply f_bind; [apply f_prim; [exact Hq|moving]|]. intros _. exact H. Qed.
Lemma f_punct_loop {A} (ef : eparser A) f eg g n : follows ef f -> follows eg g ->
  forall acc prev i, match prev with Some s => sfx s i | None => True end ->
  match prev with Some s => agree s (epunct_loop n ef eg acc prev i) (punct_loop n f g acc prev i)
                | None => agree i (epunct_loop n ef eg acc prev i) (punct_loop n f g acc prev i) end.
Proof.
  intros Hf Hg. induction n as [|n IH]; intros acc prev i Hp; [destruct prev; exact I|]. cbn [epunct_loop punct_loop].
  pose proof (Hf i) as K. destruct (ef i) as [a r|[] e r| |], (f i) as [b s| | | |]; cbn in K; try tauto; try (destruct prev; exact I).
  - destruct K as (<- & <- & K). destruct (length r =? length i)%nat; [destruct prev; exact I|]. specialize (IH (acc ++ [a]) (Some i) r K). cbn iota beta in IH.
    destruct prev as [s|]; [exact (agree_trans _ _ _ _ Hp IH)|exact IH].
  - destruct prev as [s|]; cbn; [exact (stopped_trans _ _ _ _ Hp K)|exact K].
  - pose proof (Hg i) as L. destruct (eg i) as [[a t] r'|[] e' r'| |], (g i) as [[b t'] s'| | | |]; cbn in L; try tauto; try (destruct prev; exact I).
    + destruct L as (E & <- & L). injection E as <- <-. destruct prev as [s|]; cbn; repeat split; auto. exact (sfx_trans _ _ _ Hp L).
    + destruct prev as [s|]; cbn; [exact (stopped_trans _ _ _ _ Hp L)|exact L].
    + destruct prev as [s|]; [|exact L]. pose proof (Hg s) as M.
      destruct (eg s) as [[a t] r2|[] e2 r2| |], (g s) as [[b t'] s2| | | |]; cbn in M |- *; try tauto.
      destruct M as (E & <- & M). injection E as <- <-. auto.
Qed.
Lemma f_punctuate {A} (ef : eparser A) f eg g : follows ef f -> follows eg g -> follows (epunctuate ef eg) (punctuate f g).
Proof. intros Hf Hg i. exact (f_punct_loop ef f eg g _ Hf Hg [] None i I). Qed.
Lemma f_punctuated {A} ly (e : eparser A) p : Q ly -> follows e p -> follows (epunctuated total ly e) (punctuated p).
Proof.
  intros Hq H. apply f_punctuate; (apply f_bind; [exact H|]; intros a).
  - apply f_bind; [apply f_ws; [exact Hq|apply f_prim; [exact Hq|moving]]|]. intros _. apply f_ret.
  - apply f_bind; [apply f_opt, f_ws; [exact Hq|apply f_prim; [exact Hq|moving]]|]. intros t. apply f_ret.
Qed.
Lemma f_surround {A} ly o c (e : eparser A) p : Q ly -> follows e p -> follows (esurround total ly o c e) (surround o c p).
Proof.
  intros Hq H. apply f_bind; [apply f_prim; [exact Hq|moving]|]. intros _. apply f_cut, f_bind; [exact H|]. intros a. apply f_bind; [apply f_ws; [exact Hq|apply f_prim; [exact Hq|moving]]|].
  intros _. apply f_ret.
Qed.

End Comb.

(** The types of the errors that are never shown. *)
Definition shown (ly : layer) : Prop := ly <> LyComment /\ ly <> LyId.
Definition nocut {A} (p : parser A) : Prop := forall i, p i <> PCut.
Lemma shown_opt {A} (ep : eparser A) p : follows (fun _ => True) ep p -> nocut p -> follows shown (eopt ep) (opt p).
Proof.
  intros H Hn i. specialize (H i). specialize (Hn i). unfold eopt, opt. destruct (ep i) as [a r|[] e r| |], (p i); cbn in H |- *; try tauto; try contradiction.
  - destruct H as (<- & <- & H). auto.
  - repeat split. apply sfx_refl.
Qed.
Lemma shown_repeat_loop {A} (ep : eparser A) p n : follows (fun _ => True) ep p -> nocut p -> follows shown (erepeat_loop n ep) (repeat_loop n p).
Proof.
  intros H Hn. induction n as [|n IH]; intros i; [exact I|]. cbn [erepeat_loop repeat_loop]. pose proof (H i) as K. pose proof (Hn i) as L.
  destruct (ep i) as [a r|[] e r| |], (p i) as [b s| | | |]; cbn in K |- *; try tauto; try contradiction.
  - destruct K as (<- & <- & K). destruct (length r =? length i)%nat; [exact I|]. specialize (IH r).
    destruct (erepeat_loop n ep r) as [l t|[] e t| |], (repeat_loop n p r); cbn in IH |- *; try tauto.
    + destruct IH as (<- & <- & IH). repeat split; auto. exact (sfx_trans _ _ _ K IH).
    + exact (stopped_trans _ _ _ _ _ K IH).
    + exact (stopped_trans _ _ _ _ _ K IH).
  - repeat split. apply sfx_refl.
Qed.
Lemma shown_repeat0 {A} (ep : eparser A) p : follows (fun _ => True) ep p -> nocut p -> follows shown (erepeat0 ep) (repeat0 p).
Proof. intros H Hn i. apply shown_repeat_loop; assumption. Qed.
Lemma nc_bind {A B} (p : parser A) (f : A -> parser B) : nocut p -> (forall a, nocut (f a)) -> nocut (pbind p f).
Proof. intros H K i. specialize (H i). unfold pbind. destruct (p i); try discriminate; [apply K|contradiction]. Qed.
Lemma nc_ret {A} (a : A) : nocut (pret a). Proof. intros i. discriminate. Qed.
Lemma nc_char c : nocut (char c). Proof. intros [|x i]; cbn; [discriminate|]. destruct (x =? c); discriminate. Qed.
Lemma nc_tag s : nocut (tag s).
Proof. induction s as [|c s IH]; intros [|x i]; cbn; try discriminate. destruct (x =? c); [apply IH|discriminate]. Qed.
Lemma nc_take m f : nocut (take_while m f).
Proof. intros i. unfold take_while. destruct (span f i). destruct (_ <? _)%nat; discriminate. Qed.
Lemma nc_space0 : nocut space0. Proof. apply nc_bind; [apply nc_take|intros a; apply nc_ret]. Qed.
Lemma nc_uint m : nocut (dec_uint m).
Proof.
  intros [|c i]; cbn; [discriminate|]. destruct ((49 <=? c) && (c <=? 57)).
  - destruct (span is_digit i). destruct (_ <=? m); discriminate.
  - destruct (c =? 48); discriminate.
Qed.

Ltac moving := first [apply m_char|apply m_tag|apply m_take|apply m_till|apply m_space0|apply m_space1|apply m_multispace0|apply m_multispace1|apply m_one_of
                     |apply m_peek|apply m_between|apply m_ident|apply m_uint].
(** One step towards the pieces of a parser. *)
Ltac fstep := first
  [ assumption | exact I | (split; discriminate) | apply f_ret | apply f_fail | apply f_within | apply f_cause | apply f_cut | apply f_surround | apply f_punctuated | apply f_ws | apply f_map
  | apply f_repeat0 | apply f_repeat1 | apply f_separated1 | apply f_opt | apply f_alt | (apply f_prim; [|moving]) | (apply f_bind; [|intros ?]) ].
Ltac fsteps := repeat fstep.

(** * The parsers *)
Lemma f_basic : follows shown (eparse_basic total) parse_basic.
Proof. unfold eparse_basic, parse_basic. fsteps. destruct (basic_keyword _); fsteps. Qed.
Section Types.
Variables (ep : eparser pty) (p : parser pty).
Hypothesis H : follows shown ep p.
Lemma f_single mk : follows shown (eparse_single total mk ep) (parse_single mk p).
Proof. unfold eparse_single, parse_single. fsteps. Qed.
Lemma f_generic : follows shown (eparse_generic total ep) (parse_generic p).
Proof.
  unfold eparse_generic, parse_generic. fsteps. destruct (str_eqb _ _); [apply f_single|]. destruct (str_eqb _ _); [unfold eparse_pair, parse_pair; fsteps|].
  repeat (destruct (str_eqb _ _); [apply f_single|]). fsteps.
Qed.
Lemma f_tuple : follows shown (eparse_tuple total ep) (parse_tuple p).
Proof. unfold eparse_tuple, parse_tuple. fsteps. Qed.
Lemma f_array : follows shown (eparse_array total ep) (parse_array p).
Proof. unfold eparse_array, parse_array. fsteps. Qed.
Lemma f_segment : follows shown (eparse_segment total) lower_name.
Proof. unfold eparse_segment. fsteps. Qed.
Lemma f_external : follows shown (eparse_external total ep) (parse_external p).
Proof. unfold eparse_external, parse_external. pose proof f_segment. fsteps. Qed.
End Types.
Lemma f_type n : follows shown (eparse_type total n) (parse_type n).
Proof.
  induction n as [|n IH]; [intros i; exact I|]. intros i. cbn [eparse_type parse_type].
  pose proof f_basic. pose proof (f_generic _ _ IH). pose proof (f_tuple _ _ IH). pose proof (f_array _ _ IH). pose proof (f_external _ _ IH).
  revert i. match goal with |- forall i, agree shown i (?e i) (?p i) => change (follows shown e p) end. fsteps.
Qed.
Lemma f_ptype : follows shown (eptype total) ptype.
Proof. intros i. apply f_type. Qed.
Lemma f_id : follows (fun _ => True) (eparse_id total) parse_id.
Proof. unfold eparse_id, parse_id. fsteps. Qed.
Lemma f_line : follows (fun _ => True) (ecomment_line total) comment_line.
Proof. unfold ecomment_line, comment_line. fsteps. Qed.
Lemma f_comments : follows shown (ecomments total) comments.
Proof.
  unfold ecomments, comments. apply f_within, shown_repeat0; [exact f_line|].
  apply nc_bind; [apply nc_space0|]. intros _. apply nc_bind; [apply nc_tag|]. intros _. apply nc_bind; [apply nc_space0|]. intros _.
  apply nc_bind; [apply nc_take|]. intros l. apply nc_bind; [apply nc_char|]. intros _. apply nc_ret.
Qed.
Lemma f_optid ly : shown ly -> follows shown (eoptid total ly) (opt (space0 ;; parse_id)).
Proof.
  intros H. unfold eoptid. apply shown_opt; [pose proof f_id; fsteps|]. apply nc_bind; [apply nc_space0|]. intros _. apply nc_bind; [apply nc_char|]. intros _. apply nc_uint.
Qed.
Lemma f_ufield : follows shown (eparse_unnamed_field total) parse_unnamed_field.
Proof. unfold eparse_unnamed_field, parse_unnamed_field. pose proof f_ptype. pose proof (f_optid LyFields ltac:(split; discriminate)). fsteps. Qed.
Lemma f_nfield : follows shown (eparse_named_field total) parse_named_field.
Proof. unfold eparse_named_field, parse_named_field, eparse_field_name. pose proof f_ptype. pose proof (f_optid LyFields ltac:(split; discriminate)). pose proof f_comments. fsteps. Qed.
Lemma f_fields : follows shown (eparse_fields total) parse_fields.
Proof.
  unfold eparse_fields, parse_fields. pose proof f_ufield. pose proof f_nfield. apply f_within, f_bind; [fsteps|]. intros c.
  destruct (c =? 123); [fsteps|]. destruct (c =? 40); fsteps.
Qed.
Lemma f_generics : follows shown (eparse_generics total) parse_generics.
Proof. unfold eparse_generics, parse_generics. fsteps. Qed.
Lemma f_variant : follows shown (eparse_variant total) parse_variant.
Proof. unfold eparse_variant, parse_variant. pose proof f_fields. pose proof (f_optid LyEnum ltac:(split; discriminate)). pose proof f_comments. fsteps. Qed.

Section Lit.
Context {F : Type}.
Variable parse_f64 : str -> option F.
Lemma bind_assoc {A B C} (p : parser A) (f : A -> parser B) (g : B -> parser C) i : pbind (pbind p f) g i = pbind p (fun a => pbind (f a) g) i.
Proof. unfold pbind. destruct (p i); reflexivity. Qed.
Lemma bind_cong {A B} (p : parser A) (f g : A -> parser B) i : (forall a j, f a j = g a j) -> pbind p f i = pbind p g i.
Proof. intros H. unfold pbind. destruct (p i); auto. Qed.
Lemma agree_eq {A} i (x : eres A) y z : y = z -> agree shown i x y -> agree shown i x z. Proof. intros ->. auto. Qed.
Lemma f_float : follows shown (eparse_float total parse_f64) (parse_float parse_f64).
Proof.
  unfold eparse_float. intros i.
  eapply agree_eq; [|apply f_verify; unfold efloat_text; fsteps]. unfold parse_float.
  unfold pmap. repeat (rewrite bind_assoc; apply bind_cong; intros ? ?). reflexivity.
Qed.
Lemma f_int : follows shown (eparse_int total) parse_int.
Proof.
  unfold eparse_int. apply f_cause; [split; discriminate|]. intros i. eapply agree_eq; [|apply f_verify; fsteps]. unfold parse_int.
  unfold pmap. repeat (rewrite bind_assoc; apply bind_cong; intros ? ?). reflexivity.
Qed.
Lemma f_unicode : follows shown (eparse_string_unicode total) parse_string_unicode.
Proof.
  unfold eparse_string_unicode. intros i. eapply agree_eq; [|apply f_verify; fsteps]. unfold parse_string_unicode. apply bind_cong. intros h j.
  destruct (is_scalar _); reflexivity.
Qed.
Lemma f_esc c v : follows shown (esc total c v) (char c ;; pret v).
Proof. unfold esc. fsteps. Qed.
Lemma f_escaped : follows shown (eparse_escaped_char total) parse_escaped_char.
Proof.
  unfold eparse_escaped_char, parse_escaped_char. apply f_bind; [fsteps|]. intros _. apply f_bind; [fsteps|]. intros c.
  repeat (match goal with |- context [?x =? ?y] => destruct (x =? y); [first [apply f_esc|apply f_unicode]|] end). fsteps.
Qed.
Lemma f_fragment : follows shown (eparse_fragment total) parse_fragment.
Proof. unfold eparse_fragment, parse_fragment. pose proof f_escaped. fsteps. Qed.
Lemma f_string : follows shown (eparse_string total) parse_string.
Proof. unfold eparse_string, parse_string. pose proof f_fragment. fsteps. Qed.
Lemma f_bytes : follows shown (eparse_bytes total) parse_bytes.
Proof. unfold eparse_bytes, parse_bytes. fsteps. Qed.
Lemma f_literal : follows shown (eparse_literal total parse_f64) (parse_literal parse_f64).
Proof.
  unfold eparse_literal, parse_literal. pose proof f_float. pose proof f_int. pose proof f_string. pose proof f_bytes.
  apply f_within, f_bind; [fsteps|]. intros c.
  destruct (c =? 116); [fsteps|]. destruct (c =? 102); [fsteps|]. destruct (is_sign c || is_digit c); [fsteps|]. destruct (c =? 34); [fsteps|]. destruct (c =? 91); fsteps.
Qed.
Lemma f_single_value : follows shown (eparse_single_value total parse_f64) (parse_single_value parse_f64).
Proof. unfold eparse_single_value, parse_single_value. pose proof f_literal. fsteps. Qed.
Lemma f_attr_list epv (pv : parser (attr_value F)) : follows shown epv pv -> follows shown (eattr_list total epv) (attr_list pv).
Proof. intros H. unfold eattr_list, attr_list. fsteps. Qed.
Lemma f_value n : follows shown (eparse_value total parse_f64 n) (parse_value parse_f64 n).
Proof.
  induction n as [|n IH]; [intros i; exact I|]. intros i. cbn [eparse_value parse_value]. pose proof f_single_value. pose proof (f_attr_list _ _ IH).
  revert i. match goal with |- forall i, agree shown i (?e i) (?p i) => change (follows shown e p) end. fsteps.
Qed.
Lemma f_pvalue : follows shown (epvalue total parse_f64) (pvalue parse_f64).
Proof. intros i. apply f_value. Qed.
Lemma f_attribute : follows shown (eparse_attribute total parse_f64) (parse_attribute parse_f64).
Proof. unfold eparse_attribute, parse_attribute. pose proof (f_attr_list _ _ f_pvalue). fsteps. Qed.
Lemma f_attributes : follows shown (eattributes total parse_f64) (attributes parse_f64).
Proof. unfold eattributes, attributes. pose proof f_attribute. fsteps. Qed.

Lemma f_keyword {A} ly k (ep : eparser A) p : shown ly -> follows shown ep p -> follows shown (ebind (ekeyword total ly k) (fun _ => ep)) (tag k ;; space1 ;; p).
Proof.
  intros Hq H i. eapply agree_eq; [apply bind_assoc|]. apply f_bind; [|intros _; exact H]. unfold ekeyword. fsteps.
Qed.
Lemma f_struct : follows shown (eparse_struct total) (@parse_struct F).
Proof. unfold eparse_struct, parse_struct. pose proof f_generics. pose proof f_fields. apply f_within, f_keyword; fsteps. Qed.
Lemma f_enum : follows shown (eparse_enum total) (@parse_enum F).
Proof. unfold eparse_enum, parse_enum. pose proof f_generics. pose proof f_variant. apply f_within, f_keyword; fsteps. Qed.
Lemma f_alias : follows shown (eparse_alias total) (@parse_alias F).
Proof. unfold eparse_alias, parse_alias. pose proof f_generics. pose proof f_ptype. apply f_within, f_keyword; fsteps. Qed.
Lemma f_const : follows shown (eparse_const total parse_f64) (parse_const parse_f64).
Proof. unfold eparse_const, parse_const. pose proof f_literal. pose proof f_ptype. apply f_within, f_keyword; fsteps. Qed.
Lemma f_import : follows shown (eparse_import total) (@parse_import F).
Proof. unfold eparse_import, parse_import. pose proof f_segment. apply f_within, f_keyword; fsteps. Qed.
Lemma f_module ed (d : parser (pdef F)) : follows shown ed d -> follows shown (eparse_module total ed) (parse_module d).
Proof. intros H. unfold eparse_module, parse_module. apply f_within, f_keyword; fsteps. Qed.
Lemma f_definition n : follows shown (eparse_definition total parse_f64 n) (parse_definition parse_f64 n).
Proof.
  induction n as [|n IH]; [intros i; exact I|]. intros i. cbn [eparse_definition parse_definition]. pose proof f_comments. pose proof f_attributes.
  revert i. match goal with |- forall i, agree shown i (?e i) (?p i) => change (follows shown e p) end.
  apply f_bind; [fsteps|]. intros c. apply f_bind; [fsteps|]. intros a. apply f_bind; [fsteps|]. intros _. apply f_bind; [|intros d; fsteps].
  apply f_bind; [fsteps|]. intros k.
  destruct (k =? 109); [apply f_module, IH|]. destruct (k =? 115); [apply f_struct|]. destruct (k =? 101); [apply f_enum|].
  destruct (k =? 99); [apply f_const|]. destruct (k =? 116); [apply f_alias|]. destruct (k =? 117); [apply f_import|]. fsteps.
Qed.
Lemma f_pdefinition : follows shown (epdefinition total parse_f64) (pdefinition parse_f64).
Proof. intros i. apply f_definition. Qed.
Lemma f_schema : follows shown (eparse_schema total parse_f64) (parse_schema parse_f64).
Proof. unfold eparse_schema, parse_schema. pose proof f_comments. pose proof f_pdefinition. fsteps. Qed.
End Lit.
End Total.
