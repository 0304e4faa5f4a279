(** A syntax error is never reported inside a beginning of the text that is a schema already. *)
From Verif Require Import Base Syntax Parser ParserSpec ParserTotal ParserRound Grammar GrammarSound GrammarComplete Lsp SpanParser SpanProofs ErrParser ErrProofs ErrViable ErrViableLit ErrViableDef PropGrammar.
Require Coq.Strings.String.
Import Coq.Strings.String.StringSyntax.
Local Open Scope N_scope.

(** [p] reads [ds] one after the other. *)
Inductive steps {A} (p : parser A) : str -> list A -> str -> Prop :=
| steps_nil i : steps p i [] i
| steps_cons i a r l r' : p i = POk a r -> (length r < length i)%nat -> steps p r l r' -> steps p i (a :: l) r'.

Section Late.
Context {F : Type} (parse_f64 : str -> option F).
Variable total : N.
Notation wdef := (wdef parse_f64).
Notation wdefs := (wdefs parse_f64).

Fixpoint lastok (ds : list (pdef F)) (after : str) : Prop :=
  match ds with [] => True | [d] => okafter d after | _ :: ds' => lastok ds' after end.

Lemma clean_bclean after : clean after -> bclean after.
Proof. intros H b x r E Hb Hx. exact (H b x r E (blank_white _ Hb) Hx). Qed.

Lemma defs_steps s ds after : wdefs s ds after -> lastok ds after ->
  forall b0 i, Blank b0 -> b0 ++ i = s ++ after -> exists b r, after = b ++ r /\ Blank b /\ steps (pdefinition parse_f64) i ds r.
Proof.
  revert s ds after. fix IH 4. intros s ds after H. destruct H as [after|s d rest ds after Hd Hs]; intros Hc b0 i Hb0 E.
  - cbn in E. exists b0, i. split; [auto|]. split; [exact Hb0|]. constructor.
  - destruct (wdef_trim _ _ _ _ Hd) as (b & x & t & Es & Hb & Hx & Hd'). subst s. rewrite <- !app_assoc in E. cbn [app] in E. destruct (kchar_ms _ Hx) as (Hxm & _).
    destruct (strip_white _ _ _ _ _ E Hb0 Hxm) as (b2 & Ei & Eb). subst i b.
    assert (Ho : okafter d (rest ++ after) /\ lastok ds after).
    { destruct Hs as [after|s' d' rest' ds' after Hd2 Hs'].
      - split; [exact Hc|exact I].
      - split; [|exact Hc]. apply clean_okafter. rewrite <- app_assoc. eapply wdef_clean, Hd2. }
    destruct Ho as [Ho Hc'].
    destruct (def_complete_ok parse_f64 (S (length ((b2 ++ x :: t) ++ rest ++ after))) (b2 ++ x :: t) d (rest ++ after)) as (b1 & r1 & E1 & Hb1 & Ep).
    + rewrite (app_length (b2 ++ x :: t)). lia.
    + apply wdef_prefix; [eapply white_tail, Hb|exact Hd'].
    + exact Ho.
    + destruct (IH rest ds after Hs Hc' b1 r1 Hb1 (eq_sym E1)) as (b3 & r3 & E3 & Hb3 & Hch). exists b3, r3. split; [exact E3|]. split; [exact Hb3|].
      apply steps_cons with (r := r1); [|shelve|exact Hch]. unfold pdefinition. rewrite <- app_assoc in Ep. cbn [app] in Ep. exact Ep.
      Unshelve. assert (length (rest ++ after) = length (b1 ++ r1)) by (rewrite E1; reflexivity). rewrite !app_length in *. cbn [length]. rewrite !app_length. lia.
Qed.

Lemma blank_split b1 x1 t1 b2 x2 t2 : b1 ++ x1 :: t1 = b2 ++ x2 :: t2 -> Blank b1 -> Blank b2 -> ~ Blank [x1] -> ~ Blank [x2] -> x1 = x2.
Proof.
  revert b2. induction b1 as [|y b1 IH]; intros [|z b2] E H1 H2 N1 N2; cbn in E.
  - congruence.
  - assert (x1 = z) as -> by congruence. inversion H2; subst. destruct N1. constructor; [assumption|apply Forall_nil].
  - assert (y = x2) as -> by congruence. inversion H1; subst. destruct N2. constructor; [assumption|apply Forall_nil].
  - inversion H1; inversion H2; subst. apply (IH b2); try assumption. congruence.
Qed.
Lemma white_lastok s ds b q : wdefs s ds b -> White b -> lastok ds (b ++ q).
Proof.
  revert s ds b. fix IH 4. intros s ds b H. destruct H as [after|s d rest ds after Hd Hs]; intros Hb; [exact I|].
  pose proof (IH _ _ _ Hs Hb) as K. destruct Hs as [after|s' d' rest' ds' after Hd' Hs'].
  - cbn [lastok]. cbn [app] in Hd. destruct Hd as [| ? ? ? ? ? ? g after Hh Hk Hn Hg Hu| | | | |]; cbn [okafter]; try exact I.
    + destruct fs; try exact I. contradiction.
    + destruct Hu as (b1 & y & z & -> & Hb1 & Hy & _). intros b' x r E Hb' Hx. apply Forall_app in Hb as [_ Hb]. assert (Hym : is_mspace y = true) by (eapply white_char, Hb).
      exfalso. rewrite <- app_assoc in E. cbn [app] in E. assert (y = x); [|congruence]. apply (blank_split _ _ _ _ _ _ E Hb1 Hb' Hy). intros Hbx. apply blank_white, white_char in Hbx. congruence.
  - exact K.
Qed.

(** * The parser with errors on what it reads *)
Lemma steps_loop {A} (ep : eparser A) p i ds r : follows total shown ep p -> steps p i ds r -> forall n, (length i < n)%nat ->
  exists m, (length r < m)%nat /\ erepeat_loop n ep i = match erepeat_loop m ep r with EOk l t => EOk (ds ++ l) t | x => x end.
Proof.
  intros Hf H. induction H as [i|i a r l r' Hp Hl Hs IH]; intros n Hn.
  - exists n. split; [exact Hn|]. destruct (erepeat_loop n ep i); reflexivity.
  - destruct n as [|n]; [lia|]. cbn [erepeat_loop]. pose proof (Hf i) as K. rewrite Hp in K. destruct (ep i) as [b s|[] e s| |]; cbn in K; try tauto. destruct K as (-> & -> & _).
    destruct (Nat.eqb_spec (length r) (length i)) as [E|_]; [lia|]. destruct (IH n ltac:(lia)) as (m & Hm & ->). exists m. split; [exact Hm|]. destruct (erepeat_loop m ep r'); reflexivity.
Qed.
Lemma mspace_is i : multispace0 i = POk tt (snd (span is_mspace i)).
Proof. unfold multispace0, pmap, pbind, take_while. destruct (span is_mspace i) as [a r]. reflexivity. Qed.
Lemma span_white b i : White b -> snd (span is_mspace (b ++ i)) = snd (span is_mspace i).
Proof.
  intros Hb. pose proof (ws_skip (fun j => POk j j) b i Hb) as H. unfold ws, pbind in H. rewrite !mspace_is in H. congruence.
Qed.
Lemma ews_skip {A} ly (ep : eparser A) b i : White b -> ews total ly ep (b ++ i) = ews total ly ep i.
Proof. intros Hb. unfold ews, ebind, prim. rewrite !mspace_is, span_white by exact Hb. reflexivity. Qed.
Definition ends (q : str) {A} (x : eres A) : Prop := match x with EOk _ t => sfx q t | EErr _ e t => sfx q t /\ er_at e = offs total t /\ shown (er_layer e) | _ => True end.
Lemma agree_ends q {A} i (x : eres A) y : sfx q i -> agree total shown i x y -> ends q x.
Proof.
  intros Hq. destruct x as [a r|[] e r| |], y; cbn; try tauto; intros H.
  - destruct H as (_ & _ & H). exact (sfx_trans _ _ _ Hq H).
  - destruct H as (H & H1 & H2). split; [exact (sfx_trans _ _ _ Hq H)|auto].
  - destruct H as (H & H1 & H2). split; [exact (sfx_trans _ _ _ Hq H)|auto].
Qed.
Lemma definition_ends b q : White b -> ends q (epdefinition total parse_f64 (b ++ q)).
Proof.
  intros Hb. unfold epdefinition. cbn [eparse_definition]. set (n := length (b ++ q)).
  match goal with |- ends q (ebind (ews _ _ _) ?f _) => assert (E : ebind (ews total LyDefinition (ecomments total)) f (b ++ q) = ebind (ews total LyDefinition (ecomments total)) f q) by (unfold ebind at 1 2; rewrite ews_skip by exact Hb; reflexivity) end.
  rewrite E. pose proof (f_definition total parse_f64 (S n) q) as H. cbn [eparse_definition] in H. exact (agree_ends q q _ _ (sfx_refl _) H).
Qed.
Lemma loop_ends n b q : White b -> match erepeat_loop n (epdefinition total parse_f64) (b ++ q) with EOk _ t => t = b ++ q \/ sfx q t | EErr _ e t => sfx q t /\ er_at e = offs total t /\ shown (er_layer e) | _ => True end.
Proof.
  intros Hb. destruct n as [|n]; [exact I|]. cbn [erepeat_loop]. pose proof (definition_ends b q Hb) as H. destruct (epdefinition total parse_f64 (b ++ q)) as [a r|[] e r| |]; cbn in H; auto.
  destruct (length r =? length (b ++ q))%nat; [exact I|]. pose proof (f_repeat_loop total shown _ _ n (f_pdefinition total parse_f64) r) as K. apply (agree_ends q r _ _ H) in K.
  destruct (erepeat_loop n (epdefinition total parse_f64) r); cbn in K; auto.
Qed.
Lemma mspace_ends ly b q : White b -> ends q (prim total ly multispace0 (b ++ q)).
Proof.
  intros Hb. unfold prim. rewrite mspace_is, span_white by exact Hb. cbn. apply (m_multispace0 q tt). apply mspace_is.
Qed.
(** The definitions and the blanks behind them. *)
Lemma rest_ends i ds r b q (f : list (pdef F) -> pschema F) : steps (pdefinition parse_f64) i ds r -> White b -> (r = b ++ q \/ sfx q r) ->
  ends q (ebind (erepeat0 (epdefinition total parse_f64)) (fun ds => ebind (prim total LySchema multispace0) (fun _ => eret (f ds))) i).
Proof.
  intros Hs Hb Hr. unfold ebind, erepeat0. destruct (steps_loop _ _ _ _ _ (f_pdefinition total parse_f64) Hs (S (length i)) ltac:(lia)) as (m & _ & ->).
  assert (G : forall t, t = b ++ q \/ sfx q t -> forall l, ends q (match prim total LySchema multispace0 t with EOk _ r => eret (f l) r | EErr c e r => EErr c e r | EBug => EBug | EFuel => EFuel end)).
  { intros t Ht l. assert (H : ends q (prim total LySchema multispace0 t)).
    { destruct Ht as [-> |Ht]; [apply mspace_ends, Hb|]. apply (agree_ends q t _ (multispace0 t) Ht). apply f_prim; [split; discriminate|apply m_multispace0]. }
    destruct (prim total LySchema multispace0 t); exact H. }
  destruct Hr as [-> |Hr].
  - pose proof (loop_ends m b q Hb) as H. destruct (erepeat_loop m (epdefinition total parse_f64) (b ++ q)); auto.
  - pose proof (f_repeat_loop total shown _ _ m (f_pdefinition total parse_f64) r) as K. apply (agree_ends q r _ _ Hr) in K.
    destruct (erepeat_loop m (epdefinition total parse_f64) r); cbn in K; auto.
Qed.
Lemma suffix_app (b q c r : str) : b ++ q = c ++ r -> (exists d, r = d ++ q /\ b = c ++ d) \/ sfx q r.
Proof.
  revert c. induction b as [|x b IH]; intros [|y c] E; cbn in E.
  - left. exists []. split; [auto|reflexivity].
  - right. exists (y :: c). exact E.
  - left. exists (x :: b). auto.
  - injection E as -> E. destruct (IH c E) as [(d & -> & ->)|H]; [left; exists d; split; reflexivity|right; exact H].
Qed.
Lemma schema_late p s q : text p -> wschema parse_f64 p s -> ends q (eparse_schema total parse_f64 (p ++ q)).
Proof.
  intros Ht H. unfold eparse_schema.
  assert (Hfo : follows total shown (eopt (ebind (ews total LySchema (ecomments total)) (fun c => ebind (prim total LySchema (char 10)) (fun _ => eret c)))) (opt opening)).
  { apply f_opt, f_bind; [apply f_ws; [split; discriminate|exact (f_comments total)]|]. intros c. apply f_bind; [apply f_prim; [split; discriminate|apply m_char]|]. intros _. apply f_ret. }
  assert (G : forall sd ds b c, wdefs sd ds b -> White b -> ends q (ebind (erepeat0 (epdefinition total parse_f64)) (fun ds => ebind (prim total LySchema multispace0) (fun _ => eret (PSchema c ds))) (sd ++ b ++ q))).
  { intros sd ds b c Hd Hb. destruct (defs_steps sd ds (b ++ q) (wdefs_extend _ _ _ _ Hd q) (white_lastok _ _ _ q Hd Hb) [] (sd ++ b ++ q)) as (b1 & r & E & Hb1 & Hs); [apply Forall_nil|reflexivity|].
    destruct (suffix_app _ _ _ _ E) as [(d & -> & ->)|Hr]; [apply (rest_ends _ _ _ d q _ Hs); [eapply white_tail, Hb|auto]|apply (rest_ends _ _ _ [] q _ Hs); [apply Forall_nil|auto]]. }
  destruct H as [so c sd ds b Hso Hd Hb|sd ds b Hd Hb Hno]; unfold ebind at 1.
  - rewrite <- !app_assoc. pose proof (Hfo (so ++ sd ++ b ++ q)) as K. rewrite (opt_ok _ _ _ _ (opening_complete so c (sd ++ b ++ q) Hso)) in K.
    match goal with |- context [match ?X with EOk _ _ => _ | _ => _ end] => destruct X as [o r|[] e r| |] end; cbn in K; try tauto. destruct K as (-> & -> & _). exact (G sd ds b c Hd Hb).
  - rewrite <- !app_assoc.
    assert (Ho : sd ++ b ++ q = b ++ q /\ ds = [] \/ opening (sd ++ b ++ q) = PBack).
    { pose proof Hd as Hd0. destruct Hd0 as [after|s1 d rest ds after Hd1 Hrest]; [left; auto|right].
      assert (Hst : started ((s1 ++ rest) ++ after)) by (rewrite <- app_assoc; apply started_app; eapply wdef_started, Hd1).
      rewrite app_assoc. apply (opening_started _ [] q Hst). rewrite app_nil_r. pose proof (opening_total _ Ht) as T.
      destruct (opening ((s1 ++ rest) ++ after)) as [c r| | | |] eqn:Eo; try contradiction; [|reflexivity]. apply opening_sound in Eo as (so & E & Hso). destruct (Hno so c r Hso E). }
    destruct Ho as [[E ->]|Ho].
    + rewrite E. unfold eopt.
      match goal with |- context [ebind (ews ?a ?b0 ?c) ?f (b ++ q)] => assert (E2 : ebind (ews a b0 c) f (b ++ q) = ebind (ews a b0 c) f q) by (unfold ebind at 1 2; rewrite ews_skip by exact Hb; reflexivity) end.
      rewrite E2. clear E2. pose proof (Hfo q) as K. unfold eopt in K. match goal with |- context [ebind (ews ?a ?b0 ?c) ?f q] => destruct (ebind (ews a b0 c) f q) as [o r|c0 e r| |] end.
      * apply (agree_ends q q _ _ (sfx_refl _)) in K. apply (rest_ends r [] r [] q); [constructor|apply Forall_nil|right; exact K].
      * destruct c0; [exact (agree_ends q q _ _ (sfx_refl _) K)|]. apply (rest_ends (b ++ q) [] (b ++ q) b q); [constructor|exact Hb|left; reflexivity].
      * exact I.
      * exact I.
    + pose proof (Hfo (sd ++ b ++ q)) as K. rewrite (opt_back _ _ Ho) in K.
      match goal with |- context [match ?X with EOk _ _ => _ | _ => _ end] => destruct X as [o r|[] e r| |] end; cbn in K; try tauto. destruct K as (-> & -> & _). exact (G sd ds b [] Hd Hb).
Qed.
End Late.
