(** The located parser returns what the parser returns, and the locations it attaches are where the words are. *)
From Verif Require Import Base Syntax Parser ParserSpec ParserTotal ParserRound CostProofs Printer Lsp LspSpec SpanParser LspVisit TokenSpec.
Require Coq.Strings.String.
Import Coq.Strings.String.StringSyntax.
Local Open Scope N_scope.

Section Total.
Variable total : N.
Notation offs := (offs total).

(** * Two parsers agree, and their results are related *)
Definition both {A B} (R : str -> A -> B -> Prop) (x : pres A) (y : pres B) : Prop :=
  match x, y with
  | POk a r, POk b r' => r = r' /\ R r a b
  | PBack, PBack | PCut, PCut | PBug, PBug | PFuel, PFuel => True
  | _, _ => False
  end.
Definition sfx (i r : str) : Prop := exists g, i = g ++ r.
Lemma sfx_refl i : sfx i i. Proof. exists []. reflexivity. Qed.
Lemma sfx_trans i j r : sfx i j -> sfx j r -> sfx i r.
Proof. intros [a ->] [b ->]. exists (a ++ b). rewrite app_assoc. reflexivity. Qed.
Lemma sfx_text i r : sfx i r -> text i -> text r.
Proof. intros [g ->] H. apply text_app in H. apply H. Qed.

Definition bsfx (i r : str) : Prop := exists g, blank g /\ i = g ++ r.
Lemma bsfx_refl i : bsfx i i. Proof. exists []. split; reflexivity. Qed.
Lemma bsfx_sfx i r : bsfx i r -> sfx i r.
Proof. intros (g & _ & H). exists g. exact H. Qed.
Lemma blank_app a b : blank a -> blank b -> blank (a ++ b).
Proof. unfold blank. intros H K. rewrite forallb_app, H, K. reflexivity. Qed.
Lemma bsfx_trans i j r : bsfx i j -> bsfx j r -> bsfx i r.
Proof. intros (a & Ha & ->) (b & Hb & ->). exists (a ++ b). split; [apply blank_app; assumption|]. rewrite app_assoc. reflexivity. Qed.
Lemma bsfx_text i r : bsfx i r -> text i -> text r.
Proof. intros H. apply sfx_text, bsfx_sfx, H. Qed.

Lemma both_weak {A B} (R S : str -> A -> B -> Prop) x y : (forall r a b, R r a b -> S r a b) -> both R x y -> both S x y.
Proof. intros H. destruct x, y; cbn; try tauto. intros [-> K]. auto. Qed.
Lemma both_bind {A B C D} (R : str -> A -> B -> Prop) (S : str -> C -> D -> Prop) p q f g i :
  both R (p i) (q i) -> (forall a b j, R j a b -> both S (f a j) (g b j)) -> both S (pbind p f i) (pbind q g i).
Proof. intros H K. unfold pbind. destruct (p i), (q i); cbn in H; try tauto. destruct H as [-> H]. apply K. exact H. Qed.
Lemma both_ret {A B} (R : str -> A -> B -> Prop) a b i : R i a b -> both R (pret a i) (pret b i).
Proof. intros H. split; [reflexivity|exact H]. Qed.
Lemma both_map_l {A B C} (R : str -> C -> B -> Prop) (f : A -> C) p (y : pres B) i :
  both (fun r a b => R r (f a) b) (p i) y -> both R (pmap f p i) y.
Proof. unfold pmap, pbind. destruct (p i), y; cbn; tauto. Qed.
Lemma both_map_r {A B C} (R : str -> A -> C -> Prop) (f : B -> C) (x : pres A) q i :
  both (fun r a b => R r a (f b)) x (q i) -> both R x (pmap f q i).
Proof. unfold pmap, pbind. destruct x, (q i); cbn; tauto. Qed.
Lemma both_span {A B} (R : str -> A * loc -> B -> Prop) p (y : pres B) i :
  both (fun r a b => R r (a, (offs i, offs r)) b) (p i) y -> both R (with_span total p i) y.
Proof. unfold with_span. destruct (p i), y; cbn; tauto. Qed.
Lemma both_cut {A B} (R : str -> A -> B -> Prop) p q i : both R (p i) (q i) -> both R (cut_err p i) (cut_err q i).
Proof. unfold cut_err. destruct (p i), (q i); cbn; tauto. Qed.
Lemma both_alt {A B} (R : str -> A -> B -> Prop) p q p' q' i : both R (p i) (q i) -> both R (p' i) (q' i) -> both R (alt p p' i) (alt q q' i).
Proof. unfold alt. destruct (p i), (q i); cbn; tauto. Qed.
Definition orel {A B} (R : A -> B -> Prop) (o : option A) (o' : option B) : Prop :=
  match o, o' with Some a, Some b => R a b | None, None => True | _, _ => False end.
Lemma both_opt {A B} (R : str -> A -> B -> Prop) p q i : both R (p i) (q i) ->
  both (fun r a b => match a, b with Some a, Some b => R r a b | None, None => r = i | _, _ => False end) (opt p i) (opt q i).
Proof. unfold opt. destruct (p i), (q i); cbn; tauto. Qed.
(** The same parser on both sides. *)
Lemma both_same {A} (p : parser A) i k (P : A -> Prop) (R : str -> A -> A -> Prop) :
  (forall n, spec k n P p) -> text i -> (forall a r, sfx i r -> p i = POk a r -> P a -> R r a a) -> both R (p i) (p i).
Proof.
  intros H Ht K. specialize (H (length i) i Ht (le_n _)). destruct (p i) as [a r| | | |]; cbn; auto. destruct H as ((g & E & _) & Ha).
  split; [reflexivity|]. apply K; [exists g; exact E|reflexivity|exact Ha].
Qed.

(** * Where the words are *)
Inductive tokd : str -> str -> list tspan -> list item -> Prop :=
| td_nil g r : blank g -> tokd (g ++ r) r [] []
| td_skip g t i r (P : str -> Prop) l s : blank g -> P t -> tokd i r l s -> tokd (g ++ t ++ i) r l (Silent P :: s)
| td_cons g t i r k m (P : str -> Prop) l s : blank g -> P t -> t <> [] -> ~ In nl t -> tokd i r l s ->
    tokd (g ++ t ++ i) r (TSpan (offs (t ++ i), offs i) k m :: l) (Item k m P :: s).
Lemma tokd_sfx i r l s : tokd i r l s -> sfx i r.
Proof.
  induction 1 as [g r Hg|g t i r P l s Hg Hp H IH|g t i r k m P l s Hg Hp Ht Hn H IH]; [exists g; reflexivity|..]; destruct IH as [h ->]; exists (g ++ t ++ h);
    rewrite <- !app_assoc; reflexivity.
Qed.
Lemma tokd_pre i j r l s : bsfx i j -> tokd j r l s -> tokd i r l s.
Proof.
  intros (g & Hg & ->) H. destruct H as [h r Hh|h t i r P l s Hh Hp H|h t i r k m P l s Hh Hp Ht Hn H]; rewrite (app_assoc g);
    constructor; auto using blank_app.
Qed.
Lemma tokd_app i j r l1 l2 s1 s2 : tokd i j l1 s1 -> tokd j r l2 s2 -> tokd i r (l1 ++ l2) (s1 ++ s2).
Proof.
  intros H. revert l2 s2. induction H as [g j Hg|g t i j P l s Hg Hp H IH|g t i j k m P l s Hg Hp Ht Hn H IH]; intros l2 s2 K.
  - apply (tokd_pre _ j); [exists g; auto|exact K].
  - cbn [app]. constructor; auto.
  - cbn [app]. constructor; auto.
Qed.
Lemma tokd_nil i r : bsfx i r -> tokd i r [] [].
Proof. intros (g & Hg & ->). constructor. exact Hg. Qed.
Lemma tokd_post i j r l s : tokd i j l s -> bsfx j r -> tokd i r l s.
Proof. intros H K. rewrite <- (app_nil_r l), <- (app_nil_r s). apply (tokd_app i j r); [exact H|apply tokd_nil; exact K]. Qed.
Lemma tokd_one t i k m (P : str -> Prop) : P t -> t <> [] -> ~ In nl t -> tokd (t ++ i) i [TSpan (offs (t ++ i), offs i) k m] [Item k m P].
Proof. intros H1 H2 H3. apply (td_cons [] t i i k m P [] []); auto; [reflexivity|]. apply (td_nil [] i eq_refl). Qed.
Lemma tokd_silent t i (P : str -> Prop) : P t -> tokd (t ++ i) i [] [Silent P].
Proof. intros H. apply (td_skip [] t i i P [] []); auto; [reflexivity|]. apply (td_nil [] i eq_refl). Qed.
Lemma tokd_hush i r l s : tokd i r l s -> tokd i r [] (map hush s).
Proof. induction 1; cbn [map hush]; constructor; auto. Qed.

(** * Shared pieces *)
Lemma take_blank m f i a r : (forall c, f c = true -> is_mspace c = true) -> take_while m f i = POk a r -> bsfx i r.
Proof.
  intros Hf. unfold take_while. destruct (span_split f i) as (x & y & -> & -> & H & _). destruct (length x <? m)%nat; [discriminate|]. intros E. injection E as <- <-.
  exists x. split; [|reflexivity]. unfold blank. rewrite forallb_forall in *. auto.
Qed.
Lemma space_ms c : is_space c = true -> is_mspace c = true.
Proof. unfold is_space, is_mspace. intros H. apply orb_prop in H as [->| ->]; [reflexivity|]. rewrite orb_true_r. reflexivity. Qed.
Lemma both_take_blank m f i : (forall c, f c = true -> is_mspace c = true) ->
  both (fun j _ _ => bsfx i j) (pmap (fun _ => tt) (take_while m f) i) (pmap (fun _ => tt) (take_while m f) i).
Proof. intros Hf. apply both_map_l, both_map_r. destruct (take_while m f i) as [a r| | | |] eqn:E; cbn; auto. split; [reflexivity|]. exact (take_blank m f i a r Hf E). Qed.
Lemma both_ws {A B} (R : str -> A -> B -> Prop) p q i : text i -> (forall j, bsfx i j -> text j -> both R (p j) (q j)) -> both R (ws p i) (ws q i).
Proof.
  intros Ht H. unfold ws. apply (both_bind (fun j _ _ => bsfx i j)).
  - apply both_take_blank; auto.
  - intros _ _ j Hj. apply H; [exact Hj|]. exact (bsfx_text _ _ Hj Ht).
Qed.
Lemma both_space0 {A B} (R : str -> A -> B -> Prop) p q i : text i -> (forall j, bsfx i j -> text j -> both R (p j) (q j)) -> both R ((space0 ;; p) i) ((space0 ;; q) i).
Proof.
  intros Ht H. apply (both_bind (fun j _ _ => bsfx i j)).
  - apply both_take_blank; exact space_ms.
  - intros _ _ j Hj. apply H; [exact Hj|]. exact (bsfx_text _ _ Hj Ht).
Qed.
Lemma both_space1 {A B} (R : str -> A -> B -> Prop) p q i : text i -> (forall j, bsfx i j -> text j -> both R (p j) (q j)) -> both R ((space1 ;; p) i) ((space1 ;; q) i).
Proof.
  intros Ht H. apply (both_bind (fun j _ _ => bsfx i j)).
  - apply both_take_blank; exact space_ms.
  - intros _ _ j Hj. apply H; [exact Hj|]. exact (bsfx_text _ _ Hj Ht).
Qed.
Definition at1 (i r : str) (s : str) (l : loc) : Prop := i = s ++ r /\ l = (offs i, offs r).
Lemma at1_sfx i r s l : at1 i r s l -> sfx i r.
Proof. intros [-> _]. exists s. reflexivity. Qed.
Lemma at1_tok i r s l k m (P : str -> Prop) : at1 i r s l -> P s -> s <> [] -> ~ In nl s -> tokd i r [TSpan l k m] [Item k m P].
Proof. intros [-> ->] H1 H2 H3. apply tokd_one; assumption. Qed.
Lemma both_char c i : both (fun r l (_ : unit) => at1 i r [c] l) (span_of total (char c) i) (char c i).
Proof.
  unfold span_of. apply both_map_l, both_span. unfold char. destruct i as [|x i]; [exact I|]. destruct (x =? c) eqn:E; [|exact I].
  apply N.eqb_eq in E. subst x. split; [reflexivity|]. split; reflexivity.
Qed.
Lemma both_tag s i : both (fun r l (_ : unit) => at1 i r s l) (span_of total (tag s) i) (tag s i).
Proof.
  unfold span_of. apply both_map_l, both_span. destruct (tag s i) as [[] r| | | |] eqn:E; cbn; auto. apply tag_inv in E. subst i.
  split; [reflexivity|]. split; reflexivity.
Qed.
(** Names. *)
Lemma ident_inv f g i s r : ident f g i = POk s r -> i = s ++ r /\ exists c t, s = c :: t /\ f c = true /\ forallb g t = true.
Proof.
  unfold ident, pbind, one_of, take_while. destruct i as [|c i]; [discriminate|]. destruct (f c) eqn:E; [|discriminate].
  destruct (span_split g i) as (a & b & Es & -> & Hf & _). rewrite Es. cbn. intros H. injection H as <- <-. split; [reflexivity|]. eauto.
Qed.
Lemma both_name f g i : f nl = false -> g nl = false ->
  both (fun r (n : lname) s => s = ln_text n /\ at1 i r s (ln_loc n) /\ s <> [] /\ ~ In nl s) (lnamed total (ident f g) i) (ident f g i).
Proof.
  intros Hf Hg. unfold lnamed. apply both_map_l, both_span. destruct (ident f g i) as [s r| | | |] eqn:E; cbn; auto.
  apply ident_inv in E as (-> & c & t & -> & Hc & Ht). split; [reflexivity|]. split; [reflexivity|]. split; [split; reflexivity|]. split; [discriminate|].
  intros [E|H]; [rewrite E in Hc; congruence|]. rewrite forallb_forall in Ht. apply Ht in H. congruence.
Qed.

(** * Lists *)
Section Lists.
Context {A B : Type}.
Variable h : A -> B.
Variable ta : A -> list tspan.
Variable sb : B -> list item.
(** Related results of parsing an element. *)
Definition good (i r : str) (a : A) (b : B) : Prop := b = h a /\ tokd i r (ta a) (sb b).
Variables (p : parser A) (q : parser B).
Variable N0 : nat.
Hypothesis Hpq : forall i, text i -> (length i <= N0)%nat -> both (good i) (p i) (q i).

Lemma sfx_len i r : sfx i r -> (length r <= length i)%nat.
Proof. intros [g ->]. rewrite app_length. lia. Qed.
Lemma both_repeat_loop n : forall i, text i -> (length i <= N0)%nat ->
  both (fun r l l' => l' = map h l /\ tokd i r (flat_map ta l) (flat_map sb l')) (repeat_loop n p i) (repeat_loop n q i).
Proof.
  induction n as [|n IH]; intros i Ht HN; [exact I|]. cbn [repeat_loop]. pose proof (Hpq i Ht HN) as H.
  destruct (p i) as [a r| | | |], (q i) as [b r'| | | |]; cbn in H; try tauto; try exact I.
  - destruct H as [<- [-> Hg]]. destruct (length r =? length i)%nat; [exact I|].
    assert (Hs := tokd_sfx _ _ _ _ Hg). specialize (IH r (sfx_text _ _ Hs Ht)). pose proof (sfx_len _ _ Hs) as Hlen. specialize (IH ltac:(lia)).
    destruct (repeat_loop n p r) as [l r1| | | |], (repeat_loop n q r) as [l' r2| | | |]; cbn in IH; try tauto; try exact I.
    destruct IH as [<- [-> Hl]]. split; [reflexivity|]. split; [reflexivity|]. cbn [flat_map map]. apply (tokd_app i r r1); assumption.
  - split; [reflexivity|]. split; [reflexivity|]. apply tokd_nil, bsfx_refl.
Qed.
Lemma both_repeat0 i : text i -> (length i <= N0)%nat ->
  both (fun r l l' => l' = map h l /\ tokd i r (flat_map ta l) (flat_map sb l')) (repeat0 p i) (repeat0 q i).
Proof. intros. apply both_repeat_loop; assumption. Qed.
Lemma both_repeat1 i : text i -> (length i <= N0)%nat ->
  both (fun r l l' => l' = map h l /\ tokd i r (flat_map ta l) (flat_map sb l')) (repeat1 p i) (repeat1 q i).
Proof.
  intros Ht HN. unfold repeat1. apply (both_bind (good i)); [apply Hpq; assumption|]. intros a b j [-> Hg].
  pose proof (tokd_sfx _ _ _ _ Hg) as Hs. pose proof (sfx_len _ _ Hs) as Hlen.
  eapply both_bind; [apply (both_repeat0 j); [exact (sfx_text _ _ Hs Ht)|lia]|]. intros l l' k [-> Hl]. apply both_ret. split; [reflexivity|].
  cbn [flat_map map]. apply (tokd_app i j k); assumption.
Qed.

(** Comma separated lists. *)
Definition perase (x : lpunct A) : punct B := p_map (fun e => h (fst e)) x.
Definition comma_toks (e : A * option loc) : list tspan := commad ta e.
Definition elem_f : parser (A * option loc) := pdo a <- p; pdo s <- ws (lcomma total); pret (a, Some s).
Definition elem_g : parser (A * option loc * bool) := pdo a <- p; pdo t <- opt (ws (lcomma total)); pret ((a, t), match t with Some _ => true | None => false end).
Definition elem_f' : parser B := pdo a <- q; ws comma ;; pret a.
Definition elem_g' : parser (B * bool) := pdo a <- q; pdo t <- opt (ws comma); pret (a, match t with Some _ => true | None => false end).
Lemma both_comma i : text i -> both (fun r l (_ : unit) => tokd i r [tk l TkComma] [comma_item]) (ws (lcomma total) i) (ws comma i).
Proof.
  intros Ht. apply both_ws; [exact Ht|]. intros j Hj Htj. eapply both_weak; [|apply both_char]. intros r l u H. apply (tokd_pre i j); [exact Hj|].
  eapply at1_tok; [exact H|reflexivity|discriminate|]. intros [E|[]]. discriminate.
Qed.
Lemma both_elem_f i : text i -> (length i <= N0)%nat ->
  both (fun r a b => b = h (fst a) /\ tokd i r (commad ta a) (sb b ++ [comma_item])) (elem_f i) (elem_f' i).
Proof.
  intros Ht HN. unfold elem_f, elem_f'. apply (both_bind (good i)); [apply Hpq; assumption|]. intros a b j [-> Hg].
  pose proof (tokd_sfx _ _ _ _ Hg) as Hs. eapply both_bind; [apply both_comma; exact (sfx_text _ _ Hs Ht)|]. intros l u k Hk. apply both_ret.
  split; [reflexivity|]. unfold commad. cbn [fst snd]. apply (tokd_app i j k); assumption.
Qed.
Lemma both_elem_g i : text i -> (length i <= N0)%nat ->
  both (fun r (a : A * option loc * bool) (b : B * bool) => b = (h (fst (fst a)), snd a) /\ tokd i r (commad ta (fst a)) (sb (fst b) ++ if snd b then [comma_item] else [])) (elem_g i) (elem_g' i).
Proof.
  intros Ht HN. unfold elem_g, elem_g'. apply (both_bind (good i)); [apply Hpq; assumption|]. intros a b j [-> Hg].
  pose proof (tokd_sfx _ _ _ _ Hg) as Hs. eapply both_bind; [apply both_opt, both_comma; exact (sfx_text _ _ Hs Ht)|].
  intros [l|] [u|] k Hk; try contradiction; apply both_ret; (split; [reflexivity|]); unfold commad; cbn [fst snd].
  - apply (tokd_app i j k); assumption.
  - subst k. apply (tokd_app i j j); [exact Hg|]. apply tokd_nil, bsfx_refl.
Qed.
Lemma removelast_snoc {X} (l : list X) a : removelast (l ++ [a]) = l.
Proof. apply removelast_last. Qed.
Lemma both_punct_loop i0 n : forall acc prev i, text i -> (length i <= N0)%nat ->
  tokd i0 i (flat_map (commad ta) acc) (flat_map (fun b => sb b ++ [comma_item]) (map (fun e => h (fst e)) acc)) ->
  (forall s, prev = Some s -> exists acc' a, acc = acc' ++ [a] /\ text s /\ (length s <= N0)%nat /\
     tokd i0 s (flat_map (commad ta) acc') (flat_map (fun b => sb b ++ [comma_item]) (map (fun e => h (fst e)) acc'))) ->
  both (fun r x y => y = perase x /\ tokd i0 r (punct_toks ta x) (punct_items sb y))
    (punct_loop n elem_f elem_g acc prev i) (punct_loop n elem_f' elem_g' (map (fun e => h (fst e)) acc) prev i).
Proof.
  induction n as [|n IH]; intros acc prev i Ht HN Hacc Hprev; [exact I|]. cbn [punct_loop]. pose proof (both_elem_f i Ht HN) as Hf.
  destruct (elem_f i) as [a r| | | |], (elem_f' i) as [b r'| | | |]; cbn in Hf; try tauto; try exact I.
  - destruct Hf as [<- [-> Hg]]. destruct (length r =? length i)%nat; [exact I|]. pose proof (tokd_sfx _ _ _ _ Hg) as Hs. pose proof (sfx_len _ _ Hs) as Hlen.
    specialize (IH (acc ++ [a]) (Some i) r (sfx_text _ _ Hs Ht) ltac:(lia)). rewrite map_app in IH. cbn [map] in IH. apply IH.
    + rewrite !flat_map_app. cbn [flat_map]. rewrite !app_nil_r. apply (tokd_app i0 i r); assumption.
    + intros s E. injection E as <-. exists acc, a. auto.
  - pose proof (both_elem_g i Ht HN) as Hg.
    destruct (elem_g i) as [[a t] r| | | |], (elem_g' i) as [[b t'] r'| | | |]; cbn in Hg; try tauto; try exact I.
    + destruct Hg as [<- [E Hg]]. injection E as -> ->. split; [reflexivity|]. split; [reflexivity|]. cbn [punct_toks punct_items perase p_map].
      apply (tokd_app i0 i r); assumption.
    + destruct prev as [s|]; [|exact I]. destruct (Hprev s eq_refl) as (acc' & a & -> & Hts & HNs & Hacc'). pose proof (both_elem_g s Hts HNs) as Hg'.
      destruct (elem_g s) as [[a' t] r| | | |], (elem_g' s) as [[b t'] r'| | | |]; cbn in Hg'; try tauto; try exact I.
      destruct Hg' as [<- [E Hg']]. injection E as -> ->. split; [reflexivity|]. rewrite map_app. cbn [map]. rewrite !removelast_snoc.
      split; [reflexivity|]. cbn [punct_toks punct_items perase p_map]. apply (tokd_app i0 s r); assumption.
Qed.
Lemma both_punctuated i : text i -> (length i <= N0)%nat ->
  both (fun r x y => y = perase x /\ tokd i r (punct_toks ta x) (punct_items sb y)) (lpunctuated total p i) (punctuated q i).
Proof.
  intros Ht HN. apply (both_punct_loop i (S (length i)) [] None i Ht HN); [apply tokd_nil, bsfx_refl|discriminate].
Qed.
End Lists.

(** Surrounded by two characters. *)
Definition enclosed {A B} (o c : N) (Q : str -> str -> A -> B -> Prop) (i r : str) (x : (loc * loc) * A) (b : B) : Prop :=
  exists j k e, at1 i j [o] (fst (fst x)) /\ Q j k (snd x) b /\ bsfx k e /\ at1 e r [c] (snd (fst x)).
Lemma both_surround {A B} o c (Q : str -> str -> A -> B -> Prop) p q i :
  text i -> (forall j k a b, Q j k a b -> sfx j k) ->
  (forall j, text j -> (S (length j) = length i)%nat -> both (Q j) (p j) (q j)) ->
  both (enclosed o c Q i) (lsurround total o c p i) (surround o c q i).
Proof.
  intros Ht Hs H. unfold lsurround, surround. eapply both_bind; [apply both_char|]. intros lo u j Hj. apply both_cut.
  assert (Htj : text j) by exact (sfx_text _ _ (at1_sfx _ _ _ _ Hj) Ht).
  eapply both_bind; [apply H; [exact Htj|destruct Hj as [-> _]; reflexivity]|]. intros a b k Hk.
  assert (Htk : text k) by exact (sfx_text _ _ (Hs _ _ _ _ Hk) Htj).
  eapply both_bind; [apply both_ws; [exact Htk|intros e He Hte]|].
  - eapply both_weak; [|apply both_char]. intros r l v Hl. exact (ex_intro (fun e => bsfx k e /\ at1 e r [c] l) e (conj He Hl)).
  - intros lc v r (e & He & Hl). apply both_ret. exists j, k, e. auto.
Qed.
Lemma enclosed_toks {A B} o c (h : A -> B) ta sb i r x b kd : o <> nl -> c <> nl ->
  enclosed o c (good h ta sb) i r x b ->
  b = h (snd x) /\ tokd i r (tk (fst (fst x)) kd :: ta (snd x) ++ [tk (snd (fst x)) kd]) (between kd [o] (sb b) [c]).
Proof.
  intros Ho Hc (j & k & e & H1 & [-> H2] & H3 & H4). split; [reflexivity|]. unfold between.
  apply (tokd_app i j r [_] _ [_]); [eapply at1_tok; [exact H1|reflexivity|discriminate|intros [E|[]]; congruence]|].
  apply (tokd_app j k r); [exact H2|]. apply (tokd_pre k e); [exact H3|]. eapply at1_tok; [exact H4|reflexivity|discriminate|intros [E|[]]; congruence].
Qed.
Lemma enclosed_silent {A B} o c (h : A -> B) ta sb i r x b : enclosed o c (good h ta sb) i r x b ->
  b = h (snd x) /\ tokd i r (ta (snd x)) (Silent (eq [o]) :: sb b ++ [Silent (eq [c])]).
Proof.
  intros (j & k & e & [-> H1] & [-> H2] & H3 & [-> H4]). split; [reflexivity|]. change (ta (snd x)) with ([] ++ ta (snd x)). rewrite <- (app_nil_r (ta (snd x))).
  apply (tokd_app _ j r [] _ [_]); [apply tokd_silent; reflexivity|]. apply (tokd_app j k r); [exact H2|]. apply (tokd_pre k _ _ _ _ H3). apply tokd_silent. reflexivity.
Qed.
End Total.
